(** * C54 for accepted grammars: every well-formed text has exactly one parse tree, and
    the parser, with or without the tables the library adds, evaluates it. *)
From Verif Require Import Base BaseLemmas Utf8 Utf8Spec Escape TrieM LineInfo Ope Ctx ErrLog Engine EngineLemmas Top Scope TopFacts
  RefSem Refine TopRef RefExt GrammarCond PegDen PegEngine FirstSetM FirstSpec FirstSetup FirstTop FirstCheck
  PackratFilter PrecSpec PrecM LoadM LoadSpec LoadRefs DicDen LoadPeg LoadLoop LoadLR LrWf LoadMain LoadWf LoadCheck LoadTop Samples PropLoad PropTerm PropMemo LrSpec TreeSpec TreeTop PropTree.
From Verif Require PegSpec PegFacts.

(** Parser [Q] on [input] reports the tree outcome [y], with the values [val]. *)
Definition evaluates {V U} (Q : pobj V U) (val : ptree -> option V) (input : bytes) (dt : U) (y : option found) : Prop :=
  exists b reps res F, (forall fuel, F <= fuel -> parser_parse fuel Q input dt = Ok (b, reps, res))
    /\ b = rs_ret res
    /\ match y with
       | None => b = false
       | Some f => b = negb (p_eoi Q) || (f_len f =? List.length input)
                   /\ (b = true -> rs_len res = f_len f
                                   /\ (recognize_only Q = false -> v_vals (rs_vs res) = map val (f_kids f)))
       end.

Section Lift.
  Context {V U : Type}.
  Implicit Types (P Q : pobj V U).
  Lemma evaluates_own P input dt md mm y :
    core_parser md mm P -> bare_parser P -> pure (mk_env P input) -> (forall q, p_pred P q = None) -> settled (iterated P) input ->
    tree_of P input y -> evaluates P (value P input) input dt y.
  Proof.
    intros Hc Hb Hp Hpr Hs Hy. destruct (parse_is_evaluation P input dt md mm y Hc Hb Hp Hpr Hs Hy) as (b & reps & res & F & H1 & H2 & H3).
    exists b, reps, res, F. split; [exact H1|]. split; [exact H2|]. destruct y as [f|]; [|exact H3]. destruct H3 as (H3 & H4 & H5).
    split; [exact H3|]. intros _. split; [exact H4|]. intros Hr. now apply H5.
  Qed.
  Lemma evaluates_same P Q val input dt y : p_eoi Q = p_eoi P -> recognize_only Q = recognize_only P ->
    same_outcome Q P input dt -> evaluates P val input dt y -> evaluates Q val input dt y.
  Proof.
    intros He Hr (b & reps1 & res1 & reps2 & res2 & F1 & HS) (b' & reps & res & F2 & H1 & H2 & H3).
    pose proof (HS (F1 + F2) (Nat.le_add_r _ _)) as (A1 & A2 & A3 & A4). pose proof (H1 (F1 + F2) (Nat.le_add_l _ _)) as B1.
    rewrite A2 in B1. injection B1 as <- <- <-. exists b, reps1, res1, F1. split; [intros fuel Hf; apply HS; exact Hf|].
    split; [congruence|]. rewrite He, Hr. destruct y as [f|]; [|exact H3]. destruct H3 as [H3 H4]. split; [exact H3|]. intros Hb.
    destruct (H4 Hb) as [H5 H6]. assert (Ht : rs_ret res1 = true) by congruence. destruct (A4 Ht) as [A5 A6]. split; [congruence|].
    intros Hro. rewrite A6 by congruence. auto.
  Qed.
End Lift.

(** With the first-byte tables, scans and keyword guards, where C16 applies. *)
Theorem C54_first_sets_partial :
  forall (V U : Type) (P : pobj V U) wr k n order g' (input : bytes) (dt : U) md mm odd y,
  core_parser md mm P -> p_word P = None -> bare_grammar (p_g P) = true -> bare_parser P -> p_ws P = ws_expr (p_g P) wr ->
  setup_first_sets k n order (p_g P) = Ok g' ->
  no_empty_recursion (p_g P) -> regular_alternatives (p_g P) (is_some (p_ws P)) odd -> regular_spans (p_g P) odd ->
  no_keyword_guard (p_g P) ->
  plain_text input -> (odd = false -> ascii_text input) ->
  pure (mk_env P input) -> (forall r, p_pred P r = None) ->
  settled (iterated P) input -> tree_of P input y ->
  evaluates (with_grammar P g' (ws_expr g' wr)) (value P input) input dt y.
Proof.
  intros V U P wr k n order g' input dt md mm odd y Hc Hw Hbg Hb Hws Hset Hne Hra Hrs Hk Hpl Ho Hp Hpr Hs Hy.
  apply (evaluates_same P); [reflexivity|exact (annotated_recog P wr k n order g' Hbg Hws Hset Hne Hw)| |eapply evaluates_own; eauto].
  destruct Hs as (j & x & Hx). destruct (ref_top_iterated P input md mm j x Hc (bare_parser_anns P input Hb) Hpr Hx) as (j' & x' & Hx' & _).
  eapply (annotated_same P wr k n order g' input dt md mm odd); eauto. now apply no_guards_sound.
Qed.
Print Assumptions C54_first_sets_partial.

(** [src] is accepted (as in C45): on every UTF-8 text exactly one tree, and both the
    parser without tables and, where C16 applies, the one with tables evaluate it. *)
Theorem C54_accepted_grammars_partial :
  forall (V U : Type) fuel keq lrec instrs start src l (P : pobj V U) (input : bytes) (dt : U) md mm,
  source_grammar src -> load fuel keq lrec instrs start src = Some (Accepted l) -> no_precedence instrs ->
  let g := link_all src in
  let wr := rule_named src ws_name in
  ordinary_grammar g -> (forall d b, In d g -> r_is_macro d = false -> r_body d = Some b -> regular g b) ->
  plain_rule g (ld_start l) -> (forall w, wr = Some w -> plain_rule g w) ->
  recursions_direct (strip_grammar (ld_g l)) wr ->
  (forall r d b e mn sp, run g (ld_start l) wr r -> nth_error g r = Some d -> r_body d = Some b ->
     inside [] b (Rep e mn None sp) -> looped g (ld_start l) wr r b (Rep e mn None sp) -> ~ may_be_empty g e) ->
  (forall r d b x w, run g (ld_start l) wr r -> nth_error g r = Some d -> r_body d = Some b -> inside [] b x -> word_of x w -> valid_utf8 w) ->
  p_g P = strip_grammar (ld_g l) -> p_ws P = ws_expr (p_g P) wr -> p_start P = ld_start l ->
  core_parser md mm P -> bare_parser P -> p_word P = None -> (forall q, p_pred P q = None) -> valid_utf8 input -> pure (mk_env P input) ->
  exists y, (tree_of P input y /\ forall z, tree_of P input z -> z = y)
    /\ evaluates P (value P input) input dt y
    /\ forall odd, no_empty_recursion (p_g P) -> regular_alternatives (p_g P) (is_some (p_ws P)) odd -> regular_spans (p_g P) odd -> no_keyword_guard (p_g P) ->
         plain_text input -> (odd = false -> ascii_text input) ->
         evaluates (with_grammar P (ld_g l) (ld_ws l)) (value P input) input dt y.
Proof.
  intros V U fuel keq lrec instrs start src l P input dt md mm Hsrc Hload Hnp g wr Hord Hreg Hsp Hwp Hlr Hin Hlit H1 H2 H3 Hc Hb Hwn Hp Hu Hpu.
  assert (Hs : settled (iterated P) input).
  { rewrite H1 in H2. exact (accepted_settled_iter fuel keq lrec instrs start src l Hsrc Hload Hnp Hord Hreg Hlr Hsp Hwp Hin Hlit P input H1 H2 H3 Hwn Hp Hu). }
  destruct (one_tree P input md mm Hc Hb Hp Hs) as (y & Hy & Hu').
  pose proof (evaluates_own P input dt md mm y Hc Hb Hpu Hp Hs Hy) as He.
  exists y. split; [split; assumption|]. split; [exact He|]. intros odd Hne Hra Hrs Hk Hpl Ho.
  rewrite H1 in H2, Hne, Hra, Hrs, Hk. apply (evaluates_same P); [reflexivity| | |exact He].
  { eapply (accepted_recog fuel keq lrec instrs start src l Hsrc Hload Hnp Hlr P); eauto. }
  eapply (accepted_tables fuel keq lrec instrs start src l Hsrc Hload Hnp Hord Hreg Hlr Hsp Hwp Hin Hlit P input dt md mm odd); eauto.
Qed.
Print Assumptions C54_accepted_grammars_partial.

(** The grammar of C45:  S <- T ('+' T)*    T <- < [0-9]+ > / '(' S ')'    %whitespace <- [ ]*  *)
Example C54_accepted_meets : exists l (P : pobj bytes unit),
  load 50 no_keys true [] (bs "S") c45_src = Some (Accepted l)
  /\ p_g P = strip_grammar (ld_g l) /\ recognize_only P = false
  /\ (forall input dt, valid_utf8 input ->
        exists y, (tree_of P input y /\ forall z, tree_of P input z -> z = y) /\ evaluates P (value P input) input dt y)
  /\ exists reps res, parser_parse 60 P (bs "1 + (2+3)") tt = Ok (true, reps, res) /\ v_vals (rs_vs res) = [Some (bs "1 + (2+3)")].
Proof.
  destruct c45_loaded as [[|l]|] eqn:El; [vm_compute in El; discriminate| |vm_compute in El; discriminate].
  pose (P := sample_at (ld_start l) (strip_grammar (ld_g l)) (ws_expr (strip_grammar (ld_g l)) (rule_named c45_src ws_name))).
  assert (El' : load 50 no_keys true [] (bs "S") c45_src = Some (Accepted l)) by (unfold c45_loaded in El; exact El).
  assert (H1 : source_grammar c45_src) by is_source.
  assert (H2 : ordinary_grammar (link_all c45_src)) by is_ordinary.
  assert (H3 : forall d b, In d (link_all c45_src) -> r_is_macro d = false -> r_body d = Some b -> regular (link_all c45_src) b) by is_regular 5.
  assert (H4 : forall d, In d (ld_g l) -> r_lr d = false).
  { vm_compute in El. injection El as <-. intros d [<- | [<- | [<- | [<- | []]]]]; reflexivity. }
  assert (H4' : recursions_direct (strip_grammar (ld_g l)) (rule_named c45_src ws_name)) by (apply no_recursion_direct; intros d Hd; apply in_map_iff in Hd as (d0 & <- & Hd0); exact (H4 d0 Hd0)).
  assert (H5 : core_parser (fun _ => m_top) [m_top] P).
  { vm_compute in El. injection El as <-. constructor; try reflexivity; [split; [reflexivity|]; eexists; split; reflexivity|discriminate]. }
  assert (H8 : plain_rule (link_all c45_src) (ld_start l)) by (vm_compute in El; injection El as <-; is_plain).
  assert (H9 : forall w, rule_named c45_src ws_name = Some w -> plain_rule (link_all c45_src) w) by (intros w Hw; vm_compute in Hw; injection Hw as <-; is_plain).
  assert (H6 : p_start P = ld_start l) by (vm_compute in El; injection El as <-; reflexivity).
  assert (H7 : bare_parser P) by (vm_compute in El; injection El as <-; split; [reflexivity|split; (reflexivity || exact I)]).
  destruct (consumes_checked (link_all c45_src) 5) as [C1 C2]; [vm_compute; reflexivity|vm_compute; reflexivity|].
  exists l, P. split; [exact El'|]. split; [reflexivity|]. split; [vm_compute in El; injection El as <-; reflexivity|]. split.
  - intros input dt Hu.
    destruct (C54_accepted_grammars_partial bytes unit 50 no_keys true [] (bs "S") c45_src l P input dt (fun _ => m_top) [m_top] H1 El') as (y & A & B & _); auto.
    + intros r ls [].
    + intros r d b e mn sp _ Hd Hb Hi _. eapply C1; eauto. eapply nth_error_In; eauto.
    + intros r d b x w _ Hd Hb Hi Hw. eapply C2; eauto. eapply nth_error_In; eauto.
    + constructor; cbn; [|discriminate|discriminate]. intros r f inp vs u u' pd H. injection H as <-. reflexivity.
    + exists y. split; assumption.
  - vm_compute in El. injection El as <-. eexists _, _. split; [vm_compute; reflexivity|]. reflexivity.
Qed.
