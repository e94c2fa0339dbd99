(** * C45: parsers of accepted grammars terminate. *)
From Verif Require Import Base BaseLemmas Utf8 Utf8Spec Escape TrieM LineInfo Ope Ctx ErrLog Engine EngineLemmas Top Scope TopFacts
  RefSem Refine TopRef GrammarCond PegDen PegEngine FirstSetM FirstSpec FirstSetup FirstTop FirstCheck
  PackratFilter PrecSpec PrecM LoadM LoadSpec LoadRefs DicDen LoadPeg LoadLoop LoadLR LrWf LoadMain LoadWf LoadCheck LoadTop Samples PropLoad PropFirst.
From Verif Require PegSpec PegFacts.

(** [src] is accepted, without precedence instructions, and its rules marked as
    left-recursive are directly so (recursions_direct: A <- A a1 / ... / b1 / ..., with
    [ai] that consume); [P] is a parser for it, evaluating every alternative (the first-byte
    tables are removed).  If in addition the repetitions that can be run inside another
    one consume, then every parse of every UTF-8 text ends: from some amount of fuel on
    the answer is there and does not change. *)
Theorem C45_accepted_grammars_terminate_partial :
  forall (V U : Type) fuel keq lrec instrs start src l (P : pobj V U) (input : bytes) (dt : U) md mm,
  source_grammar src -> load fuel keq lrec instrs start src = Some (Accepted l) -> no_precedence instrs ->
  let g := link_all src in
  let wr := rule_named src ws_name in
  ordinary_grammar g -> (forall d b, In d g -> r_is_macro d = false -> r_body d = Some b -> regular g b) ->
  plain_rule g (ld_start l) -> (forall w, wr = Some w -> plain_rule g w) ->
  recursions_direct (strip_grammar (ld_g l)) wr ->
  (forall r d b e mn sp, run g (ld_start l) wr r -> nth_error g r = Some d -> r_body d = Some b ->
     inside [] b (Rep e mn None sp) -> looped g (ld_start l) wr r b (Rep e mn None sp) -> ~ may_be_empty g e) ->
  (forall r d b x w, run g (ld_start l) wr r -> nth_error g r = Some d -> r_body d = Some b -> inside [] b x -> word_of x w -> valid_utf8 w) ->
  p_g P = strip_grammar (ld_g l) -> p_ws P = ws_expr (p_g P) wr -> p_start P = ld_start l ->
  core_parser md mm P -> p_word P = None -> (forall q, p_pred P q = None) -> valid_utf8 input ->
  exists b reps res F, forall fuel, F <= fuel -> parser_parse fuel P input dt = Ok (b, reps, res).
Proof.
  intros V U fuel keq lrec instrs start src l P input dt md mm Hsrc Hload Hnp g wr Hord Hreg Hsp Hwp Hlr Hin Hlit H1 H2 H3 Hc Hwn Hp Hu.
  rewrite H1 in H2. exact (accepted_terminates fuel keq lrec instrs start src l Hsrc Hload Hnp Hord Hreg Hlr Hsp Hwp Hin Hlit P input dt md mm H1 H2 H3 Hc Hwn Hp Hu).
Qed.
Print Assumptions C45_accepted_grammars_terminate_partial.

(** With the tables, where the conditions of C16 hold, both parsers end, with the same
    answer. *)
Theorem C45_tables_terminate_partial :
  forall (V U : Type) fuel keq lrec instrs start src l (P : pobj V U) (input : bytes) (dt : U) md mm odd,
  source_grammar src -> load fuel keq lrec instrs start src = Some (Accepted l) -> no_precedence instrs ->
  let g := link_all src in
  let wr := rule_named src ws_name in
  ordinary_grammar g -> (forall d b, In d g -> r_is_macro d = false -> r_body d = Some b -> regular g b) ->
  plain_rule g (ld_start l) -> (forall w, wr = Some w -> plain_rule g w) ->
  recursions_direct (strip_grammar (ld_g l)) wr ->
  (forall r d b e mn sp, run g (ld_start l) wr r -> nth_error g r = Some d -> r_body d = Some b ->
     inside [] b (Rep e mn None sp) -> looped g (ld_start l) wr r b (Rep e mn None sp) -> ~ may_be_empty g e) ->
  (forall r d b x w, run g (ld_start l) wr r -> nth_error g r = Some d -> r_body d = Some b -> inside [] b x -> word_of x w -> valid_utf8 w) ->
  p_g P = strip_grammar (ld_g l) -> p_ws P = ws_expr (p_g P) wr -> p_start P = ld_start l ->
  core_parser md mm P -> p_word P = None -> (forall q, p_pred P q = None) -> valid_utf8 input ->
  no_empty_recursion (p_g P) -> regular_alternatives (p_g P) (is_some (p_ws P)) odd -> regular_spans (p_g P) odd -> no_keyword_guard (p_g P) ->
  plain_text input -> (odd = false -> ascii_text input) -> pure (mk_env P input) ->
  same_outcome (with_grammar P (ld_g l) (ld_ws l)) P input dt.
Proof.
  intros V U fuel keq lrec instrs start src l P input dt md mm odd Hsrc Hload Hnp g wr Hord Hreg Hsp Hwp Hlr Hin Hlit H1 H2 H3 Hc Hwn Hp Hu. rewrite H1 in *.
  exact (accepted_tables fuel keq lrec instrs start src l Hsrc Hload Hnp Hord Hreg Hlr Hsp Hwp Hin Hlit P input dt md mm odd H1 H2 H3 Hc Hwn Hp Hu).
Qed.
Print Assumptions C45_tables_terminate_partial.

(** S <- T (('+' | '-') T)*    T <- < [0-9]+ > / '(' S ')'    %whitespace <- [ ]*  *)
Definition c45_src : grammar :=
  [recover_rule;
   plain "S" (seqs [rf "T"; many (seqs [Dic (make_trie [bs "+"; bs "-"] false); rf "T"])]);
   plain "T" (alts [Tok (Rep (Cls [(48, 57)%N] false false) 1 None None); seqs [lit "("; rf "S"; lit ")"]]);
   plain "%whitespace" (many (Cls [(32, 32)%N] false false))].
Definition c45_loaded : option verdict := load 50 no_keys true [] (bs "S") c45_src.
Definition consumes_at (g : grammar) (k : nat) (x : ope) : bool :=
  match x with
  | Rep e _ None _ => negb (nlb (stage g k) e)
  | Lit w _ => forallb (fun b => (bN b <? 128)%N) w
  | Dic t => forallb (forallb (fun b => (bN b <? 128)%N)) (dic_words t)
  | _ => true
  end.
Lemma ascii_valid w : forallb (fun b => (bN b <? 128)%N) w = true -> valid_utf8 w.
Proof.
  intros H. rewrite forallb_forall in H. exists (map bN w). split.
  - apply Forall_map, Forall_forall. intros b Hb. specialize (H b Hb). apply N.ltb_lt in H. unfold scalar. lia.
  - induction w as [|b w IH]; [reflexivity|]. cbn [map flat_map List.concat]. rewrite <- IH by (intros; apply H; now right).
    unfold rfc3629. pose proof (H b (or_introl eq_refl)) as Hb. apply N.ltb_lt in Hb. replace (bN b <=? 0x7F)%N with true by (symmetry; apply N.leb_le; lia). reflexivity.
Qed.
Lemma consumes_checked g k : stable g k = true -> body_sat g (fun b => forallb (consumes_at g k) (insides b)) = true ->
  (forall d b e mn sp, In d g -> r_body d = Some b -> inside [] b (Rep e mn None sp) -> ~ may_be_empty g e)
  /\ (forall d b x w, In d g -> r_body d = Some b -> inside [] b x -> word_of x w -> valid_utf8 w).
Proof.
  intros Hst H. split.
  - intros d b e mn sp Hd Hb Hi He. pose proof (body_sat_spec _ _ H d b Hd Hb) as X. cbn beta in X. rewrite forallb_forall in X.
    specialize (X _ (inside_listed _ _ Hi)). cbn in X. apply (me_iff g k Hst) in He. now rewrite He in X.
  - intros d b x w Hd Hb Hi Hw. pose proof (body_sat_spec _ _ H d b Hd Hb) as X. cbn beta in X. rewrite forallb_forall in X.
    specialize (X _ (inside_listed _ _ Hi)). destruct x; cbn [word_of] in Hw; try (destruct Hw; fail); cbn [consumes_at] in X; apply ascii_valid; [|now subst w].
    rewrite forallb_forall in X. auto.
Qed.
(** [sample] with the start rule the loader found. *)
Definition sample_at (start : rid) (g : grammar) (ws : option ope) : pobj bytes unit :=
  {| p_g := g; p_start := start; p_ws := ws; p_word := None; p_packrat := false; p_slot := fun _ => None;
     p_cached := 0; p_eoi := true; p_tracer := false; p_verbose := true; p_log := false; p_u0 := tt;
     p_action := fun _ => Some (fun inp vs u _ => (Some (sub inp (fst (v_sv vs)) (snd (v_sv vs))), u));
     p_pred := fun _ => None; p_enter := fun _ => None; p_leave := fun _ => None;
     p_user := fun _ _ _ vs u => (None, vs, u) |}.
Example C45_meets : exists l (P : pobj bytes unit),
  source_grammar c45_src /\ load 50 no_keys true [] (bs "S") c45_src = Some (Accepted l)
  /\ ordinary_grammar (link_all c45_src)
  /\ (forall d b, In d (link_all c45_src) -> r_is_macro d = false -> r_body d = Some b -> regular (link_all c45_src) b)
  /\ (forall d, In d (ld_g l) -> r_lr d = false)
  /\ p_g P = strip_grammar (ld_g l) /\ p_ws P = ws_expr (p_g P) (rule_named c45_src ws_name) /\ p_start P = ld_start l
  /\ core_parser (fun _ => m_top) [m_top] P /\ (forall q, p_pred P q = None)
  /\ forall input dt, valid_utf8 input -> exists b reps res F, forall fuel, F <= fuel -> parser_parse fuel P input dt = Ok (b, reps, res).
Proof.
  destruct c45_loaded as [[|l]|] eqn:El; [vm_compute in El; discriminate| |vm_compute in El; discriminate].
  pose (P := sample_at (ld_start l) (strip_grammar (ld_g l)) (ws_expr (strip_grammar (ld_g l)) (rule_named c45_src ws_name))).
  assert (El' : load 50 no_keys true [] (bs "S") c45_src = Some (Accepted l)) by (unfold c45_loaded in El; exact El).
  assert (H1 : source_grammar c45_src) by is_source.
  assert (H2 : ordinary_grammar (link_all c45_src)) by is_ordinary.
  assert (H3 : forall d b, In d (link_all c45_src) -> r_is_macro d = false -> r_body d = Some b -> regular (link_all c45_src) b) by is_regular 5.
  assert (H4 : forall d, In d (ld_g l) -> r_lr d = false).
  { vm_compute in El. injection El as <-. intros d [<- | [<- | [<- | [<- | []]]]]; reflexivity. }
  assert (H4' : recursions_direct (strip_grammar (ld_g l)) (rule_named c45_src ws_name)) by (apply no_recursion_direct; intros d Hd; apply in_map_iff in Hd as (d0 & <- & Hd0); exact (H4 d0 Hd0)).
  assert (H5 : core_parser (fun _ => m_top) [m_top] P).
  { vm_compute in El. injection El as <-. constructor; try reflexivity; [split; [reflexivity|]; eexists; split; reflexivity|discriminate]. }
  assert (H8 : plain_rule (link_all c45_src) (ld_start l)) by (vm_compute in El; injection El as <-; is_plain).
  assert (H9 : forall w, rule_named c45_src ws_name = Some w -> plain_rule (link_all c45_src) w) by (intros w Hw; vm_compute in Hw; injection Hw as <-; is_plain).
  assert (H6 : p_start P = ld_start l) by (vm_compute in El; injection El as <-; reflexivity).
  destruct (consumes_checked (link_all c45_src) 5) as [C1 C2]; [vm_compute; reflexivity|vm_compute; reflexivity|].
  exists l, P. split; [exact H1|]. split; [exact El'|]. split; [exact H2|]. split; [exact H3|]. split; [exact H4|]. split; [reflexivity|]. split; [reflexivity|].
  split; [exact H6|]. split; [exact H5|]. split; [reflexivity|]. intros input dt Hu.
  apply (C45_accepted_grammars_terminate_partial bytes unit 50 no_keys true [] (bs "S") c45_src l P input dt (fun _ => m_top) [m_top] H1 El'); auto.
  - intros r ls [].
  - intros r d b e mn sp _ Hd Hb Hi _. eapply C1; eauto. eapply nth_error_In; eauto.
  - intros r d b x w _ Hd Hb Hi Hw. eapply C2; eauto. eapply nth_error_In; eauto.
Qed.

(** The same with two directly left-recursive rules:
    S <- S '+' T / S '-' T / T    T <- T '*' F / F    F <- < [0-9]+ > / '(' S ')'    %whitespace <- [ ]*  *)
Lemma nonempty_checked g k : stable g k = true -> forall o, nlb (stage g k) o = false -> ~ may_be_empty g o.
Proof. intros H o Ho He. apply (me_iff g k H) in He. congruence. Qed.
Definition c45_lr_src : grammar :=
  [recover_rule;
   plain "S" (alts [seqs [rf "S"; lit "+"; rf "T"]; seqs [rf "S"; lit "-"; rf "T"]; rf "T"]);
   plain "T" (alts [seqs [rf "T"; lit "*"; rf "F"]; rf "F"]);
   plain "F" (alts [Tok (Rep (Cls [(48, 57)%N] false false) 1 None None); seqs [lit "("; rf "S"; lit ")"]]);
   plain "%whitespace" (many (Cls [(32, 32)%N] false false))].
Definition c45_lr_calls (r r' : rid) : bool := existsb (Nat.eqb r') (match r with 1 => [1; 2; 3] | 2 => [2; 3] | _ => [] end).
Definition c45_lr_loaded : option verdict := load 20 no_keys true [] (bs "S") c45_lr_src.
Definition c45_lr_l : loaded := Eval vm_compute in match c45_lr_loaded with Some (Accepted l) => l | _ => {| ld_g := []; ld_start := 0; ld_ws := None; ld_word := None |} end.
Example C45_left_recursion_meets : exists l (P : pobj bytes unit),
  source_grammar c45_lr_src /\ load 20 no_keys true [] (bs "S") c45_lr_src = Some (Accepted l)
  /\ map r_lr (ld_g l) = [false; true; true; false; false]
  /\ recursions_direct (strip_grammar (ld_g l)) (rule_named c45_lr_src ws_name)
  /\ p_g P = strip_grammar (ld_g l) /\ p_ws P = ws_expr (p_g P) (rule_named c45_lr_src ws_name) /\ p_start P = ld_start l
  /\ core_parser (fun _ => m_top) [m_top] P /\ (forall q, p_pred P q = None)
  /\ (forall input dt, valid_utf8 input -> exists b reps res F, forall fuel, F <= fuel -> parser_parse fuel P input dt = Ok (b, reps, res))
  /\ (forall input dt, valid_utf8 input -> same_outcome (with_grammar P (ld_g l) (ld_ws l)) P input dt).
Proof.
  set (l := c45_lr_l).
  pose (P := sample_at (ld_start l) (strip_grammar (ld_g l)) (ws_expr (strip_grammar (ld_g l)) (rule_named c45_lr_src ws_name))).
  assert (El' : load 20 no_keys true [] (bs "S") c45_lr_src = Some (Accepted l)) by (vm_compute; reflexivity).
  assert (H1 : source_grammar c45_lr_src) by is_source.
  assert (H2 : ordinary_grammar (link_all c45_lr_src)) by is_ordinary.
  assert (H3 : forall d b, In d (link_all c45_lr_src) -> r_is_macro d = false -> r_body d = Some b -> regular (link_all c45_lr_src) b) by is_regular 5.
  assert (H4 : recursions_direct (strip_grammar (ld_g l)) (rule_named c45_lr_src ws_name)).
  { clear. match goal with |- recursions_direct ?g ?w => let g' := eval vm_compute in g in let w' := eval vm_compute in w in replace g with g' by (vm_compute; reflexivity); replace w with w' by (vm_compute; reflexivity) end. constructor.
    - intros [|[|[|[|[|r]]]]] d Hd Hm Hl; cbn in Hd; try (injection Hd as <-); try discriminate; try (destruct r; discriminate).
      + do 5 eexists. split; [reflexivity|]. split; [reflexivity|]. split; [reflexivity|]. split; [discriminate|]. split; [discriminate|]. split.
        * intros t [<- |[<- |[]]]; refine (nonempty_checked _ 5 _ _ _); vm_compute; reflexivity.
        * match goal with |- ~ left_reaches ?g _ _ => apply (not_left g 5 ltac:(vm_compute; reflexivity) [2; 3]) end; vm_compute; reflexivity.
      + do 5 eexists. split; [reflexivity|]. split; [reflexivity|]. split; [reflexivity|]. split; [discriminate|]. split; [discriminate|]. split.
        * intros t [<- |[]]; refine (nonempty_checked _ 5 _ _ _); vm_compute; reflexivity.
        * match goal with |- ~ left_reaches ?g _ _ => apply (not_left g 5 ltac:(vm_compute; reflexivity) [3]) end; vm_compute; reflexivity.
    - intros w d Hw Hd. injection Hw as <-. cbn in Hd. injection Hd as <-. reflexivity. }
  assert (H5 : core_parser (fun _ => m_top) [m_top] P).
  { constructor; try reflexivity; [split; [reflexivity|]; eexists; split; reflexivity|discriminate]. }
  assert (H8 : plain_rule (link_all c45_lr_src) (ld_start l)) by (is_plain).
  assert (H9 : forall w, rule_named c45_lr_src ws_name = Some w -> plain_rule (link_all c45_lr_src) w) by (assert (E : rule_named c45_lr_src ws_name = Some 4) by (vm_compute; reflexivity); intros w Hw; rewrite E in Hw; injection Hw as <-; is_plain).
  assert (H6 : p_start P = ld_start l) by (reflexivity).
  destruct (consumes_checked (link_all c45_lr_src) 5) as [C1 C2]; [vm_compute; reflexivity|vm_compute; reflexivity|].
  assert (Hcert : certified (strip_grammar (ld_g l)) (fun r => r =? 4) c45_lr_calls (fun _ _ => false) true true true = true).
  { vm_compute. reflexivity. }
  exists l, P. split; [exact H1|]. split; [exact El'|]. split; [reflexivity|]. split; [exact H4|]. split; [reflexivity|]. split; [reflexivity|].
  split; [exact H6|]. split; [exact H5|]. split; [reflexivity|]. split.
  - intros input dt Hu.
    apply (C45_accepted_grammars_terminate_partial bytes unit 20 no_keys true [] (bs "S") c45_lr_src l P input dt (fun _ => m_top) [m_top] H1 El'); auto.
    + intros r ls [].
    + intros r d b e mn sp _ Hd Hb Hi _. eapply C1; eauto. eapply nth_error_In; eauto.
    + intros r d b x w _ Hd Hb Hi Hw. eapply C2; eauto. eapply nth_error_In; eauto.
  - intros input dt Hu.
    apply (C45_tables_terminate_partial bytes unit 20 no_keys true [] (bs "S") c45_lr_src l P input dt (fun _ => m_top) [m_top] true H1 El').
    + intros r ls [].
    + exact H2.
    + exact H3.
    + exact H8.
    + exact H9.
    + exact H4.
    + intros r d b e mn sp _ Hd Hb Hi _. eapply C1; eauto. eapply nth_error_In; eauto.
    + intros r d b x w _ Hd Hb Hi Hw. eapply C2; eauto. eapply nth_error_In; eauto.
    + reflexivity.
    + reflexivity.
    + exact H6.
    + exact H5.
    + reflexivity.
    + reflexivity.
    + exact Hu.
    + exact (certified_no_empty_recursion _ _ _ _ _ _ _ Hcert).
    + assert (Ew : Top.is_some (p_ws P) = true) by (reflexivity). rewrite Ew. exact (certified_alternatives _ _ _ _ _ _ _ Hcert).
    + exact (certified_spans _ _ _ _ _ _ _ Hcert).
    + exact (certified_guards _ _ _ _ _ _ _ Hcert eq_refl).
    + now apply utf8_plain.
    + discriminate.
    + constructor; cbn; [|discriminate|discriminate]. intros r f inp vs u u' pd Hq. inv Hq. reflexivity.
Qed.
