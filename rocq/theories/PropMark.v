(** * C39, C45: the marks (has_macro_ref) a parse leaves in the rules of a grammar object
    have no effect on later parses. *)
From Verif Require Import Base BaseLemmas Utf8 Escape TrieM LineInfo Ope Ctx ErrLog Engine EngineLemmas Frame Scope Top Samples IndepSpec PackratFilter SessionM Session.
From Verif Require Import Base BaseLemmas Utf8 Utf8Spec Escape TrieM LineInfo Ope Ctx ErrLog Engine EngineLemmas Top Scope TopFacts
  RefSem Refine TopRef GrammarCond PegDen PegEngine FirstSetM FirstSpec FirstSetup FirstTop FirstCheck
  PackratFilter PrecSpec PrecM LoadM LoadSpec LoadRefs DicDen LoadPeg LoadLoop LoadLR LrWf LoadMain LoadWf LoadCheck LoadTop Samples PropLoad PropFirst.
From Verif Require Import RefMark MarkTop PropTerm.
From Verif Require RefStrip.

Lemma mref_calls g o : mref g o = true -> calls_macro g o = true \/ uses_param o = true.
Proof.
  assert (Hl : forall l, Forall (fun o => mref g o = true -> calls_macro g o = true \/ uses_param o = true) l ->
    existsb (mref g) l = true -> existsb (calls_macro g) l = true \/ existsb uses_param l = true).
  { induction 1 as [|x l Hx _ IH]; [discriminate|]. cbn [existsb]. rewrite !orb_true_iff. tauto. }
  induction o using ope_ind'; cbn [mref calls_macro uses_param]; intros Hm; auto; try discriminate.
  destruct rl as [r|]; [|now right]. destruct (nth_error g r) as [d|]; [|discriminate]. left. now rewrite Hm.
Qed.
Lemma macro_marks_enough mk g : macro_marks (marked mk g) -> enough mk g.
Proof.
  intros H r d b Hd Hb Hm Hr. assert (Hd' : nth_error (marked mk g) r = Some (with_mark (mk r) d)) by now rewrite marked_nth, Hd.
  destruct (H r _ b Hd' Hb) as [H1 H2]. cbn [with_mark r_is_macro r_macro_ref] in H1, H2.
  destruct (mref_calls g b Hr) as [Hc|Hu].
  - destruct H2 as [H2|H2]; [|congruence|exact H2]. now rewrite calls_marked.
  - rewrite H1 in Hm; [discriminate|exact Hu].
Qed.

Lemma after_one {V U} g (cfg : rid -> pobj V U) sig s : forall starts se, after g cfg sig se (starts ++ [s]) = prepare g cfg sig s (after g cfg sig se starts).
Proof. induction starts as [|x l IH]; intros se; [reflexivity|]. cbn [app after]. apply IH. Qed.

(** ** C39.  A parse from [s] after any parses, started from any rules, ends as one with
    the rules as they were loaded (all marked). *)
Theorem C39_marks_do_not_matter :
  forall (V U : Type) (g : grammar) (cfg : rid -> pobj V U) (sig : ope -> ope -> bool) (starts : list rid) (s : rid) (input : bytes) (dt : U) md mm,
  (forall d, In d g -> r_macro_ref d = true) ->
  (forall r d b, nth_error g r = Some d -> r_body d = Some b -> uses_param b = true -> r_is_macro d = true) ->
  let Q := SessionM.start_at g cfg s (prepare g cfg sig s (after g cfg sig sess0 starts)) in
  let P := with_grammar Q g (p_ws Q) in
  core_parser md mm P -> anns_parser P input ->
  pure (mk_env P input) -> (recognize_only P = true -> forall r, p_pred P r = None) ->
  (exists j x, ref_top j (mk_env P input) (p_start P) = Some x) ->
  same_outcome Q P input dt.
Proof.
  intros V U g cfg sig starts s input dt md mm Hall Hu Q P Hc Ha Hp Hr Hx.
  set (mk := s_mark (prepare g cfg sig s (after g cfg sig sess0 starts))).
  change Q with (with_grammar P (marked mk (p_g P)) (p_ws P)).
  apply (marks_same mk P input dt md mm Hc Ha); auto.
  - intros r d Hd _. apply Hall. apply nth_error_In in Hd. exact Hd.
  - apply macro_marks_enough. change (p_g P) with g.
    replace mk with (s_mark (after g cfg sig sess0 (starts ++ [s]))); [now apply marks_ok|].
    unfold mk. f_equal. apply after_one.
Qed.
Print Assumptions C39_marks_do_not_matter.

(** ** C45, as the library parses: with the tables and with the marks of a session. *)
Theorem C45_marked_tables_terminate_partial :
  forall (V U : Type) fuel keq lrec instrs start src l (P : pobj V U) (input : bytes) (dt : U) md mm odd mk,
  source_grammar src -> load fuel keq lrec instrs start src = Some (Accepted l) -> no_precedence instrs ->
  let g := link_all src in
  let wr := rule_named src ws_name in
  ordinary_grammar g -> (forall d b, In d g -> r_is_macro d = false -> r_body d = Some b -> regular g b) ->
  plain_rule g (ld_start l) -> (forall w, wr = Some w -> plain_rule g w) ->
  recursions_direct (strip_grammar (ld_g l)) wr ->
  (forall r d b e mn sp, run g (ld_start l) wr r -> nth_error g r = Some d -> r_body d = Some b ->
     inside [] b (Rep e mn None sp) -> looped g (ld_start l) wr r b (Rep e mn None sp) -> ~ may_be_empty g e) ->
  (forall r d b x w, run g (ld_start l) wr r -> nth_error g r = Some d -> r_body d = Some b -> inside [] b x -> word_of x w -> valid_utf8 w) ->
  p_g P = strip_grammar (ld_g l) -> p_ws P = ws_expr (p_g P) wr -> p_start P = ld_start l ->
  core_parser md mm P -> p_word P = None -> (forall q, p_pred P q = None) -> valid_utf8 input ->
  no_empty_recursion (p_g P) -> regular_alternatives (p_g P) (is_some (p_ws P)) odd -> regular_spans (p_g P) odd -> no_keyword_guard (p_g P) ->
  plain_text input -> (odd = false -> ascii_text input) -> pure (mk_env P input) ->
  (forall r d, nth_error (ld_g l) r = Some d -> mk r = true -> r_macro_ref d = true) -> macro_marks (marked mk (ld_g l)) ->
  exists b reps res reps' res' F, forall f, F <= f ->
    parser_parse f (with_grammar P (marked mk (ld_g l)) (ld_ws l)) input dt = Ok (b, reps, res)
    /\ parser_parse f P input dt = Ok (b, reps', res')
    /\ rs_ret res = rs_ret res'
    /\ (rs_ret res = true -> rs_len res = rs_len res' /\ (recognize_only P = false -> rs_vs res = rs_vs res')).
Proof.
  intros V U fuel keq lrec instrs start src l P input dt md mm odd mk Hsrc Hload Hnp g wr Hord Hreg Hsp Hwp Hlr Hin Hlit H1 H2 H3 Hc Hwn Hp Hu Hne Hra Hrs Hk Hpl Ha Hpure Hall Hmk.
  assert (H2' : p_ws P = ws_expr (strip_grammar (ld_g l)) wr) by (now rewrite <- H1).
  pose proof (accepted_settled fuel keq lrec instrs start src l Hsrc Hload Hnp Hord Hreg Hlr Hsp Hwp Hin Hlit P input md mm H1 H2' H3 Hc Hwn Hp Hu) as (j & x & Hx).
  pose proof Hne as Hne'. pose proof Hra as Hra'. pose proof Hrs as Hrs'. pose proof Hk as Hk'. rewrite H1 in Hne', Hra', Hrs', Hk'.
  pose proof (accepted_tables fuel keq lrec instrs start src l Hsrc Hload Hnp Hord Hreg Hlr Hsp Hwp Hin Hlit P input dt md mm odd H1 H2' H3 Hc Hwn Hp Hu Hne' Hra' Hrs' Hk' Hpl Ha Hpure) as Hs.
  assert (Hrec : recognize_only (with_grammar P (ld_g l) (ld_ws l)) = recognize_only P) by (eapply accepted_recog; eauto).
  assert (Hws : ld_ws l = ws_expr (ld_g l) wr).
  { destruct (load_final _ _ _ _ _ _ _ Hload) as (_ & _ & _ & _ & _ & _ & E & _). rewrite E. f_equal.
    assert (X : rule_named (strip_grammar (ld_g l)) ws_name = wr) by (eapply wr_bg; eauto). rewrite <- X. unfold rule_named. f_equal. unfold strip_grammar. rewrite map_map. reflexivity. }
  set (Q := with_grammar P (ld_g l) (ld_ws l)) in *.
  assert (HQ : core_parser md mm Q /\ anns_parser Q input /\ ref_top j (mk_env Q input) (p_start P) = Some x).
  { destruct (final_same fuel keq lrec instrs start src l Hsrc Hload Hnp) as (g4 & _ & Hb & E & Hset). rewrite E in H1. rewrite <- H1 in Hb, Hset.
    unfold Q. rewrite Hws. split; [|split].
    - exact (annotated_core P wr _ _ _ (ld_g l) Hb H2 Hset Hne md mm Hwn Hc).
    - eapply (annotated_anns P wr _ _ _ (ld_g l) input odd); eauto. now apply no_guards_sound.
    - rewrite <- Hx. symmetry. apply (RefStrip.ref_top_strip j (mk_env (with_grammar P (ld_g l) (ws_expr (ld_g l) wr)) input) (mk_env P input) (p_start P)).
      eapply annotated_stripped; eauto. }
  destruct HQ as (HQc & HQa & HQx).
  assert (Hm : same_outcome (with_grammar Q (marked mk (p_g Q)) (p_ws Q)) Q input dt).
  { apply (marks_same mk Q input dt md mm HQc HQa).
    - exact Hall.
    - now apply macro_marks_enough.
    - destruct Hpure. constructor; assumption.
    - intros _. exact Hp.
    - exists j, x. exact HQx. }
  change (with_grammar Q (marked mk (p_g Q)) (p_ws Q)) with (with_grammar P (marked mk (ld_g l)) (ld_ws l)) in Hm.
  destruct Hm as (b & p1 & r1 & p2 & r2 & F1 & Hm). destruct Hs as (b' & p3 & r3 & p4 & r4 & F2 & Hs).
  assert (E : b' = b /\ r3 = r2).
  { destruct (Hm (F1 + F2) ltac:(lia)) as (_ & A & _). destruct (Hs (F1 + F2) ltac:(lia)) as (B & _). rewrite A in B. injection B as -> _ ->. auto. }
  destruct E as [-> ->]. exists b, p1, r1, p4, r4, (F1 + F2). intros f Hf.
  destruct (Hm f ltac:(lia)) as (A1 & _ & A3 & A4). destruct (Hs f ltac:(lia)) as (_ & B2 & B3 & B4).
  split; [exact A1|]. split; [exact B2|]. split; [congruence|]. intros Ht. destruct (A4 Ht) as [C1 C2]. rewrite A3 in Ht. destruct (B4 Ht) as [D1 D2].
  split; [congruence|]. intros Hf'.
  assert (Hrm : recognize_only (with_grammar P (marked mk (ld_g l)) (ld_ws l)) = recognize_only Q).
  { unfold Q, recognize_only. cbn [with_grammar p_g p_start p_ws p_word p_tracer p_log p_action p_enter p_leave p_pred]. now rewrite definition_ids_marked. }
  fold Q in Hrec. rewrite C2, D2; [reflexivity| |]; rewrite ?Hrm, Hrec; exact Hf'.
Qed.
Print Assumptions C45_marked_tables_terminate_partial.

(** S <- 'a' 'b' / M(A) ; M(x) <- x 'c' ; A <- 'a'.  All rules are marked when loaded; a
    parse from A and one from S leave S the only marked one. *)
Definition rule_ (name : string) (macro : bool) (params : list bytes) (body : ope) : rule :=
  {| r_name := bs name; r_body := Some body; r_ignore := false; r_is_macro := macro; r_params := params;
     r_disable_action := false; r_lr := false; r_can_be_empty := false; r_macro_ref := true;
     r_error_message := []; r_no_ast_opt := false; r_no_whitespace := false; r_ast_name := bs name |}.
Definition g39 : grammar :=
  [rule_ "S" false [] (alts [seqs [lit "a"; lit "b"]; Ref (bs "M") (Some 1) 0 true [Ref (bs "A") (Some 2) 0 false []]]);
   rule_ "M" true [bs "x"] (seqs [Ref (bs "x") None 0 false []; lit "c"]);
   rule_ "A" false [] (lit "a")].
Definition sig39 (a b : ope) : bool := false.
Definition cfg39 (s : rid) : pobj bytes unit := sample g39 None None true false.
Definition Q39 : pobj bytes unit := SessionM.start_at g39 cfg39 0 (prepare g39 cfg39 sig39 0 (after g39 cfg39 sig39 sess0 [2])).
Example C39_marks_meets :
  map r_macro_ref (p_g Q39) = [true; false; false]
  /\ same_outcome Q39 (with_grammar Q39 g39 (p_ws Q39)) (bs "ac") tt
  /\ exists reps res, parser_parse 40 Q39 (bs "ac") tt = Ok (true, reps, res).
Proof.
  split; [vm_compute; reflexivity|]. split.
  - apply (C39_marks_do_not_matter bytes unit g39 cfg39 sig39 [2] 0 (bs "ac") tt (fun _ => m_top) [m_top]).
    + intros d [<- | [<- | [<- | []]]]; reflexivity.
    + intros r d b Hd Hb. destruct r as [|[|[|r]]]; [| | |destruct r; discriminate]; injection Hd as <-; injection Hb as <-; intros X; try discriminate X; reflexivity.
    + constructor; try reflexivity; [split; [reflexivity|]; eexists; split; reflexivity|discriminate].
    + apply bare_parser_anns. split; [reflexivity|]. split; reflexivity.
    + constructor; cbn; [|discriminate|discriminate]. intros r f inp vs u u' pd H. injection H as <-. reflexivity.
    + intros _ r. reflexivity.
    + exists 20. eexists. vm_compute. reflexivity.
  - eexists _, _. vm_compute. reflexivity.
Qed.

(** The grammar of [C45_left_recursion_meets] with its rules marked, as they are when it
    is read; the first parse takes the marks away. *)
Definition c45_mk_src : grammar := map (with_mark true) c45_lr_src.
Definition c45_mk_loaded : option verdict := load 20 no_keys true [] (bs "S") c45_mk_src.
Definition c45_mk_l : loaded := Eval vm_compute in match c45_mk_loaded with Some (Accepted l) => l | _ => {| ld_g := []; ld_start := 0; ld_ws := None; ld_word := None |} end.
Example C45_marks_meets : exists l (P : pobj bytes unit),
  source_grammar c45_mk_src /\ load 20 no_keys true [] (bs "S") c45_mk_src = Some (Accepted l)
  /\ map r_lr (ld_g l) = [false; true; true; false; false]
  /\ recursions_direct (strip_grammar (ld_g l)) (rule_named c45_mk_src ws_name)
  /\ p_g P = strip_grammar (ld_g l) /\ p_ws P = ws_expr (p_g P) (rule_named c45_mk_src ws_name) /\ p_start P = ld_start l
  /\ core_parser (fun _ => m_top) [m_top] P /\ (forall q, p_pred P q = None)
  /\ map r_macro_ref (ld_g l) = [true; true; true; true; true]
  /\ (forall input dt, valid_utf8 input -> exists b reps res F, forall f, F <= f ->
        parser_parse f (with_grammar P (marked (fun _ => false) (ld_g l)) (ld_ws l)) input dt = Ok (b, reps, res)).
Proof.
  set (l := c45_mk_l).
  pose (P := sample_at (ld_start l) (strip_grammar (ld_g l)) (ws_expr (strip_grammar (ld_g l)) (rule_named c45_mk_src ws_name))).
  assert (El' : load 20 no_keys true [] (bs "S") c45_mk_src = Some (Accepted l)) by (vm_compute; reflexivity).
  assert (H1 : source_grammar c45_mk_src) by is_source.
  assert (H2 : ordinary_grammar (link_all c45_mk_src)) by is_ordinary.
  assert (H3 : forall d b, In d (link_all c45_mk_src) -> r_is_macro d = false -> r_body d = Some b -> regular (link_all c45_mk_src) b) by is_regular 5.
  assert (H4 : recursions_direct (strip_grammar (ld_g l)) (rule_named c45_mk_src ws_name)).
  { clear. match goal with |- recursions_direct ?g ?w => let g' := eval vm_compute in g in let w' := eval vm_compute in w in replace g with g' by (vm_compute; reflexivity); replace w with w' by (vm_compute; reflexivity) end. constructor.
    - intros [|[|[|[|[|r]]]]] d Hd Hm Hl; cbn in Hd; try (injection Hd as <-); try discriminate; try (destruct r; discriminate).
      + do 5 eexists. split; [reflexivity|]. split; [reflexivity|]. split; [reflexivity|]. split; [discriminate|]. split; [discriminate|]. split.
        * intros t [<- |[<- |[]]]; refine (nonempty_checked _ 5 _ _ _); vm_compute; reflexivity.
        * match goal with |- ~ left_reaches ?g _ _ => apply (not_left g 5 ltac:(vm_compute; reflexivity) [2; 3]) end; vm_compute; reflexivity.
      + do 5 eexists. split; [reflexivity|]. split; [reflexivity|]. split; [reflexivity|]. split; [discriminate|]. split; [discriminate|]. split.
        * intros t [<- |[]]; refine (nonempty_checked _ 5 _ _ _); vm_compute; reflexivity.
        * match goal with |- ~ left_reaches ?g _ _ => apply (not_left g 5 ltac:(vm_compute; reflexivity) [3]) end; vm_compute; reflexivity.
    - intros w d Hw Hd. injection Hw as <-. cbn in Hd. injection Hd as <-. reflexivity. }
  assert (H5 : core_parser (fun _ => m_top) [m_top] P).
  { constructor; try reflexivity; [split; [reflexivity|]; eexists; split; reflexivity|discriminate]. }
  assert (H8 : plain_rule (link_all c45_mk_src) (ld_start l)) by (is_plain).
  assert (H9 : forall w, rule_named c45_mk_src ws_name = Some w -> plain_rule (link_all c45_mk_src) w) by (assert (E : rule_named c45_mk_src ws_name = Some 4) by (vm_compute; reflexivity); intros w Hw; rewrite E in Hw; injection Hw as <-; is_plain).
  assert (H6 : p_start P = ld_start l) by (reflexivity).
  destruct (consumes_checked (link_all c45_mk_src) 5) as [C1 C2]; [vm_compute; reflexivity|vm_compute; reflexivity|].
  assert (Hcert : certified (strip_grammar (ld_g l)) (fun r => r =? 4) c45_lr_calls (fun _ _ => false) true true true = true).
  { vm_compute. reflexivity. }
  exists l, P. split; [exact H1|]. split; [exact El'|]. split; [reflexivity|]. split; [exact H4|]. split; [reflexivity|]. split; [reflexivity|].
  split; [exact H6|]. split; [exact H5|]. split; [reflexivity|]. split.
  - reflexivity.
  - intros input dt Hu.
    assert (X : exists b reps res reps' res' F, forall f, F <= f ->
      parser_parse f (with_grammar P (marked (fun _ => false) (ld_g l)) (ld_ws l)) input dt = Ok (b, reps, res)
      /\ parser_parse f P input dt = Ok (b, reps', res')
      /\ rs_ret res = rs_ret res'
      /\ (rs_ret res = true -> rs_len res = rs_len res' /\ (recognize_only P = false -> rs_vs res = rs_vs res'))).
    2:{ destruct X as (b & reps & res & rp2 & rs2 & F & X). exists b, reps, res, F. intros f Hf. now destruct (X f Hf) as [X1 _]. }
    apply (C45_marked_tables_terminate_partial bytes unit 20 no_keys true [] (bs "S") c45_mk_src l P input dt (fun _ => m_top) [m_top] true (fun _ => false) H1 El').
    + intros r ls [].
    + exact H2.
    + exact H3.
    + exact H8.
    + exact H9.
    + exact H4.
    + intros r d b e mn sp _ Hd Hb Hi _. eapply C1; eauto. eapply nth_error_In; eauto.
    + intros r d b x w _ Hd Hb Hi Hw. eapply C2; eauto. eapply nth_error_In; eauto.
    + reflexivity.
    + reflexivity.
    + exact H6.
    + exact H5.
    + reflexivity.
    + reflexivity.
    + exact Hu.
    + exact (certified_no_empty_recursion _ _ _ _ _ _ _ Hcert).
    + assert (Ew : Top.is_some (p_ws P) = true) by (reflexivity). rewrite Ew. exact (certified_alternatives _ _ _ _ _ _ _ Hcert).
    + exact (certified_spans _ _ _ _ _ _ _ Hcert).
    + exact (certified_guards _ _ _ _ _ _ _ Hcert eq_refl).
    + now apply utf8_plain.
    + discriminate.
    + constructor; cbn; [|discriminate|discriminate]. intros r f inp vs u u' pd Hq. injection Hq as <-. reflexivity.
    + discriminate.
    + intros r d b Hd Hb. destruct r as [|[|[|[|[|r]]]]]; cbn in Hd; try (destruct r; discriminate Hd); injection Hd as <-; injection Hb as <-; split; intros X; first [reflexivity | vm_compute in X; discriminate X | now left].
Qed.
