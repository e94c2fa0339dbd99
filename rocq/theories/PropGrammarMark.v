(** * C57, as the library parses: with the marks (has_macro_ref) that the first parse and
    later ones leave in the rules. *)
From Coq Require Import Permutation.
From Verif Require Import IndepSpec PackratFilter SessionM Session.
From Verif Require Import Base BaseLemmas Utf8 Utf8Spec Escape EscapeSpec TrieM LineInfo Ope Ctx ErrLog Engine EngineLemmas Top Scope TopFacts Mono
  RefSem Refine TopRef GrammarCond PegDen PegEngine FirstSetM FirstSpec FirstSetup FirstTop FirstCheck
  PackratFilter PrecSpec PrecM LoadM LoadSpec LoadRefs DicDen LoadPeg LoadLoop LoadLR LrWf LoadMain LoadWf LoadCheck LoadTop MetaM MetaSource NotationSpec ReadSpec MetaText MetaJudge MetaLex MetaExpr
  TextPeg TextPegProofs Samples PropLoad PropTerm PropFirst PropMeta PropRead PropMark PropGrammarText.
From Verif Require PegSpec PegFacts.

(** The theorem of C57 for a parser whose rules have been re-marked: the marks are taken
    away from rules that call no macro ([mk] is what AssignIDToDefinition leaves). *)
Theorem C57_grammar_text_as_parsed_partial :
  forall (V U : Type) fuel keq lrec order G log start text ds L packrat (Q : pobj V U) (input : bytes) (dt : U) md mm odd mk,
  meta_annotated G -> (forall x : grammar, Permutation x (order x)) ->
  grammar_text text ds -> consistent ds ->
  load_text fuel keq lrec order G log start text = Ok (Some (Accepted L), packrat) ->
  let st := match start with [] => start_name ds | _ => start end in
  covered_text ds -> (forall x, In x ds -> df_name x = white \/ df_name x = st -> df_params x = None) ->
  (forall x ls, In x ds -> ~ In (IPrecedence ls) (df_instrs x)) ->
  let src := order (rule_of recover_def :: map rule_of ds) in
  let g := link_all src in
  let wr := rule_named src ws_name in
  (forall d b, In d g -> r_is_macro d = false -> r_body d = Some b -> regular g b) ->
  recursions_direct (strip_grammar (ld_g L)) wr ->
  (forall r d b e mn sp, run g (ld_start L) wr r -> nth_error g r = Some d -> r_body d = Some b ->
     inside [] b (Rep e mn None sp) -> looped g (ld_start L) wr r b (Rep e mn None sp) -> ~ may_be_empty g e) ->
  (forall r d b x w, run g (ld_start L) wr r -> nth_error g r = Some d -> r_body d = Some b -> inside [] b x -> word_of x w -> valid_utf8 w) ->
  p_g Q = marked mk (ld_g L) -> p_ws Q = ld_ws L -> p_start Q = ld_start L -> p_word Q = None -> (forall q, p_pred Q q = None) ->
  let P := unannotated (with_grammar Q (ld_g L) (ld_ws L)) in
  core_parser md mm P -> pure (mk_env P input) ->
  no_empty_recursion (p_g P) -> regular_alternatives (p_g P) (Top.is_some (p_ws P)) odd -> regular_spans (p_g P) odd -> no_keyword_guard (p_g P) ->
  (forall r d, nth_error (ld_g L) r = Some d -> mk r = true -> r_macro_ref d = true) -> macro_marks (marked mk (ld_g L)) ->
  valid_utf8 input -> (odd = false -> ascii_text input) ->
  exists r, PegSpec.peg (text_peg ds) (text_start st) input r
  /\ (forall r', PegSpec.peg (text_peg ds) (text_start st) input r' -> r' = r)
  /\ (exists F, forall f, F <= f -> exists reps res, parser_parse f Q input dt = Ok (accepts Q r, reps, res))
  /\ (forall f b reps res, parser_parse f Q input dt = Ok (b, reps, res) ->
        b = accepts Q r /\ (b = true -> forall t, r = Some t -> rs_len res + List.length t = List.length input)).
Proof.
  intros V U fuel keq lrec order G log start text ds L packrat Q input dt md mm odd mk HG Hord Ht Hcon Hl st Hcov Hpw Hnp src g wr Hreg Hlr Hin Hlit HQ HQw HQs Hwn Hp P Hc Hpure Hne Hra Hrs Hk Hmk1 Hmk2 Hu Ha.
  destruct (text_read G log text ds HG Ht Hcon) as (F & d & HF & E1 & E2 & E3 & _).
  unfold load_text in Hl. destruct (read_text fuel G log text) as [x| | |] eqn:Hr; try discriminate Hl. cbn [bind] in Hl.
  assert (Hx : x = Rules d).
  { specialize (HF (F + fuel) ltac:(lia)). unfold read_text in Hr, HF. destruct (def_parse_below fuel (F + fuel) (meta_parser G log) text data0 ltac:(lia)) as [Hb|Hb]; [rewrite Hb in Hr; discriminate Hr|]. rewrite <- Hb in HF. congruence. }
  subst x. cbv zeta in Hl. rewrite E1, E2, E3 in Hl. match type of Hl with (if ?b then _ else _) = _ => destruct b; [discriminate Hl|] end. injection Hl as Hl _.
  assert (Hs : source_grammar src).
  { pose proof (sd_source _ (read_source fuel G log text d HG Hr)) as [H1 H2 H3]. rewrite E1 in *. pose proof (Hord (rule_of recover_def :: map rule_of ds)) as Hpm. constructor.
    - eapply Permutation_NoDup; [apply Permutation_map; exact Hpm|exact H1].
    - intros r Hi. apply H2. eapply Permutation_in; [apply Permutation_sym; exact Hpm|exact Hi].
    - intros r Hi. apply H3. eapply Permutation_in; [apply Permutation_sym; exact Hpm|exact Hi]. }
  destruct Hcon as (Hnd & _).
  set (Q0 := with_grammar Q (ld_g L) (ld_ws L)) in *.
  destruct (text_language ds order Hord Hnd Hs Hcov fuel keq lrec st L Hpw Hnp Hl Hreg Hlr Hin Hlit Q0 input dt md mm odd eq_refl eq_refl HQs Hc Hwn Hp Hu Hne Hra Hrs Hk (utf8_plain _ Hu) Ha Hpure) as (r & A & B & C).
  exists r. split; [exact A|]. split; [intros r' A'; symmetry; exact (PegFacts.peg_det _ _ _ _ A r' A')|].
  assert (HP : p_g P = strip_grammar (ld_g L)) by reflexivity.
  assert (HPw : p_ws P = ws_expr (p_g P) wr) by (rewrite HP; unfold P; eapply P_ws; eauto).
  assert (Hsp : LoadPeg.plain_rule g (ld_start L)) by (eapply named_plain; eauto; eapply st_named; eauto).
  assert (Hwp : forall w, wr = Some w -> LoadPeg.plain_rule g w) by (intros w Hw; eapply named_plain; eauto).
  assert (Hog : ordinary_grammar g) by (eapply text_ord; eauto).
  pose proof (text_np ds order Hnp) as Htn.
  pose proof (C45_marked_tables_terminate_partial V U fuel keq lrec (text_instrs ds order) st src L P input dt md mm odd mk Hs Hl Htn Hog Hreg Hsp Hwp Hlr Hin Hlit HP HPw HQs Hc Hwn Hp Hu Hne Hra Hrs Hk (utf8_plain _ Hu) Ha Hpure Hmk1 Hmk2) as X.
  pose proof (C45_tables_terminate_partial V U fuel keq lrec (text_instrs ds order) st src L P input dt md mm odd Hs Hl Htn Hog Hreg Hsp Hwp Hlr Hin Hlit HP HPw HQs Hc Hwn Hp Hu Hne Hra Hrs Hk (utf8_plain _ Hu) Ha Hpure) as Y.
  assert (E : with_grammar P (marked mk (ld_g L)) (ld_ws L) = Q) by (rewrite <- HQ, <- HQw; destruct Q; reflexivity).
  change (with_grammar P (ld_g L) (ld_ws L)) with Q0 in Y. rewrite E in X.
  destruct X as (b & p1 & r1 & p2 & r2 & F1 & X). destruct Y as (b' & p3 & r3 & p4 & r4 & F2 & Y). destruct B as (F3 & B).
  destruct (X (F1 + F2 + F3) ltac:(lia)) as (X1 & X2 & X3 & X4). destruct (Y (F1 + F2 + F3) ltac:(lia)) as (Y1 & Y2 & Y3 & Y4).
  rewrite X2 in Y2. injection Y2 as Eb _ Er. subst b' r4.
  destruct (B (F1 + F2 + F3) ltac:(lia)) as (q1 & q2 & B1). rewrite Y1 in B1. injection B1 as Eb _ Er. subst b q2.
  pose proof (C _ _ _ _ Y1) as [_ C1].
  split.
  - exists F1. intros f Hf. destruct (X f Hf) as (Z & _). eauto.
  - intros f b0 reps res Hrun. pose proof (parser_parse_below f (F1 + f) _ _ _ _ ltac:(lia) Hrun) as Z. destruct (X (F1 + f) ltac:(lia)) as (Z1 & _).
    rewrite Z1 in Z. injection Z as <- <- <-. split; [reflexivity|]. intros Hbt t Ht'.
    assert (Hret : rs_ret r1 = true).
    { unfold parser_parse in X1. destruct (def_parse _ Q _ _) as [x| | |]; try discriminate. cbn [bind] in X1.
      match type of X1 with bind ?y _ = _ => destruct y; try discriminate end. cbn [bind] in X1. injection X1 as Ea _ Eb. subst x. rewrite Hbt in Ea. now apply andb_prop in Ea. }
    destruct (X4 Hret) as [L1 _]. rewrite X3 in Hret. rewrite <- Y3 in Hret. destruct (Y4 Hret) as [L2 _]. rewrite L1, <- L2. exact (C1 Hbt t Ht').
Qed.
Print Assumptions C57_grammar_text_as_parsed_partial.

(** The text of [C57_meets]; the loader marks all four rules, the first parse unmarks them. *)
Example C57_as_parsed_meets : exists L (Q : pobj bytes unit),
  grammar_text text4 defs4 /\ consistent defs4 /\ covered_text defs4
  /\ load_text 400 no_keys true (fun x => x) meta_g true [] text4 = Ok (Some (Accepted L), true)
  /\ map r_macro_ref (ld_g L) = [true; true; true; true] /\ p_g Q = marked (fun _ => false) (ld_g L) /\ p_ws Q = ld_ws L /\ p_start Q = ld_start L
  /\ (exists reps res, parser_parse 60 Q (bs " a bc b") Datatypes.tt = Ok (true, reps, res))
  /\ forall input dt, valid_utf8 input -> exists r, PegSpec.peg (text_peg defs4) (text_start (bs "S")) input r
       /\ exists F, forall f, F <= f -> exists reps res, parser_parse f Q input dt = Ok (accepts Q r, reps, res).
Proof.
  destruct (load_text 400 no_keys true (fun x => x) meta_g true [] text4) as [[[[|L]|] pk]| | |] eqn:El; try (exfalso; vm_compute in El; discriminate El).
  assert (Epk : pk = true) by (vm_compute in El; injection El as _ <-; reflexivity). subst pk.
  pose (Q := sample_at (ld_start L) (marked (fun _ => false) (ld_g L)) (ld_ws L)). exists L, Q.
  assert (HC : consistent defs4).
  { split; [|split].
    - repeat constructor; cbn; intuition discriminate.
    - reflexivity.
    - repeat constructor; cbn; intuition. }
  assert (Hcov : covered_text defs4).
  { intros x Hx _. repeat (destruct Hx as [<-|Hx]; [reflexivity|]). destruct Hx. }
  split; [exact text4_means|]. split; [exact HC|]. split; [exact Hcov|]. split; [reflexivity|]. split; [vm_compute in El; injection El as <-; reflexivity|].
  split; [reflexivity|]. split; [reflexivity|]. split; [reflexivity|]. split.
  { unfold Q. vm_compute in El. injection El as <-. eexists _, _. vm_compute. reflexivity. }
  intros input dt Hu.
  assert (H3 : forall d b, In d (link_all src4) -> r_is_macro d = false -> r_body d = Some b -> regular (link_all src4) b) by is_regular 5.
  assert (H4 : forall d, In d (ld_g L) -> r_lr d = false).
  { vm_compute in El. injection El as <-. intros d [<- | [<- | [<- | [<- | []]]]]; reflexivity. }
  assert (H4' : recursions_direct (strip_grammar (ld_g L)) (rule_named src4 ws_name)) by (apply no_recursion_direct; intros d Hd; apply in_map_iff in Hd as (d0 & <- & Hd0); exact (H4 d0 Hd0)).
  assert (H5 : core_parser (fun _ => m_top) [m_top] (unannotated (with_grammar Q (ld_g L) (ld_ws L)))).
  { unfold Q. vm_compute in El. injection El as <-. constructor; try reflexivity; [split; [reflexivity|]; eexists; split; reflexivity|discriminate]. }
  assert (Hcert : certified (strip_grammar (ld_g L)) nul4 (fun _ _ => false) (fun _ _ => false) true true true = true).
  { vm_compute in El. injection El as <-. vm_compute. reflexivity. }
  assert (Hg : p_g (unannotated (with_grammar Q (ld_g L) (ld_ws L))) = strip_grammar (ld_g L)) by reflexivity.
  destruct (consumes_checked (link_all src4) 5) as [C1 C2]; [vm_compute; reflexivity|vm_compute; reflexivity|].
  destruct (C57_grammar_text_as_parsed_partial bytes unit 400 no_keys true (fun x => x) meta_g true [] text4 defs4 L true Q input dt (fun _ => m_top) [m_top] true (fun _ => false) meta_g_ok (fun x => Permutation_refl x) text4_means HC El Hcov)
    as (r & A & _ & B & _); auto.
  - intros x Hx _. repeat (destruct Hx as [<-|Hx]; [reflexivity|]). destruct Hx.
  - intros x ls Hx Hi. repeat (destruct Hx as [<-|Hx]; [destruct Hi|]). destruct Hx.
  - intros r d b e mn sp _ Hd Hb Hi _. eapply C1; eauto. eapply nth_error_In; eauto.
  - intros r d b x w _ Hd Hb Hi Hw. eapply C2; eauto. eapply nth_error_In; eauto.
  - constructor; cbn; [|discriminate|discriminate]. intros r f inp vs u u' pd Hq. injection Hq as <-. reflexivity.
  - rewrite Hg. exact (certified_no_empty_recursion _ _ _ _ _ _ _ Hcert).
  - rewrite Hg. assert (Ew : Top.is_some (p_ws (unannotated (with_grammar Q (ld_g L) (ld_ws L)))) = true) by (unfold Q; vm_compute in El; injection El as <-; reflexivity). rewrite Ew. exact (certified_alternatives _ _ _ _ _ _ _ Hcert).
  - rewrite Hg. exact (certified_spans _ _ _ _ _ _ _ Hcert).
  - rewrite Hg. exact (certified_guards _ _ _ _ _ _ _ Hcert eq_refl).
  - discriminate.
  - intros r d b Hd Hb. revert r d b Hd Hb. vm_compute in El. injection El as <-. intros r d b Hd Hb.
    destruct r as [|[|[|[|r]]]]; cbn in Hd; try (destruct r; discriminate Hd); injection Hd as <-; injection Hb as <-; split; intros X; first [reflexivity | vm_compute in X; discriminate X | now left].
  - discriminate.
  - exists r. auto.
Qed.
