(** * Parsers of accepted grammars terminate (C45). *)
From Verif Require Import Base BaseLemmas Utf8 Utf8Spec Escape TrieM LineInfo Ope Ctx ErrLog Engine EngineLemmas Top Frame Scope Bounds Mono TopFacts
  RefSem RefMono Refine RefineOps RefineMain TopRef GrammarCond LrSpec LrRef PegDen PegRef PegEngine FirstSetM FirstSpec FirstSetup FirstTop
  PackratFilter PrecSpec PrecM LoadM LoadSpec LoadRefs LoadPeg LoadLoop LoadLR LrWf LoadMain LoadWf.
From Verif Require PegSpec PegFacts.

Lemma load_final fuel keq lrec instrs start src l : load fuel keq lrec instrs start src = Some (Accepted l) ->
  exists g3 g4, same_rules (link_all src) g3 /\ (forall d, In d g3 -> exists d0 b0, In d0 (link_all src) /\ r_body d0 = Some b0 /\ (r_body d = Some b0 \/ r_body d = Some (Tok b0)))
    /\ instruct_all instrs g3 = Some g4 /\ setup_first_sets fuel fuel (seq 0 (List.length g4)) g4 = Ok (ld_g l)
    /\ ld_ws l = ws_expr (ld_g l) (rule_named (ld_g l) ws_name) /\ rule_named src start = Some (ld_start l).
Proof.
  intros H.
  unfold load in H. destruct (rule_named src start) as [s|] eqn:Hs; [|discriminate]. destruct (nth_error src s) as [sd|]; [|discriminate].
  destruct (negb (forallb _ src)) eqn:Hbod; [discriminate|]. destruct (r_ignore sd); [discriminate|].
  destruct (all_refs_ok src) eqn:Hall; cbn [negb] in H; [|discriminate].
  destruct (empty_fix fuel (link_all src)) as [g1|] eqn:Hg1; [|discriminate]. cbn [obind] in H.
  destruct (lr_flags fuel g1 keq) as [fl|] eqn:Hfl; [|discriminate]. cbn [obind] in H.
  destruct (negb lrec && existsb (fun b => b) fl) eqn:Hoff; [discriminate|]. cbv zeta in H.
  set (g2 := if lrec then set_lrs fl g1 else g1) in *.
  destruct (loop_detect fuel g2 s) as [[]|] eqn:Hl1; try discriminate. cbn [obind] in H.
  set (g3 := match rule_named g2 ws_name return list rule with Some _ => map tok_rule g2 | None => g2 end) in *.
  match type of H with obind ?x _ = _ => destruct x as [[]|] eqn:Hl2; try discriminate end. cbn [obind] in H.
  match type of H with obind ?x _ = _ => destruct x as [[]|] eqn:Hl3; try discriminate end. cbn [obind] in H.
  destruct (instruct_all instrs g3) as [g4|] eqn:Hg4; [|discriminate].
  destruct (setup_first_sets fuel fuel (seq 0 (List.length g4)) g4) as [g5| | |] eqn:Hg5; try discriminate. injection H as <-.
  assert (X2 : same_exact (link_all src) g2).
  { assert (X1 : same_exact (link_all src) g1) by (eapply exact_fix; [apply exact_refl|exact Hg1]). unfold g2. destruct lrec; [now apply exact_set_lrs|exact X1]. }
  assert (X3 : same_rules (link_all src) g3) by (unfold g3; destruct (rule_named g2 ws_name); [now apply same_tok|now apply exact_same]).
  exists g3, g4. split; [exact X3|]. split.
  { intros d Hd. apply In_nth_error in Hd as [i Hi]. destruct (f2_nth' _ _ _ _ _ X3 Hi) as (d0 & Hd0 & Hr). exists d0.
    destruct Hr as (_ & _ & _ & Hb). destruct (r_body d0) as [b0|] eqn:Hb0.
    - exists b0. split; [eapply nth_error_In; eauto|]. split; [reflexivity|]. destruct (r_body d) as [b|]; [|destruct Hb]. destruct Hb as [-> | ->]; auto.
    - exfalso. apply negb_false_iff in Hbod. rewrite forallb_forall in Hbod. apply nth_error_In in Hd0. unfold link_all in Hd0. apply in_map_iff in Hd0 as (d1 & <- & Hd1).
      specialize (Hbod d1 Hd1). cbn in Hb0. destruct (r_body d1); discriminate. }
  split; [exact Hg4|]. split; [exact Hg5|]. cbn [ld_ws ld_g ld_start]. split; [|reflexivity].
  unfold ws_expr. destruct (rule_named g5 ws_name) as [r|]; [|reflexivity]. destruct (nth_error g5 r) as [d|]; [|reflexivity]. destruct (r_body d); reflexivity.
Qed.

Lemma link_bare g ps o : from_text o = true -> bare (link g ps o) = true.
Proof.
  assert (Hl : forall l, Forall (fun o => from_text o = true -> bare (link g ps o) = true) l -> forallb from_text l = true -> forallb bare (map (link g ps) l) = true).
  { intros l H1 H2. rewrite forallb_forall in *. rewrite Forall_forall in H1. intros x Hx. apply in_map_iff in Hx as (y & <- & Hy). auto. }
  induction o using ope_ind'; cbn [from_text link bare]; intros Ho; try discriminate; auto.
  - destruct kg; [discriminate|]. now apply Hl.
  - destruct fs; [|discriminate]. now apply Hl.
  - destruct sp; [discriminate|]. auto.
  - destruct rl; [discriminate|]. apply andb_prop in Ho as [_ Ho]. destruct (bindex n ps); cbn [bare]; now apply Hl.
Qed.

(** Rules whose body does not change. *)
Definition no_precedence (instrs : list (rid * instr)) : Prop := forall r ls, ~ In (r, IPrecedence ls) instrs.
Lemma instruct_same l : no_precedence l -> forall g0 g g', same_rules g0 g -> instruct_all l g = Some g' -> same_rules g0 g' /\ map r_body g' = map r_body g /\ map r_name g' = map r_name g.
Proof.
  induction l as [|[r i] l IH]; intros Hn g0 g g' HR H; cbn [instruct_all] in H; [injection H as <-; auto|].
  destruct (nth_error g r) as [d|] eqn:Hd; [|discriminate]. destruct (instruct r i d) as [d'|] eqn:Hi; [|discriminate].
  assert (Hd' : r_name d' = r_name d /\ r_body d' = r_body d /\ r_is_macro d' = r_is_macro d /\ r_params d' = r_params d).
  { destruct i; cbn in Hi; try (injection Hi as <-; repeat split; reflexivity). exfalso. apply (Hn r ls). now left. }
  destruct Hd' as (A & B & C & D).
  assert (HR' : same_rules g0 (set_nth g r d')).
  { clear -HR Hd A B C D. revert r Hd. induction HR as [|x y g0 g H HR IH]; intros [|r] Hd; try discriminate; cbn in *.
    - injection Hd as ->. constructor; [|exact HR]. unfold same_rule in *. rewrite A, B, C, D. exact H.
    - constructor; [exact H|]. now apply IH. }
  destruct (IH (fun r0 ls0 H0 => Hn r0 ls0 (or_intror H0)) g0 _ _ HR' H) as (X & Y & Z). split; [exact X|].
  rewrite Y, Z. split; eapply set_nth_same; eauto.
Qed.
Lemma iterate_none g : (forall d, In d g -> r_lr d = false) -> iterate g = g.
Proof.
  unfold iterate. generalize 0. induction g as [|d g IH]; intros k H; [reflexivity|]. cbn. rewrite IH by (intros; apply H; now right). f_equal.
  unfold iterate_rule. now rewrite (H d (or_introl eq_refl)).
Qed.

Section Accepted.
  Variables (fuel : nat) (keq : rid * list ope -> rid * list ope -> bool) (lrec : bool) (instrs : list (rid * instr)) (start : bytes) (src : grammar) (l : loaded).
  Hypothesis Hsrc : source_grammar src.
  Hypothesis Hload : load fuel keq lrec instrs start src = Some (Accepted l).
  Hypothesis Hnp : no_precedence instrs.
  Notation g := (link_all src).
  Notation bg := (strip_grammar (ld_g l)).
  Hypothesis Hord : ordinary_grammar g.
  Hypothesis Hreg : forall d b, In d g -> r_is_macro d = false -> r_body d = Some b -> regular g b.
  Notation ws_rule := (rule_named src ws_name).
  Hypothesis Hlr : recursions_direct bg ws_rule.
  Hypothesis Hsp : plain_rule g (ld_start l).
  Hypothesis Hwp : forall w, ws_rule = Some w -> plain_rule g w.
  Notation run := (run g (ld_start l) ws_rule).
  Notation looped := (looped g (ld_start l) ws_rule).
  Hypothesis Hinner : forall r d b e mn sp, run r -> nth_error g r = Some d -> r_body d = Some b ->
    inside [] b (Rep e mn None sp) -> looped r b (Rep e mn None sp) -> ~ may_be_empty g e.
  Hypothesis Hlit : forall r d b x w, run r -> nth_error g r = Some d -> r_body d = Some b -> inside [] b x -> word_of x w -> valid_utf8 w.

  Lemma final_same : exists g4, same_rules g g4 /\ bare_grammar g4 = true /\ bg = g4 /\ setup_first_sets fuel fuel (seq 0 (List.length g4)) g4 = Ok (ld_g l).
  Proof.
    destruct (load_final _ _ _ _ _ _ _ Hload) as (g3 & g4 & H3 & Hb3 & Hi & Hs & _). exists g4.
    destruct (instruct_same instrs Hnp _ _ _ H3 Hi) as (H4 & Hb & _). split; [exact H4|].
    assert (Hbare : bare_grammar g4 = true).
    { unfold bare_grammar. apply forallb_forall. intros d Hd. destruct (r_body d) as [b|] eqn:Hbd; [|reflexivity].
      apply In_nth_error in Hd as [i Hd]. assert (E : nth_error (map r_body g4) i = nth_error (map r_body g3) i) by now rewrite Hb. rewrite !nth_error_map, Hd in E. cbn in E. rewrite Hbd in E.
      destruct (nth_error g3 i) as [d3|] eqn:Hd3; [|discriminate]. injection E as E. destruct (Hb3 d3 (nth_error_In _ _ Hd3)) as (d0 & b0 & Hd0 & Hb0 & Hor).
      assert (bare b0 = true).
      { unfold link_all in Hd0. apply in_map_iff in Hd0 as (d1 & <- & Hd1). destruct (sg_bodies _ Hsrc d1 Hd1) as (b1 & Hb1 & Hf). cbn in Hb0. rewrite Hb1 in Hb0. injection Hb0 as <-. now apply link_bare. }
      destruct Hor as [Hor|Hor]; rewrite Hor in E; injection E as ->; cbn; auto. }
    split; [exact Hbare|]. split; [|exact Hs]. rewrite (setup_strip _ _ _ _ _ Hs). unfold strip_grammar. apply map_id_in. intros d Hd.
    unfold bare_grammar in Hbare. rewrite forallb_forall in Hbare. specialize (Hbare d Hd). unfold strip_rule. destruct (r_body d) as [b|] eqn:E.
    - cbn. rewrite (bare_strip b Hbare), <- E. destruct d; reflexivity.
    - cbn. rewrite <- E. destruct d; reflexivity.
  Qed.
  (** A rule that calls itself first, in the loaded grammar, is marked. *)
  Lemma left_bg r : plain_rule g r -> left_reaches bg r r -> exists d, nth_error bg r = Some d /\ r_lr d = true.
  Proof.
    intros Hpr H. destruct final_same as (g4 & HR & _ & E & _).
    assert (Hl : forall r r', left_reaches bg r r' -> left_reaches g r r').
    { rewrite E. clear -HR. intros r r' H. induction H as [r r' d b A B C|r r1 r2 H1 IH1 H2 IH2]; [|eapply lr_more; eauto].
      destruct (body_from _ _ HR _ _ _ A B) as (d0 & b0 & A0 & B0 & E0). apply (cf_from _ _ HR) in C. eapply lr_one; [exact A0|exact B0|].
      destruct E0 as [-> | ->]; [exact C|]. now inversion C. }
    destruct (recursion_flagged fuel keq lrec instrs start src l Hsrc Hload Hord Hreg r Hpr (Hl _ _ H)) as (_ & d & Hd & Hf).
    unfold strip_grammar. rewrite nth_error_map, Hd. exists (strip_rule d). split; [reflexivity|]. exact Hf.
  Qed.
  Lemma left_iter r r' : left_reaches (iterate bg) r r' -> left_reaches bg r r'.
  Proof.
    induction 1 as [r r' d b A B C|]; [|eapply lr_more; eauto]. destruct (first_iter bg r r') as (d0 & b0 & A0 & B0 & C0); [exists d, b; auto|]. eapply lr_one; eauto.
  Qed.
  Lemma no_cycle r : plain_rule g r -> ~ left_reaches (iterate bg) r r.
  Proof.
    intros Hpr H. destruct (left_bg r Hpr (left_iter _ _ H)) as (d & Hd & Hf). destruct final_same as (g4 & HR & _ & E & _).
    assert (Hpb : plain_rule bg r) by (rewrite E; exact (plain_to _ _ HR _ Hpr)).
    destruct (rd_rules _ _ Hlr r d Hd (Hpb d Hd) Hf) as (_ & _ & _ & _ & _ & _ & _ & _ & _ & _ & _ & Hno). exact (Hno H).
  Qed.
  Lemma reaches_more a b c : reaches g a b -> calls g b c -> reaches g a c.
  Proof. intros H Hc. eapply reaches_trans; [exact H|]. econstructor; [exact Hc|constructor]. Qed.
  Lemma named_range n r : rule_named src n = Some r -> r < List.length g.
  Proof.
    intros H. apply rule_named_Some in H as (d & Hd & _). unfold link_all. rewrite map_length. apply nth_error_Some. congruence.
  Qed.
  Lemma called_range r r' : plain_rule g r -> calls g r r' -> r' < List.length g.
  Proof.
    intros Hp (d & b & A & B & (n & ia & mac & args & C)).
    destruct (g_named fuel keq lrec instrs start src l Hsrc Hload Hord d b (nth_error_In _ _ A) (Hp d A) B n r' ia mac args C) as (d' & Hd' & _). apply nth_error_Some. congruence.
  Qed.
  Lemma reached_range a b : plain_rule g a -> a < List.length g -> reaches g a b -> b < List.length g.
  Proof. intros Hp Ha H. induction H as [|r r1 r2 Hc _ IH]; [exact Ha|]. apply IH; [eapply plain_call; eauto|eapply called_range; eauto]. Qed.
  Lemma start_named : rule_named src start = Some (ld_start l).
  Proof. now destruct (load_final _ _ _ _ _ _ _ Hload) as (g3 & g4 & _ & _ & _ & _ & _ & E). Qed.
  Lemma run_plain r : run r -> plain_rule g r.
  Proof. intros [H|(w & Hw & H)]; eapply plain_reached; eauto. Qed.
  Lemma run_range r : run r -> r < List.length g.
  Proof. intros [H|(w & Hw & H)]; (eapply reached_range; [| |exact H]); [exact Hsp|eapply named_range; apply start_named|exact (Hwp w Hw)|eapply named_range; exact Hw]. Qed.
  Lemma loops_ok r d b e mn sp : run r -> nth_error g r = Some d -> r_body d = Some b -> inside [] b (Rep e mn None sp) -> ~ may_be_empty g e.
  Proof.
    intros Hr Hd Hb Hi He. pose proof (fun Hl => Hinner r d b e mn sp Hr Hd Hb Hi Hl He) as Hno.
    assert (Hu : unlooped b (Rep e mn None sp)).
    { destruct (inside_unlooped _ _ Hi) as [Hu|(e' & mn' & sp' & A & B)]; [exact Hu|]. exfalso. apply Hno. left. eauto. }
    destruct Hr as [Hr|(w & Hw & Hr)].
    - apply (loops_consume fuel keq lrec instrs start src l Hsrc Hload Hord (ld_start l) r d b e mn sp); auto; [left; apply start_named|].
      intros H. apply Hno. right; left; exact H.
    - apply (loops_consume fuel keq lrec instrs start src l Hsrc Hload Hord w r d b e mn sp); auto.
      intros H. apply Hno. right; right; eauto.
  Qed.
  Lemma wr_bg : rule_named bg ws_name = ws_rule.
  Proof. destruct final_same as (g4 & HR & _ & -> & _). unfold rule_named. rewrite <- (names_eq _ _ HR). now rewrite (g_names src). Qed.
  Lemma run_call r r' : run r -> calls bg r r' -> run r'.
  Proof.
    intros Hr Hc. destruct final_same as (g4 & HR & _ & E & _). rewrite E in Hc. apply (calls_to _ _ HR) in Hc.
    destruct Hr as [Hr|(w & Hw & Hr)]; [left|right; exists w; split; [exact Hw|]]; eapply reaches_more; eauto.
  Qed.
  Lemma length_bg : List.length bg = List.length g.
  Proof. destruct final_same as (g4 & HR & _ & E & _). rewrite E. now rewrite <- (map_length r_name g4), <- (names_eq _ _ HR), map_length. Qed.
  Lemma acc_iter r : run r -> Acc (fun r' r => first_call (iterate bg) r r') r.
  Proof.
    apply no_cycle_acc.
    - intros r0 Hr. rewrite length_iter, length_bg. now apply run_range.
    - intros r0 r' Hr Hf. apply (run_call r0 r' Hr). apply calls_iter. destruct Hf as (d & b & A & B & C). exists d, b. split; [exact A|]. split; [exact B|now apply (cf_mentions (iterate bg))].
    - intros r0 Hr. apply no_cycle, run_plain, Hr.
  Qed.
  Theorem accepted_well_formed : PegSpec.well_formed (peg_of (iterate bg) (ws_expr bg ws_rule)) (Rn run).
  Proof.
    rewrite <- (ws_iter bg ws_rule Hlr). destruct final_same as (g4 & HR & _ & E & _).
    assert (Hob : ordinary_grammar bg) by (rewrite E; exact (ordinary_to _ _ HR Hord)).
    assert (Hpb : forall r, plain_rule g r -> plain_rule bg r) by (intros r; rewrite E; exact (plain_to _ _ HR r)).
    apply wf_peg.
    - exact (ordinary_grammar_iter bg ws_rule Hlr Hob).
    - apply named_iter. rewrite E. apply (named_all _ _ HR). exact (g_named fuel keq lrec instrs start src l Hsrc Hload Hord).
    - intros w Hw. apply (proj1 (plain_iter bg w)), Hpb, Hwp, Hw.
    - intros d Hd. apply In_nth_error in Hd as [k Hd]. rewrite iterate_nth in Hd. destruct (nth_error bg k) as [d0|]; [|discriminate]. injection Hd as <-. apply iterate_kind.
    - intros r Hr. rewrite length_iter, length_bg. now apply run_range.
    - intros r r' Hr Hc. apply (run_call r r' Hr), calls_iter, Hc.
    - intros w Hw. right. exists w. split; [exact Hw|constructor].
    - intros r Hr. apply (proj1 (plain_iter bg r)), Hpb, run_plain, Hr.
    - intros r Hr. now apply acc_iter.
    - intros r d b e mn sp Hr Hd Hb Hi.
      assert (Hm : r_is_macro d = false) by (apply (proj1 (plain_iter bg r) (Hpb _ (run_plain _ Hr)) d Hd)).
      destruct (loops_iter bg ws_rule Hlr r d b e mn sp Hd Hb Hm Hi) as [(d1 & b1 & A & B & C)|H]; [|exact H].
      intros He. apply me_iter in He. rewrite E in A, He. destruct (body_from _ _ HR _ _ _ A B) as (d0 & b0 & Hd0 & Hb0 & E0).
      apply (loops_ok r d0 b0 e mn sp Hr Hd0 Hb0); [|now apply (me_from _ _ HR)].
      destruct E0 as [-> | ->]; [exact C|]. inversion C as [|o p x Hp Hi' E1 E2]; subst. destruct Hp as [<- | []]. exact Hi'.
    - intros r d b x w Hr Hd Hb Hi Hw. destruct (words_iter bg r d b x w Hd Hb Hi Hw) as (d1 & b1 & A & B & C).
      rewrite E in A. destruct (body_from _ _ HR _ _ _ A B) as (d0 & b0 & Hd0 & Hb0 & E0).
      apply (Hlit r d0 b0 x w Hr Hd0 Hb0); [|exact Hw]. destruct E0 as [-> | ->]; [exact C|]. inversion C as [|o p y Hp Hi' E1 E2]; subst; [destruct Hw|]. destruct Hp as [<- | []]. exact Hi'.
  Qed.

  Context {V U : Type}.
  Theorem accepted_terminates (P : pobj V U) input dt md mm :
    p_g P = bg -> p_ws P = ws_expr bg ws_rule -> p_start P = ld_start l ->
    core_parser md mm P -> p_word P = None -> (forall q, p_pred P q = None) -> valid_utf8 input ->
    exists b reps res F, forall fuel, F <= fuel -> parser_parse fuel P input dt = Ok (b, reps, res).
  Proof.
    intros H1 H2 H3 Hc Hwn Hp Hu. apply (engine_terminates P input dt md mm (Rn run)); auto.
    - apply bare_parser_anns. destruct final_same as (g4 & _ & Hb & E & _). rewrite E in *. split; [now rewrite H1|]. rewrite Hwn. split; [|exact I]. rewrite H2. unfold ws_expr.
      destruct ws_rule as [w|]; [|exact I]. destruct (nth_error g4 w) as [d|] eqn:Hd; [|exact I]. destruct (r_body d) as [b|] eqn:Hbo; [|exact I]. cbn.
      unfold bare_grammar in Hb. rewrite forallb_forall in Hb. specialize (Hb d (nth_error_In _ _ Hd)). now rewrite Hbo in Hb.
    - unfold peg_grammar. rewrite H1, H2. apply accepted_well_formed.
    - exact I.
    - rewrite H3. left. constructor.
  Qed.

  (** The same with the first-byte tables, scans and keyword guards the library adds,
      where C16 applies. *)
  Lemma accepted_anns (P : pobj V U) input : p_g P = bg -> p_ws P = ws_expr bg ws_rule -> p_word P = None -> anns_parser P input.
  Proof.
    intros H1 H2 Hwn. apply bare_parser_anns. destruct final_same as (g4 & _ & Hb & E & _). rewrite E in *. split; [now rewrite H1|]. rewrite Hwn. split; [|exact I]. rewrite H2. unfold ws_expr.
    destruct ws_rule as [w|]; [|exact I]. destruct (nth_error g4 w) as [d|] eqn:Hd; [|exact I]. destruct (r_body d) as [b|] eqn:Hbo; [|exact I]. cbn.
    unfold bare_grammar in Hb. rewrite forallb_forall in Hb. specialize (Hb d (nth_error_In _ _ Hd)). now rewrite Hbo in Hb.
  Qed.
  Lemma accepted_settled_iter (P : pobj V U) input :
    p_g P = bg -> p_ws P = ws_expr bg ws_rule -> p_start P = ld_start l ->
    p_word P = None -> (forall q, p_pred P q = None) -> valid_utf8 input ->
    exists j x, ref_top j (mk_env (iterated P) input) (p_start P) = Some x.
  Proof.
    intros H1 H2 H3 Hwn Hp Hu.
    assert (Hwf : PegSpec.well_formed (peg_grammar P) (Rn run)) by (unfold peg_grammar; rewrite H1, H2; apply accepted_well_formed).
    destruct (PegFacts.peg_total (peg_grammar P) (Rn run) Hwf (start_of P) input Hu) as [r Hr].
    { split; [exact I|]. cbn. rewrite H3. left. constructor. }
    apply (no_word_peg P (fun _ => None) input r Hwn) in Hr.
    destruct (peg_ref_top_plain (iterated P) (fun _ => None) input r (no_word_table P (fun _ => None) Hwn) Hp Hr) as (k & y & A & _). eauto.
  Qed.
  Lemma accepted_settled (P : pobj V U) input md mm :
    p_g P = bg -> p_ws P = ws_expr bg ws_rule -> p_start P = ld_start l ->
    core_parser md mm P -> p_word P = None -> (forall q, p_pred P q = None) -> valid_utf8 input ->
    exists j x, ref_top j (mk_env P input) (p_start P) = Some x.
  Proof.
    intros H1 H2 H3 Hc Hwn Hp Hu. destruct (accepted_settled_iter P input H1 H2 H3 Hwn Hp Hu) as (k & y & A).
    destruct (ref_top_iterated P input md mm k y Hc (accepted_anns P input H1 H2 Hwn) Hp A) as (j & z & C & _). eauto.
  Qed.
  Theorem accepted_tables (P : pobj V U) input dt md mm odd :
    p_g P = bg -> p_ws P = ws_expr bg ws_rule -> p_start P = ld_start l ->
    core_parser md mm P -> p_word P = None -> (forall q, p_pred P q = None) -> valid_utf8 input ->
    no_empty_recursion bg -> regular_alternatives bg (is_some (p_ws P)) odd -> regular_spans bg odd -> no_keyword_guard bg ->
    plain_text input -> (odd = false -> ascii_text input) -> pure (mk_env P input) ->
    same_outcome (with_grammar P (ld_g l) (ld_ws l)) P input dt.
  Proof.
    intros H1 H2 H3 Hc Hwn Hp Hu Hne Hra Hrs Hk Hpl Ha Hpure.
    assert (Hws : ld_ws l = ws_expr (ld_g l) ws_rule).
    { destruct (load_final _ _ _ _ _ _ _ Hload) as (_ & _ & _ & _ & _ & _ & E & _). rewrite E. f_equal. rewrite <- wr_bg. unfold rule_named. f_equal. unfold strip_grammar. rewrite map_map. reflexivity. }
    rewrite Hws. pose proof (accepted_settled P input md mm H1 H2 H3 Hc Hwn Hp Hu) as Hset.
    destruct final_same as (g4 & _ & Hb & E & Hs). rewrite E in *. rewrite <- H1 in *.
    eapply (annotated_same P ws_rule _ _ _ (ld_g l) input dt md mm odd); eauto. now apply no_guards_sound.
  Qed.
  Lemma accepted_recog (P : pobj V U) :
    p_g P = bg -> p_ws P = ws_expr bg ws_rule -> p_word P = None -> no_empty_recursion bg ->
    recognize_only (with_grammar P (ld_g l) (ld_ws l)) = recognize_only P.
  Proof.
    intros H1 H2 Hwn Hne.
    assert (Hws : ld_ws l = ws_expr (ld_g l) ws_rule).
    { destruct (load_final _ _ _ _ _ _ _ Hload) as (_ & _ & _ & _ & _ & _ & E & _). rewrite E. f_equal. rewrite <- wr_bg. unfold rule_named. f_equal. unfold strip_grammar. rewrite map_map. reflexivity. }
    rewrite Hws. destruct final_same as (g4 & _ & Hb & E & Hs). rewrite E in *. rewrite <- H1 in *.
    exact (annotated_recog P ws_rule _ _ _ (ld_g l) Hb H2 Hs Hne Hwn).
  Qed.
End Accepted.
