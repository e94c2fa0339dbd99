(** * A parser and the same parser with other marks (has_macro_ref) have the same
    outcome, as long as the rules that call macros are marked. *)
From Verif Require Import Base BaseLemmas Utf8 Escape TrieM LineInfo Ope Ctx ErrLog Engine EngineLemmas Scope Top IndepSpec RefSem RefMono Refine RefineOps TopRef GrammarCond SessionM Session RefMark FirstTop.

Section MarkTop.
  Context {V U : Type}.
  Implicit Types (P : pobj V U).
  Variable mk : rid -> bool.

  Lemma hygienic_marked g n : hygienic (marked mk g) n = hygienic g n.
  Proof.
    unfold marked. generalize 0. induction g as [|d g IH]; intros i; [reflexivity|]. cbn [marked_from]. unfold hygienic in *. cbn [forallb].
    rewrite IH. reflexivity.
  Qed.
  Lemma length_marked g : List.length (marked mk g) = List.length g.
  Proof. unfold marked. generalize 0. induction g as [|d g IH]; intros i; [reflexivity|]. cbn. now rewrite IH. Qed.
  Lemma mref_marked g o : mref (marked mk g) o = mref g o.
  Proof.
    assert (Hl : forall l, Forall (fun o => mref (marked mk g) o = mref g o) l -> existsb (mref (marked mk g)) l = existsb (mref g) l).
    { induction 1 as [|x l Hx _ IH]; [reflexivity|]. cbn [existsb]. now rewrite Hx, IH. }
    induction o using ope_ind'; cbn [mref]; auto.
    destruct rl as [r|]; [|reflexivity]. rewrite marked_nth. destruct (nth_error g r); reflexivity.
  Qed.
  (** Marks are only taken away. *)
  Definition fewer (g : grammar) : Prop := forall r d, nth_error g r = Some d -> mk r = true -> r_macro_ref d = true.
  (** An ordinary rule that calls a macro is marked. *)
  Definition enough (g : grammar) : Prop :=
    forall r d b, nth_error g r = Some d -> r_body d = Some b -> r_is_macro d = false -> mref g b = true -> mk r = true.

  Lemma core_in_marked g ws md mm : fewer g -> forall o m, core_in g ws md mm m o = true -> core_in (marked mk g) ws md mm m o = true.
  Proof.
    intros Hf.
    assert (Hl : forall l, Forall (fun o => forall m, core_in g ws md mm m o = true -> core_in (marked mk g) ws md mm m o = true) l ->
      forall m, forallb (core_in g ws md mm m) l = true -> forallb (core_in (marked mk g) ws md mm m) l = true).
    { intros l H m Hc. rewrite forallb_forall in *. rewrite Forall_forall in H. auto. }
    induction o using ope_ind'; cbn [core_in]; intros m' Hc; auto; try discriminate.
    - apply andb_prop in Hc as [H1 H2]. rewrite H1, marked_nth. cbn [andb]. destruct (nth_error g r) as [d|] eqn:Hd; [|discriminate].
      cbn [option_map with_mark r_is_macro r_macro_ref]. apply andb_prop in H2 as [H2 H3]. rewrite H2. cbn [andb].
      destruct (mk r) eqn:Hm; [|reflexivity]. now rewrite (Hf r d Hd Hm) in H3.
    - destruct rl as [r|]; [|exact Hc]. apply andb_prop in Hc as [Hc H3]. apply andb_prop in Hc as [H1 H2].
      rewrite hygienic_marked, H2, marked_nth. apply andb_true_iff. split.
      + rewrite andb_true_r. destruct (nth_error g r) as [d|]; [|discriminate]. exact H1.
      + rewrite forallb_forall in *. intros a Hin. specialize (H3 a Hin). rewrite forallb_forall in *. rewrite Forall_forall in H. auto.
    - apply orb_prop in Hc as [Hc|Hc]; [now rewrite Hc|]. rewrite (IHo _ Hc). apply orb_true_r.
  Qed.
  Lemma core_grammar_marked g ws md mm : fewer g -> enough g -> core_grammar g ws md mm = true -> core_grammar (marked mk g) ws md mm = true.
  Proof.
    intros Hf He Hc. unfold core_grammar in *. rewrite forallb_forall in *. intros [r d'] Hin.
    assert (Hd' : nth_error (marked mk g) r = Some d').
    { clear - Hin. assert (H : forall k (g : grammar) r d, In (r, d) (combine (seq k (List.length g)) g) -> k <= r /\ nth_error g (r - k) = Some d).
      { intros k g0. revert k. induction g0 as [|x g0 IH]; intros k r0 d0 H; [contradiction|]. cbn [List.length seq combine] in H. destruct H as [H|H].
        - inversion H; subst. rewrite Nat.sub_diag. auto.
        - destruct (IH _ _ _ H) as [H1 H2]. split; [lia|]. replace (r0 - k) with (S (r0 - S k)) by lia. exact H2. }
      apply H in Hin as [_ Hin]. now rewrite Nat.sub_0_r in Hin. }
    rewrite marked_nth in Hd'. destruct (nth_error g r) as [d|] eqn:Hd; [|discriminate]. cbn in Hd'. injection Hd' as <-.
    specialize (Hc _ (in_combine_seq _ _ _ Hd)). unfold core_rule in *. cbn [fst snd with_mark r_body r_is_macro r_no_whitespace r_macro_ref] in *.
    destruct (r_body d) as [b|] eqn:Hb; [|reflexivity]. apply andb_prop in Hc as [H1 H2]. rewrite H2, andb_true_r.
    destruct (r_is_macro d) eqn:Hm.
    - rewrite forallb_forall in *. intros m Hi. now apply core_in_marked, H1.
    - apply andb_prop in H1 as [H1 _]. rewrite (core_in_marked g ws md mm Hf _ _ H1), mref_marked. cbn [andb].
      destruct (mref g b) eqn:Hmr; [|reflexivity]. now rewrite (He r d b Hd Hb Hm Hmr).
  Qed.

  (** The rules that can be reached are the same. *)
  Lemma ids_ope_ext (en en' : rid -> ids_st -> ids_st) o : (forall r st, en' r st = en r st) -> forall st, ids_ope en' o st = ids_ope en o st.
  Proof.
    intros He. assert (Hl : forall l, Forall (fun o => forall st, ids_ope en' o st = ids_ope en o st) l -> forall st,
      (fix all l st := match l with [] => st | x :: l' => all l' (ids_ope en' x st) end) l st
      = (fix all l st := match l with [] => st | x :: l' => all l' (ids_ope en x st) end) l st).
    { induction 1 as [|x l Hx _ IH]; intros st; [reflexivity|]. rewrite Hx. apply IH. }
    induction o using ope_ind'; intros st; cbn [ids_ope]; auto.
    - destruct rl; [rewrite (Hl _ H); apply He|reflexivity].
    - now rewrite IHo1, IHo2.
  Qed.
  Lemma ids_marked g k : forall r st, ids_enter k (marked mk g) r st = ids_enter k g r st.
  Proof.
    induction k as [|k IH]; intros r st; [reflexivity|]. cbn [ids_enter]. destruct (mem_rid _ _); [reflexivity|].
    rewrite marked_nth. destruct (nth_error g r) as [d|]; [|reflexivity]. cbn [option_map with_mark r_body]. destruct (r_body d); [|reflexivity]. apply ids_ope_ext. exact IH.
  Qed.

  Lemma definition_ids_marked g s ws wd : definition_ids (marked mk g) s ws wd = definition_ids g s ws wd.
  Proof.
    unfold definition_ids. cbv zeta. rewrite length_marked, ids_marked.
    assert (Ho : forall (o : option ope) st, match o with Some e => ids_ope (ids_enter (S (List.length g)) (marked mk g)) e st | None => st end
       = match o with Some e => ids_ope (ids_enter (S (List.length g)) g) e st | None => st end).
    { intros [o|] st; [|reflexivity]. apply ids_ope_ext. intros. apply ids_marked. }
    now rewrite !Ho.
  Qed.

  (** The annotations stay sound. *)
  Lemma seed_marked (E E' : env V U) sd : remarked mk E E' -> seed_ok E' sd -> seed_ok E sd.
  Proof.
    intros S. induction 1 as [|r p d' b' Hb Hl Hm|r p s s' d' b' k m H IH Hb Ho].
    - constructor.
    - rewrite (a_body mk E E' S) in Hb. destruct (get_body E r) as [[d b]|] eqn:Hg; [|discriminate]. injection Hb as <- <-.
      econstructor; eauto.
    - rewrite (a_body mk E E' S) in Hb. destruct (get_body E r) as [[d b]|] eqn:Hg; [|discriminate]. injection Hb as <- <-.
      eapply so_grow; [exact IH|exact Hg|]. rewrite <- Ho. symmetry. apply (a_once mk (ref k) (ref k) (ref_marked mk k) E E' S).
  Qed.
  Lemma ann_cho_marked (E E' : env V U) fs l : remarked mk E E' -> ann_cho E fs l -> ann_cho E' fs l.
  Proof.
    intros S H id o pos Ho Hp Hs k sd fr m vs x Hsd Hx. rewrite (ref_marked mk k E E' sd fr m o pos vs S) in Hx.
    assert (Hi : inlen E' = inlen E) by (unfold inlen; now rewrite (sp_input _ _ _ S)).
    eapply (H id o pos Ho); [now rewrite <- Hi| |eapply seed_marked; eauto|exact Hx].
    rewrite <- Hs. unfold fs_skip. rewrite (sp_input _ _ _ S), (left_remarked mk _ _ _ S). reflexivity.
  Qed.
  Lemma ann_seq_marked (E E' : env V U) kg l : remarked mk E E' -> ann_seq E kg l -> ann_seq E' kg l.
  Proof.
    intros S H. destruct kg as [kw|]; [|exact I]. intros k sd fr m pos vs x Hsd Hp Hx.
    assert (Hi : inlen E' = inlen E) by (unfold inlen; now rewrite (sp_input _ _ _ S)).
    pose proof (a_seq (ref k E sd fr m) (ref k E' sd fr m) l (fun o pos vs => ref_marked mk k E E' sd fr m o pos vs S) pos 0 vs) as Hq.
    rewrite Hq in Hx. specialize (H k sd fr m pos vs x (seed_marked _ _ _ S Hsd) ltac:(now rewrite <- Hi) Hx).
    replace (kg_out E' kw pos) with (kg_out E kw pos) by (unfold kg_out; now rewrite (sp_input _ _ _ S), (left_remarked mk _ _ _ S)).
    destruct (kg_out E kw pos); auto. now rewrite (a_then mk (ref k) (ref k) (ref_marked mk k) E E' S).
  Qed.
  Lemma ann_rep_marked (E E' : env V U) e mn mx sp : remarked mk E E' -> ann_rep E e mn mx sp -> ann_rep E' e mn mx sp.
  Proof.
    intros S H. destruct sp as [s|]; [|exact I]. intros k sd fr m pos vs x Hsd Hp Hx.
    assert (Hi : inlen E' = inlen E) by (unfold inlen; now rewrite (sp_input _ _ _ S)).
    rewrite (a_rep k (ref k E sd fr m e) (ref k E' sd fr m e) mn mx (fun pos vs => ref_marked mk k E E' sd fr m e pos vs S)) in Hx.
    specialize (H k sd fr m pos vs x (seed_marked _ _ _ S Hsd) ltac:(now rewrite <- Hi) Hx).
    unfold span_limit in *. now rewrite (sp_input _ _ _ S), (left_remarked mk _ _ _ S).
  Qed.
  Lemma anns_marked (E E' : env V U) o : remarked mk E E' -> anns E o -> anns E' o.
  Proof.
    intros S.
    assert (Hl : forall l, Forall (fun o => anns E o -> anns E' o) l -> Forall (anns E) l -> Forall (anns E') l).
    { intros l H1 H2. rewrite Forall_forall in *. auto. }
    induction o using ope_ind'; cbn [anns]; auto.
    - intros [H1 H2]. split; [now apply (ann_seq_marked E)|]. apply anns_all. apply anns_all in H2. auto.
    - intros [H1 H2]. split; [now apply (ann_cho_marked E)|]. apply anns_all. apply anns_all in H2. auto.
    - intros [H1 H2]. split; [now apply (ann_rep_marked E)|auto].
    - intros H2. apply anns_all. apply anns_all in H2. auto.
  Qed.

  Theorem marks_same P input dt md mm :
    let P' := with_grammar P (marked mk (p_g P)) (p_ws P) in
    core_parser md mm P -> anns_parser P input -> fewer (p_g P) -> enough (p_g P) ->
    pure (mk_env P input) -> (recognize_only P = true -> forall r, p_pred P r = None) ->
    (exists j x, ref_top j (mk_env P input) (p_start P) = Some x) ->
    same_outcome P' P input dt.
  Proof.
    intros P' Hc Ha Hf He Hp Hr (j & x & Hx).
    assert (Hro : recognize_only P' = recognize_only P).
    { unfold recognize_only. cbn [P' with_grammar p_g p_start p_ws p_word p_tracer p_log p_action p_enter p_leave p_pred]. now rewrite definition_ids_marked. }
    assert (S : remarked mk (mk_env P input) (mk_env P' input)) by (constructor; reflexivity).
    assert (Hc' : core_parser md mm P').
    { destruct Hc as [H1 H2 H3 H4 H5 H6]. constructor; cbn [P' with_grammar p_g p_start p_ws p_word p_user p_packrat p_slot p_cached]; auto.
      - now apply core_grammar_marked.
      - destruct (p_ws P) as [w|] eqn:Hw; [|exact I]. unfold core_ws in *. destruct w; try discriminate.
        apply andb_prop in H2 as [H2 Hn]. apply andb_prop in H2 as [H2 Hm]. rewrite mref_marked, Hm, Hn, (core_in_marked _ _ _ _ Hf _ _ H2). reflexivity.
      - destruct H3 as [H3 (d & Hd & Hm)]. split; [exact H3|]. rewrite marked_nth, Hd. eexists. split; [reflexivity|exact Hm].
      - destruct (p_word P) as [w|]; [|exact I]. destruct H4 as (A & B & C & D). rewrite mref_marked.
        split; [now apply core_grammar_marked|]. split; [now apply core_in_marked|]. auto. }
    assert (Ha' : anns_parser P' input).
    { destruct Ha as (A & B & C). split; [|split]; cbn [P' with_grammar p_g p_ws p_word].
      - intros r d' b Hd Hb. destruct (marked_body _ _ _ _ _ Hd Hb) as (d & Hd0 & Hb0 & _). apply (anns_marked _ _ _ S). eauto.
      - intros w Hw. apply (anns_marked _ _ _ S). auto.
      - intros w Hw inp. destruct (C w Hw inp) as [C1 C2]. pose proof (remarked_word mk _ _ inp S) as S'. split.
        + intros r d' b Hd Hb. destruct (marked_body _ _ _ _ _ Hd Hb) as (d & Hd0 & Hb0 & _). apply (anns_marked _ _ _ S'). eauto.
        + now apply (anns_marked _ _ _ S'). }
    assert (Hal : core_modes (p_g P) md mm (p_start P) m_top).
    { destruct (cp_start _ _ _ Hc) as [H1 (d & Hd & Hm)]. cbn. rewrite Hd, Hm. exact H1. }
    assert (Hal' : core_modes (p_g P') md mm (p_start P) m_top).
    { destruct (cp_start _ _ _ Hc') as [H1 (d & Hd & Hm)]. cbn in *. rewrite Hd, Hm. exact H1. }
    pose proof (core_okA (kp := true) md mm P input Hc Ha (or_intror Hp) Hr) as HA.
    assert (HA' : okA (kp := true) (mk_env P' input) (core_modes (p_g P') md mm) (word_modes P')).
    { apply (core_okA (kp := true) md mm P' input Hc' Ha').
      - right. destruct Hp. constructor; assumption.
      - rewrite Hro. exact Hr. }
    eapply (compare_parsers P' P input dt _ _ _ _ j x HA' HA Hal' Hal); [reflexivity|exact Hro| |exact Hx].
    rewrite <- Hx. now apply (ref_top_marked mk).
  Qed.
End MarkTop.
