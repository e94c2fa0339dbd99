(** * Proofs of C38 (tracing and logging), C43 (unreachable rules) and C44
    (semantic actions). *)
From Verif Require Import Base BaseLemmas Utf8 Escape TrieM LineInfo Ope Ctx ErrLog Engine EngineLemmas Frame Scope Top IdsFacts Sim IndepSpec SimTop.

Section Views.
  Context {V U : Type}.
  Implicit Types P Q : pobj V U.
  Lemma view_sim (Nm : rid -> Prop) (Vr : option V -> option V -> Prop) m fuel P Q input dt :
    m_log m = true -> p_log P = p_log Q -> (forall r, Nm r -> nth_error (p_g P) r = nth_error (p_g Q) r) ->
    (forall vs1 vs2, VR Vr (m_rg m) vs1 vs2 -> front (v_vals vs1) = front (v_vals vs2)) ->
    osim true (obs Nm Vr eq m) (def_parse fuel P input dt) (def_parse fuel Q input dt) ->
    view (parser_parse fuel P input dt) = view (parser_parse fuel Q input dt).
  Proof.
    intros Hm Hl Hg HV H. unfold view, parser_parse. inv H; try (reflexivity); try discriminate.
    cbn [bind]. destruct H2 as [O1 O2 O3 O4 O5 O6 O7 O8]. specialize (O5 Hm). specialize (O6 Hm). specialize (O7 Hm).
    rewrite <- Hl, <- O1, <- O5, <- O7, <- O2. rewrite (output_log_same Nm (p_g P) (p_g Q) input (rs_err a) Hg O6).
    assert (HVV : result_value a = result_value b).
    { unfold result_value. rewrite <- O1. destruct (rs_ret a); [|reflexivity]. specialize (HV _ _ O4). unfold front in HV.
      destruct (v_vals (rs_vs a)), (v_vals (rs_vs b)); cbn in *; congruence. }
    destruct (p_log P && negb (rs_ret a)).
    - destruct (output_log (p_g Q) input (rs_err a)) as [[e rp]| | |]; cbn [bind seen]; try reflexivity.
      now rewrite O1, O2, O3, O5, O8, HVV.
    - cbn [bind seen]. now rewrite O1, O2, O3, O5, O8, HVV.
  Qed.
  Lemma VRs_front vs1 vs2 : VR (V1 := V) (V2 := V) eq false vs1 vs2 -> front (v_vals vs1) = front (v_vals vs2).
  Proof. intros H. apply VRs_eq in H. now subst. Qed.
  Lemma VR_rg_front (Vr : option V -> option V -> Prop) vs1 vs2 : VR Vr true vs1 vs2 -> front (v_vals vs1) = front (v_vals vs2).
  Proof.
    intros [H1 H2]. unfold front. destruct H1 as [|a l ->], H2 as [|b l' ->]; reflexivity.
  Qed.

  (** Any setting against "traced and verbose". *)
  Lemma trace_canonical fuel P t v input dt : macro_marks (p_g P) -> plain_ws (p_g P) (p_ws P) ->
    view (parser_parse fuel (with_trace t v P) input dt) = view (parser_parse fuel (with_trace true true P) input dt).
  Proof.
    intros Hm Hw. symmetry. set (A := with_trace true true P). set (B := with_trace t v P).
    assert (Hs : same_but_modes A B) by (constructor; reflexivity).
    assert (RA : recognize_only A = false). { unfold recognize_only, A. cbn [with_trace p_tracer]. now rewrite andb_false_r. }
    assert (Hst : forall m, m_rg m = false -> m_plain m = false -> m_log m = true -> recognize_only B = false ->
        (m_stk m = true -> t = true \/ p_log P = true) -> (m_stk m = false -> p_log P = false) ->
        view (parser_parse fuel A input dt) = view (parser_parse fuel B input dt)).
    { intros m Hrg Hpl Hlg RB Hstk Hnl.
      apply (view_sim all_rules eq m); auto; [rewrite Hrg; apply VRs_front|].
      rewrite <- Hlg. apply def_sim with (R := all_rules); auto. constructor; auto; try exact Logic.I.
      - apply ER_modes; auto; [congruence|]. intros Hk. cbn [A B with_trace p_tracer p_log]. destruct (Hstk Hk) as [-> | ->]; [reflexivity|].
        now rewrite !orb_true_r.
      - now rewrite Hlg.
      - congruence. }
    destruct (recognize_only B) eqn:RB.
    - apply (view_sim all_rules none_both {| m_log := true; m_stk := false; m_rg := true; m_plain := true |}); auto.
      { apply VR_rg_front. }
      destruct (recognize_spec B RB) as (_ & _ & Hl & _).
      apply (def_sim (fun r => In r (id_list (definition_ids (p_g A) (p_start A) (p_ws A) (p_word A)))) all_rules none_both eq ltac:(split; reflexivity)
               fuel {| m_log := true; m_stk := false; m_rg := true; m_plain := true |}); [|reflexivity].
      constructor; auto.
      + apply ER_recog; auto.
      + apply definition_ids_spec.
      + reflexivity.
    - destruct (t || p_log P) eqn:Htl.
      + apply (Hst {| m_log := true; m_stk := true; m_rg := false; m_plain := false |}); auto; [|discriminate].
        intros _. apply orb_prop in Htl. exact Htl.
      + apply orb_false_iff in Htl as [Ht Hl].
        apply (Hst {| m_log := true; m_stk := false; m_rg := false; m_plain := false |}); auto. discriminate.
  Qed.
  Theorem trace_independent fuel P t v t' v' input dt : macro_marks (p_g P) -> plain_ws (p_g P) (p_ws P) ->
    view (parser_parse fuel (with_trace t v P) input dt) = view (parser_parse fuel (with_trace t' v' P) input dt).
  Proof. intros Hm Hw. rewrite (trace_canonical fuel P t v), (trace_canonical fuel P t' v') by assumption. reflexivity. Qed.

  (** Logging. *)
  Lemma log_traced fuel P input dt : p_tracer P = true ->
    osim false (fun x y => matched x = matched y)
      (parser_parse fuel (with_log true P) input dt) (parser_parse fuel (with_log false P) input dt).
  Proof.
    intros Ht. set (A := with_log true P). set (B := with_log false P).
    assert (RA : recognize_only A = false). { unfold recognize_only, A. cbn [with_log p_tracer]. now rewrite Ht, andb_false_r. }
    assert (RB : recognize_only B = false). { unfold recognize_only, B. cbn [with_log p_tracer]. now rewrite Ht, andb_false_r. }
    pose proof (def_sim all_rules all_rules eq eq eq_refl fuel {| m_log := false; m_stk := true; m_rg := false; m_plain := false |} A B input dt dt) as H.
    assert (Hx : osim false (obs all_rules eq eq {| m_log := false; m_stk := true; m_rg := false; m_plain := false |})
                   (def_parse fuel A input dt) (def_parse fuel B input dt)).
    { apply H; [|reflexivity]. constructor; auto; try exact Logic.I; try discriminate; [|reflexivity].
      apply ER_modes; auto; [constructor; reflexivity|congruence|intros _; cbn; now rewrite Ht|discriminate]. }
    clear H. unfold parser_parse. inv Hx; cbn [bind]; try (constructor; auto; fail).
    destruct H1 as [O1 O2 O3 O4 O5 O6 O7 O8]. cbn [B A with_log p_log p_g andb].
    assert (HVV : result_value a = result_value b).
    { unfold result_value. rewrite <- O1. destruct (rs_ret a); [|reflexivity]. apply VRs_front in O4.
      unfold front in O4. destruct (v_vals (rs_vs a)), (v_vals (rs_vs b)); cbn in *; congruence. }
    cbn [negb andb]. destruct (negb (rs_ret a)) eqn:Hr; cbn [bind].
    - pose proof (output_log_nofuel (p_g P) input (rs_err a)) as Hnf.
      destruct (output_log (p_g P) input (rs_err a)) as [[e rp]| | |]; cbn [bind]; try (now constructor); try congruence.
      apply os_ok. cbn [matched]. now rewrite O1, O2, O3, O8, HVV.
    - apply os_ok. cbn [matched]. now rewrite O1, O2, O3, O8, HVV.
  Qed.
  Theorem log_independent fuel P input dt : macro_marks (p_g P) -> plain_ws (p_g P) (p_ws P) ->
    osim false (fun x y => matched x = matched y)
      (parser_parse fuel (with_log true P) input dt) (parser_parse fuel (with_log false P) input dt).
  Proof.
    intros Hm Hw.
    assert (HA : view (parser_parse fuel (with_log true P) input dt) = view (parser_parse fuel (with_log true (with_trace true true P)) input dt)).
    { exact (trace_canonical fuel (with_log true P) (p_tracer P) (p_verbose P) input dt Hm Hw). }
    assert (HB : view (parser_parse fuel (with_log false P) input dt) = view (parser_parse fuel (with_log false (with_trace true true P)) input dt)).
    { exact (trace_canonical fuel (with_log false P) (p_tracer P) (p_verbose P) input dt Hm Hw). }
    pose proof (log_traced fuel (with_trace true true P) input dt eq_refl) as HC.
    set (a := parser_parse fuel (with_log true P) input dt) in *. set (b := parser_parse fuel (with_log false P) input dt) in *.
    set (a' := parser_parse fuel (with_log true (with_trace true true P)) input dt) in *.
    set (b' := parser_parse fuel (with_log false (with_trace true true P)) input dt) in *.
    clearbody a b a' b'. unfold view in HA, HB.
    inv HC; destruct a; cbn in HA; try discriminate HA; destruct b; cbn in HB; try discriminate HB; inv HA; inv HB; try (constructor; auto; fail).
    apply os_ok. unfold seen, matched in *.
    repeat match goal with x : (bool * list report * result V U)%type |- _ => destruct x as [[? ?] ?] end. congruence.
  Qed.
End Views.

(** ** Unreachable rules *)
Create HintDb mn.
Global Hint Resolve mn_wkh mn_hld mn_rep mn_and mn_not mn_csc mn_cap mn_tok mn_ign mn_wsp mn_rcv mn_pre1 mn_pre2 : mn.
Lemma cov_mentions (L : rid -> Prop) (c q : Prop) o : (forall r, mentions o r -> L r) -> c -> q -> cov L c q o.
Proof.
  intros HL Hc Hq. induction o using ope_ind'; cbn [cov]; auto 6 with mn.
  - assert (Hx : forall x, In x l -> cov L c q x).
    { intros x Hx. rewrite Forall_forall in H. apply H; [assumption|]. intros r Hr. apply HL. econstructor; eauto. }
    clear H HL. induction l; cbn; [auto|]. split; [apply Hx; now left|apply IHl; intros; apply Hx; now right].
  - assert (Hx : forall x, In x l -> cov L c q x).
    { intros x Hx. rewrite Forall_forall in H. apply H; [assumption|]. intros r Hr. apply HL. econstructor; eauto. }
    clear H HL. induction l; cbn; [auto|]. split; [apply Hx; now left|apply IHl; intros; apply Hx; now right].
  - destruct rl as [r|]; [|auto]. split; [apply HL; constructor|].
    assert (Hx : forall x, In x args -> cov L c q x).
    { intros x Hx. rewrite Forall_forall in H. apply H; [assumption|]. intros r' Hr. apply HL. eapply mn_arg; eauto. }
    clear H HL. induction args; cbn; [auto|]. split; [apply Hx; now left|apply IHargs; intros; apply Hx; now right].
Qed.
Lemma fold_and_in {A} (f : A -> Prop) l x : fold_right (fun x p => f x /\ p) True l -> In x l -> f x.
Proof. induction l; cbn; [contradiction|]. intros [H1 H2] [-> | H]; auto. Qed.
Lemma mentions_cov (L : rid -> Prop) (c q : Prop) o : cov L c q o -> forall r, mentions o r -> L r.
Proof.
  induction o using ope_ind'; cbn [cov]; intros Hc r' Hm; inversion Hm; subst; auto; try (now destruct Hc; auto); try (destruct Hc as (_ & ? & ?); now auto).
  - rewrite Forall_forall in H. eapply H; eauto. eapply (fold_and_in (cov L c q)); eauto.
  - rewrite Forall_forall in H. eapply H; eauto. eapply (fold_and_in (cov L c q)); eauto.
  - destruct Hc as [_ Hc]. rewrite Forall_forall in H. eapply H; eauto. eapply (fold_and_in (cov L c q)); eauto.
Qed.
Lemma okope_mentions (L : rid -> Prop) (hb : rid -> Prop) o : (forall r, hb r) -> (forall r, mentions o r -> L r) ->
  Forall L (message_names o) -> okope L L false hb o.
Proof.
  intros Hb. assert (Hl : forall l, Forall (fun o => (forall r, mentions o r -> L r) -> Forall L (message_names o) -> okope L L false hb o) l ->
    (forall x r, In x l -> mentions x r -> L r) -> Forall L (flat_map message_names l) ->
    fold_right (fun x p => okope L L false hb x /\ p) True l).
  { induction 1 as [|x l Hx Hl IH]; cbn; [auto|]. intros HL HN. apply Forall_app in HN as [N1 N2]. split; [|apply IH; eauto].
    apply Hx; eauto. }
  induction o using ope_ind'; cbn [okope message_names]; intros HL HN; auto 6 with mn.
  - apply Hl; auto. intros x r Hx Hr. apply HL. econstructor; eauto.
  - apply Forall_app in HN as [N1 N2]. split.
    + apply Hl; auto. intros x r Hx Hr. apply HL. econstructor; eauto.
    + clear - N1. induction fs; cbn in *; constructor; [|apply IHfs]; try (apply Forall_app in N1; tauto).
      intros r Hr. apply Forall_app in N1 as [N1 _]. rewrite Hr in N1. now inv N1.
  - apply Forall_app in HN as [N1 N2]. split.
    + destruct rl as [r|]; [|auto]. split; [apply HL; constructor|]. apply Hl; auto. intros x q Hx Hr. apply HL. eapply mn_arg; eauto.
    + intros q Hq. unfold label_of in Hq. destruct args as [|a args]; [discriminate|]. destruct a; try discriminate. subst. now inv N1.
  - inv HN. apply Forall_app in H2 as [N1 N2]. split; [reflexivity|]. split; [apply Hb|]. split; [assumption|].
    split; [apply IHo1|apply IHo2]; auto with mn.
Qed.
Section IdsSound.
  Variables (g : grammar) (K : rid -> Prop).
  Hypothesis Kcl : forall q d b r, K q -> nth_error g q = Some d -> r_body d = Some b -> mentions b r -> K r.
  Lemma ids_ope_sound en : (forall r st, K r -> Forall K (id_list st) -> Forall K (id_list (en r st))) ->
    forall o st, (forall r, mentions o r -> K r) -> Forall K (id_list st) -> Forall K (id_list (ids_ope en o st)).
  Proof.
    intros He. assert (Hl : forall l, Forall (fun o => forall st, (forall r, mentions o r -> K r) -> Forall K (id_list st) -> Forall K (id_list (ids_ope en o st))) l ->
      forall st, (forall x r, In x l -> mentions x r -> K r) -> Forall K (id_list st) -> Forall K (id_list (fold_left (fun s x => ids_ope en x s) l st))).
    { induction 1 as [|x l Hx Hl IH]; cbn; [auto|]. intros st HL Hs. apply IH; [eauto|]. apply Hx; eauto. }
    induction o using ope_ind'; intros st HL Hs; try (cbn [ids_ope]; auto 6 with mn; fail).
    - rewrite ids_ope_seq. apply Hl; auto. intros x r Hx Hr. apply HL. econstructor; eauto.
    - rewrite ids_ope_cho. apply Hl; auto. intros x r Hx Hr. apply HL. econstructor; eauto.
    - destruct rl as [r|]; [|exact Hs]. rewrite ids_ope_ref. apply He; [apply HL; constructor|]. apply Hl; auto.
      intros x q Hx Hr. apply HL. eapply mn_arg; eauto.
  Qed.
  Lemma ids_enter_sound fuel : forall r st, K r -> Forall K (id_list st) -> Forall K (id_list (ids_enter fuel g r st)).
  Proof.
    induction fuel as [|k IH]; intros r st Hr Hs; cbn [ids_enter]; [assumption|]. destruct (mem_rid _ _); [assumption|].
    assert (H1 : Forall K (id_list st ++ [r])) by (apply Forall_app; auto).
    destruct (nth_error g r) as [d|] eqn:Hd; [|assumption]. destruct (r_body d) as [b|] eqn:Hb; [|assumption].
    apply ids_ope_sound; auto. eauto.
  Qed.
End IdsSound.
Lemma ids_reachable g start ws word r : In r (id_list (definition_ids g start ws word)) -> reachable g start ws word r.
Proof.
  revert r. apply Forall_forall. unfold definition_ids.
  assert (He : forall r st, reachable g start ws word r -> Forall (reachable g start ws word) (id_list st) ->
    Forall (reachable g start ws word) (id_list (ids_enter (S (List.length g)) g r st))).
  { apply ids_enter_sound. intros q d b r Hq Hd Hb Hm. eapply rc_rule; eauto. }
  set (en := ids_enter (S (List.length g)) g) in *.
  assert (Ho : forall o (Hs : forall w r, o = Some w -> mentions w r -> reachable g start ws word r) st,
    Forall (reachable g start ws word) (id_list st) ->
    Forall (reachable g start ws word) (id_list (match o with Some e => ids_ope en e st | None => st end))).
  { intros [w|] Hs st Hst; [|assumption]. apply ids_ope_sound; eauto. }
  apply Ho; [intros; eapply rc_word; eauto|]. apply Ho; [intros; eapply rc_ws; eauto|]. apply He; [constructor|constructor].
Qed.
(** The scan finds every rule that can be reached. *)
Lemma reachable_ids g start ws word r : reachable g start ws word r -> In r (id_list (definition_ids g start ws word)).
Proof.
  destruct (definition_ids_spec g start ws word) as (Is & Ic & Iw & Iwd). induction 1.
  - assumption.
  - exact (mentions_cov _ _ _ _ (Iw w H) r H0).
  - exact (mentions_cov _ _ _ _ (Iwd w H) r H0).
  - exact (mentions_cov _ _ _ _ (Ic q IHreachable d b H0 H1) r H2).
Qed.

Section Unreachable.
  Context {V U : Type}.
  Implicit Types P Q : pobj V U.
  Lemma same_ids P Q : same_reachable P Q ->
    definition_ids (p_g Q) (p_start Q) (p_ws Q) (p_word Q) = definition_ids (p_g P) (p_start P) (p_ws P) (p_word P).
  Proof.
    intros []. rewrite <- sr_start, <- sr_ws, <- sr_word. apply definition_ids_agree. intros x Hx.
    apply ids_reachable in Hx. destruct (sr_rule x Hx) as (E & _). unfold same_body. now rewrite E.
  Qed.
  Lemma same_recog P Q : same_reachable P Q -> recognize_only P = recognize_only Q.
  Proof.
    intros HS. pose proof (same_ids P Q HS) as Hi. unfold recognize_only. rewrite Hi. destruct HS.
    rewrite <- sr_tracer, <- sr_log. f_equal. cbv zeta.
    assert (HF : Forall (reachable (p_g P) (p_start P) (p_ws P) (p_word P)) (id_list (definition_ids (p_g P) (p_start P) (p_ws P) (p_word P)))).
    { apply Forall_forall. intros r. apply ids_reachable. }
    induction HF as [|r l Hr HF IH]; [reflexivity|]. cbn [forallb]. rewrite IH. f_equal.
    destruct (sr_rule r Hr) as (_ & _ & -> & -> & -> & ->). reflexivity.
  Qed.
  Theorem unreachable_irrelevant fuel P Q input dt : same_reachable P Q ->
    names_reachable (p_g P) (p_start P) (p_ws P) (p_word P) ->
    view (parser_parse fuel P input dt) = view (parser_parse fuel Q input dt).
  Proof.
    intros HS [HN1 HN2]. pose proof (same_ids P Q HS) as Hi. pose proof (same_recog P Q HS) as Hrec.
    set (R := reachable (p_g P) (p_start P) (p_ws P) (p_word P)) in *. destruct HS.
    pose (m := {| m_log := true; m_stk := true; m_rg := false; m_plain := false |}).
    apply (view_sim R eq m); auto.
    { intros r Hr. now destruct (sr_rule r Hr). }
    { apply VRs_front. }
    apply (def_sim R R eq eq eq_refl fuel m); [|reflexivity].
    assert (Hha : forall r, R r -> ha (mk_env P input) (mk_env Q input) r).
    { intros r Hr. unfold ha. cbn. destruct (sr_rule r Hr) as (_ & _ & -> & _). tauto. }
    assert (Hok : forall o, (forall r, mentions o r -> R r) -> Forall R (message_names o) ->
      okope R R false (ha (mk_env P input) (mk_env Q input)) o).
    { intros o H1 H2. pose proof (okope_mentions R (fun _ => True) o (fun _ => Logic.I) H1 H2) as Hk.
      clear - Hk Hha. induction o using ope_ind'; cbn [okope] in *; auto; try tauto.
      - induction H; cbn in *; intuition.
      - destruct Hk as [Hk Hf]. split; [|exact Hf]. induction H; cbn in *; intuition.
      - destruct Hk as [Hk Hf]. split; [|exact Hf]. destruct rl; [|auto]. destruct Hk as [H1 Hk]. split; [assumption|]. clear - H Hk. induction H; cbn in *; intuition.
      - destruct Hk as (H1 & H2 & H3 & H4 & H5). auto 6. }
    constructor; auto; [|apply rc_start|discriminate|discriminate].
    constructor; cbn [m mk_env e_g e_input e_ws e_word e_packrat e_slot e_cached e_has_cut e_need_rules e_recog e_u0 m_log m_stk m_rg m_plain]; auto; try discriminate; try (now intros; discriminate).
    - intros r Hr. now destruct (sr_rule r Hr).
    - intros r d b Hr Hd Hb. apply Hok; [|eauto]. intros q Hq. eapply rc_rule; eauto.
    - intros w Hw. split; [|discriminate]. apply Hok; [|eauto]. intros q Hq. eapply rc_ws; eauto.
    - intros w Hw. apply Hok; [|eauto]. intros q Hq. eapply rc_word; eauto.
    - intros r Hr. now destruct (sr_rule r Hr) as (_ & -> & _).
    - now rewrite Hi.
    - intros _. now rewrite sr_tracer, sr_log.
    - intros inp r vs1 vs2 dt1 dt2 pd1 pd2 Hr Hv -> ->. apply VRs_eq in Hv. subst. unfold act_of. cbn. destruct (sr_rule r Hr) as (_ & _ & -> & _). auto.
    - intros inp r vs1 vs2 dt1 dt2 Hr Hv ->. apply VRs_eq in Hv. subst. unfold pred_of. cbn. destruct (sr_rule r Hr) as (_ & _ & _ & -> & _). auto.
    - intros inp r pos dt1 dt2 Hr ->. unfold enter_of. cbn. destruct (sr_rule r Hr) as (_ & _ & _ & _ & -> & _). reflexivity.
    - intros inp r pos len v1 v2 dt1 dt2 Hr -> ->. unfold leave_of. cbn. destruct (sr_rule r Hr) as (_ & _ & _ & _ & _ & ->). auto.
    - intros inp id pos vs1 vs2 dt1 dt2 _ Hv ->. apply VRs_eq in Hv. subst. cbn. rewrite sr_user. auto using VRs_refl.
  Qed.
End Unreachable.

(** ** Semantic actions *)
Section Actions.
  Context {V1 U1 V2 U2 : Type}.
  Lemma shape_VRs (x : sv V1) (y : sv V2) : same_shape x y <-> VRs (fun _ _ => True) x y.
  Proof.
    split.
    - intros (H0 & H1 & H2 & H3 & H4 & H5 & H6). constructor; auto.
      revert H0. generalize (v_vals x), (v_vals y). induction l; intros [|b l0] H; try discriminate; constructor; auto.
    - intros []. repeat split; auto. clear - vr_vals; induction vr_vals; cbn; congruence.
  Qed.
  Lemma okope_prec (L : list rid -> Prop) (hb : rid -> Prop) o : (forall q, In q (prec_rules o) -> hb q) ->
    okope (fun _ => True) (fun _ => True) false hb o.
  Proof.
    assert (Hl : forall l, Forall (fun o => (forall q, In q (prec_rules o) -> hb q) -> okope (fun _ => True) (fun _ => True) false hb o) l ->
      (forall q, In q (flat_map prec_rules l) -> hb q) -> fold_right (fun x p => okope (fun _ => True) (fun _ => True) false hb x /\ p) True l).
    { induction 1 as [|x l Hx Hl IH]; cbn; [auto|]. intros Hq. split; [apply Hx|apply IH]; intros; apply Hq, in_or_app; auto. }
    induction o using ope_ind'; cbn [okope prec_rules]; intros Hq; auto 8.
    - split; [now apply Hl|]. apply Forall_forall. auto.
    - split; [|auto]. destruct rl; [|auto]. split; [auto|now apply Hl].
    - split; [reflexivity|]. split; [apply Hq; now left|]. split; [exact Logic.I|].
      split; [apply IHo1|apply IHo2]; intros; apply Hq; right; apply in_or_app; auto.
  Qed.
  Lemma actions_traced fuel (P : pobj V1 U1) (Q : pobj V2 U2) input dt1 dt2 : same_but_actions P Q ->
    outer_view (parser_parse fuel (with_trace true true P) input dt1) = outer_view (parser_parse fuel (with_trace true true Q) input dt2).
  Proof.
    intros []. set (A := with_trace true true P). set (B := with_trace true true Q).
    pose (m := {| m_log := true; m_stk := true; m_rg := false; m_plain := false |}).
    assert (RA : recognize_only A = false). { unfold recognize_only, A. cbn [with_trace p_tracer]. now rewrite andb_false_r. }
    assert (RB : recognize_only B = false). { unfold recognize_only, B. cbn [with_trace p_tracer]. now rewrite andb_false_r. }
    assert (H : osim true (obs all_rules (fun _ _ => True) (fun _ _ => True) m) (def_parse fuel A input dt1) (def_parse fuel B input dt2)).
    { apply (def_sim all_rules all_rules (fun _ _ => True) (fun _ _ => True) Logic.I fuel m); [|exact Logic.I].
      constructor; auto; try exact Logic.I; try discriminate.
      constructor; cbn [A B m with_trace mk_env p_g p_start p_ws p_word p_packrat p_slot p_cached p_tracer p_verbose p_log p_u0 p_action p_pred p_enter p_leave p_user e_g e_input e_ws e_word e_packrat e_slot e_cached e_has_cut e_need_rules e_recog e_u0 m_log m_stk m_rg m_plain]; auto; try discriminate.
      - intros r _. now rewrite sa_g.
      - intros r d b _ Hd Hb. apply (okope_prec (fun _ => True)). intros q Hq. unfold ha. cbn. apply sa_prec. right. eauto 8.
      - intros w Hw. split; [|discriminate]. apply (okope_prec (fun _ => True)). intros q Hq. unfold ha. cbn. apply sa_prec. left. eauto 8.
      - intros w Hw. apply (okope_prec (fun _ => True)). intros q Hq. unfold ha. cbn. apply sa_prec. left. eauto 8.
      - intros r _. now rewrite sa_slot.
      - now rewrite sa_g, sa_start, sa_ws, sa_word.
      - change (recognize_only A = recognize_only B). congruence.
      - intros inp r vs1 vs2 d1 d2 _ Hv _. apply shape_VRs in Hv. specialize (sa_pred r inp vs1 vs2 d1 d2 Hv).
        split; [|exact Logic.I]. unfold pred_of, verdict in *. cbn. destruct (p_pred P r), (p_pred Q r); exact sa_pred.
      - intros inp id pos vs1 vs2 d1 d2 _ Hv _. apply shape_VRs in Hv. specialize (sa_user id inp pos vs1 vs2 d1 d2 Hv). cbn.
        destruct (p_user P id inp pos vs1 d1) as [[n1 x1] u1], (p_user Q id inp pos vs2 d2) as [[n2 x2] u2]. destruct sa_user as [-> Hs].
        apply shape_VRs in Hs. cbn. auto. }
    unfold outer_view, parser_parse. inv H; try reflexivity; try discriminate. cbn [bind].
    destruct H2 as [O1 O2 O3 O4 O5 O6 O7 O8]. specialize (O5 eq_refl). specialize (O7 eq_refl).
    assert (HL : p_log A = p_log B) by exact sa_log. rewrite <- HL, <- O1, <- O2, <- O5, <- O7.
    assert (HG : p_g A = p_g B) by exact sa_g. rewrite <- HG.
    destruct (p_log A && negb (rs_ret a)).
    - destruct (output_log (p_g A) input (rs_err a)) as [[e rp]| | |]; cbn [bind unvalued]; try reflexivity. now rewrite O1, O2, O3, O5.
    - cbn [bind unvalued]. now rewrite O1, O2, O3, O5.
  Qed.
End Actions.
Lemma view_outer {V U} (x y : outcome (bool * list report * result V U)) : view x = view y -> outer_view x = outer_view y.
Proof.
  unfold view, outer_view. destruct x as [[[b l] r]| | |], y as [[[b' l'] r']| | |]; cbn; intros H; inv H; congruence.
Qed.
Theorem actions_irrelevant {V1 U1 V2 U2} fuel (P : pobj V1 U1) (Q : pobj V2 U2) input dt1 dt2 :
  macro_marks (p_g P) -> plain_ws (p_g P) (p_ws P) -> same_but_actions P Q ->
  outer_view (parser_parse fuel P input dt1) = outer_view (parser_parse fuel Q input dt2).
Proof.
  intros Hm Hw HS.
  transitivity (outer_view (parser_parse fuel (with_trace true true P) input dt1)).
  { apply view_outer. destruct P. exact (trace_canonical fuel _ p_tracer p_verbose input dt1 Hm Hw). }
  rewrite (actions_traced fuel P Q input dt1 dt2 HS). symmetry. destruct HS.
  rewrite sa_g in Hm, Hw. rewrite sa_ws in Hw.
  apply view_outer. destruct Q. exact (trace_canonical fuel _ p_tracer p_verbose input dt2 Hm Hw).
Qed.
