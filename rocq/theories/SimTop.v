(** * Whole parses side by side (Definition::parse_core, parser::parse). *)
From Verif Require Import Base BaseLemmas Utf8 Escape TrieM LineInfo Ope Ctx ErrLog Engine EngineLemmas Frame Scope Top IdsFacts Sim IndepSpec.

Section SimTop.
  Context {V1 U1 V2 U2 : Type}.
  Variable R : rid -> Prop.
  Variable Nm : rid -> Prop.
  Variable Vr : option V1 -> option V2 -> Prop.
  Variable Ur : U1 -> U2 -> Prop.
  Hypothesis Vr_none : Vr None None.

  (** What the two callers see. *)
  Record obs (m : mode) (r1 : result V1 U1) (r2 : result V2 U2) : Prop := {
    ob_ret : rs_ret r1 = rs_ret r2;
    ob_rcv : rs_recovered r1 = rs_recovered r2;
    ob_len : rs_len r1 = rs_len r2;
    ob_vs : VR Vr (m_rg m) (rs_vs r1) (rs_vs r2);
    ob_err : m_log m = true -> rs_err r1 = rs_err r2;
    ob_exp : m_log m = true -> Forall (fun t => forall r, snd t = Some r -> Nm r) (ei_exp (rs_err r1));
    ob_out : m_log m = true -> rs_out r1 = rs_out r2;
    ob_dt : Ur (rs_dt r1) (rs_dt r2)
  }.
  Record top_rel (m : mode) (P1 : pobj V1 U1) (P2 : pobj V2 U2) (input : bytes) : Prop := {
    tr_env : ER R Nm Vr Ur m (mk_env P1 input) (mk_env P2 input);
    tr_start : p_start P1 = p_start P2;
    tr_R : R (p_start P1);
    tr_eoi : p_eoi P1 = p_eoi P2;
    tr_log : if m_log m then p_log P1 = p_log P2 else p_log P2 = false;
    tr_nolog : m_log m = true -> m_stk m = false -> p_log P1 = false;
    tr_rglog : m_rg m = true -> p_log P2 = false
  }.
  Theorem def_sim fuel m P1 P2 input dt1 dt2 : top_rel m P1 P2 input -> Ur dt1 dt2 ->
    osim (m_log m) (obs m) (def_parse fuel P1 input dt1) (def_parse fuel P2 input dt2).
  Proof.
    intros [HE Hs HR He Hl Hn Hrl] Hdt. unfold def_parse.
    set (E1 := mk_env P1 input) in *. set (E2 := mk_env P2 input) in *.
    pose proof (sim_parse R Nm Vr Ur Vr_none fuel) as SP.
    assert (Hws : p_ws P1 = p_ws P2) by exact (er_ws _ _ _ _ _ _ _ HE).
    set (ok := okope R Nm (m_plain m) (ha E1 E2)).
    assert (Hv0 : VR Vr (m_rg m) (@sv_new V1) (@sv_new V2)).
    { unfold VR. destruct (m_rg m); [split; constructor|]. constructor; try reflexivity. constructor. }
    assert (Hc0 : CR R Nm Vr Ur m ok true (ctx_new (p_log P1) dt1) (ctx_new (p_log P2) dt2)).
    { constructor; cbn; auto; try (repeat constructor; fail). }
    assert (Hign : forall b1 b2 c1 c2, CR R Nm Vr Ur m ok true c1 c2 -> CR R Nm Vr Ur m ok true (set_ign b1 c1) (set_ign b2 c2)).
    { intros b1 b2 c1 c2 []. constructor; cbn; auto. }
    rewrite <- Hws, <- Hs, <- He.
    apply osim_bind with (P := RR R Nm Vr Ur m ok true).
    { destruct (p_ws P1) as [w|] eqn:Hw.
      - eapply osim_bind with (P := RR R Nm Vr Ur m ok true).
        + apply SP; [assumption| |intros _; now right|assumption|now apply Hign].
          apply (er_ws_ok _ _ _ _ _ _ _ HE w). exact Hw.
        + intros [[a x1] b1] [[b x2] b2] (Ea & Hx & Hb). cbn [fst snd] in *. subst.
          apply os_ok. split; [reflexivity|split]; cbn [fst snd]; auto.
      - apply os_ok. split; [reflexivity|split]; cbn [fst snd]; assumption. }
    intros [[a x1] b1] [[b x2] b2] (Ea & Hx & Hb). cbn [fst snd] in *. subst b.
    assert (Hres : forall ret len y1 y2 d1 d2, VR Vr (m_rg m) y1 y2 -> CR R Nm Vr Ur m ok true d1 d2 ->
              obs m (mk_result ret len y1 d1) (mk_result ret len y2 d2)).
    { intros ret len y1 y2 d1 d2 Hy []. constructor; cbn; auto. }
    destruct a as [i|]; [|apply os_ok; auto].
    eapply osim_bind with (P := RR R Nm Vr Ur m ok true).
    { apply SP; [assumption|exact HR|intros _; now right|assumption|assumption]. }
    clear x1 x2 b1 b2 Hx Hb. intros [[a x1] b1] [[b x2] b2] (Ea & Hx & Hb). cbn [fst snd] in *. subst b.
    destruct a as [k|]; [|apply os_ok; auto].
    destruct (p_eoi P1 && (i + k <? List.length input)); [|apply os_ok; auto].
    apply os_ok. destruct (m_log m) eqn:Hm.
    - pose proof (cr_err _ _ _ _ _ _ _ _ _ Hb Hm) as Ee. rewrite Ee. destruct (olt _ _); [|auto].
      apply Hres; [assumption|]. pose proof (cr_exp _ _ _ _ _ _ _ _ _ Hb Hm) as Ex. rewrite Ee in Ex. destruct Hb. constructor; cbn; auto.
    - destruct Hb. constructor; cbn; try congruence;
        repeat match goal with |- context [if ?b then _ else _] => destruct b end; cbn; auto.
  Qed.
End SimTop.

Lemma needs_top_split g o : needs_top g o = uses_param o || calls_macro g o.
Proof.
  assert (Hl : forall l, Forall (fun o => needs_top g o = uses_param o || calls_macro g o) l ->
    existsb (needs_top g) l = existsb uses_param l || existsb (calls_macro g) l).
  { induction 1 as [|x l Hx Hl IH]; cbn; [reflexivity|]. rewrite Hx, IH.
    destruct (uses_param x), (calls_macro g x), (existsb uses_param l), (existsb (calls_macro g) l); reflexivity. }
  induction o using ope_ind'; cbn [needs_top uses_param calls_macro]; auto.
  - destruct rl; [|reflexivity]. rewrite (Hl _ H). now rewrite !orb_assoc, (orb_comm (existsb uses_param args)).
  - rewrite IHo1, IHo2. destruct (uses_param o1), (uses_param o2), (calls_macro g o1), (calls_macro g o2); reflexivity.
Qed.

(** [cov] of the id scan gives the conditions of the simulation. *)
Lemma cov_okope (L : rid -> Prop) (c : Prop) (hb : rid -> Prop) o :
  cov L c False o -> okope L (fun _ => True) true hb o.
Proof.
  assert (Hf : forall l, Forall (fun _ : first_set => True) l) by (induction l; auto).
  induction o using ope_ind'; cbn [cov okope]; auto; try tauto.
  - induction H; cbn; intuition.
  - intros Hl. split; [induction H; cbn in *; intuition|]. apply Forall_forall. auto.
  - destruct rl as [r|]; [|auto]. intros [H1 H2]. split; [split; [assumption|]|auto]. clear H1. induction H; cbn in *; intuition.
Qed.
Lemma okope_all (hb : rid -> Prop) o : (forall r, hb r) -> okope (fun _ => True) (fun _ => True) false hb o.
Proof.
  intros Hb. assert (Hl : forall l, Forall (fun o => okope (fun _ => True) (fun _ => True) false hb o) l ->
    fold_right (fun x p => okope (fun _ => True) (fun _ => True) false hb x /\ p) True l).
  { induction 1; cbn; auto. }
  induction o using ope_ind'; cbn [okope]; auto 8.
  - split; [now apply Hl|]. apply Forall_forall. auto.
  - split; [|auto]. destruct rl; [|auto]. split; [auto|now apply Hl].
Qed.
Lemma VRs_eq {V} (x y : sv V) : VRs eq x y -> x = y.
Proof.
  intros [Hv ? ? ? ? ? ?]. destruct x, y; cbn in *; subst. f_equal. clear - Hv. induction Hv; congruence.
Qed.
Lemma VRs_refl {V} (x : sv V) : VRs eq x x.
Proof. constructor; try reflexivity. induction (v_vals x); constructor; auto. Qed.

Section Indep.
  Context {V U : Type}.
  Implicit Types P Q : pobj V U.
  Record same_but_modes P Q : Prop := {
    sm_g : p_g P = p_g Q; sm_start : p_start P = p_start Q; sm_ws : p_ws P = p_ws Q; sm_word : p_word P = p_word Q;
    sm_packrat : p_packrat P = p_packrat Q; sm_slot : p_slot P = p_slot Q; sm_cached : p_cached P = p_cached Q;
    sm_eoi : p_eoi P = p_eoi Q; sm_u0 : p_u0 P = p_u0 Q; sm_action : p_action P = p_action Q; sm_pred : p_pred P = p_pred Q;
    sm_enter : p_enter P = p_enter Q; sm_leave : p_leave P = p_leave Q; sm_user : p_user P = p_user Q
  }.
  Definition all_rules : rid -> Prop := fun _ => True.
  Lemma marks_needs P : macro_marks (p_g P) -> forall r d b, nth_error (p_g P) r = Some d -> r_body d = Some b ->
    needs_top (p_g P) b = true -> r_is_macro d = true \/ r_macro_ref d = true.
  Proof.
    intros Hm r d b Hd Hb Hn. rewrite needs_top_split in Hn. destruct (Hm r d b Hd Hb) as [H1 H2].
    apply orb_prop in Hn as [Hn | Hn]; auto.
  Qed.
  Lemma ER_modes m P Q input : same_but_modes P Q -> m_rg m = false -> m_plain m = false ->
    recognize_only P = recognize_only Q ->
    (m_stk m = true -> (p_tracer P || p_log P) = (p_tracer Q || p_log Q)) ->
    (m_stk m = false -> macro_marks (p_g P) /\ plain_ws (p_g P) (p_ws P)) ->
    ER all_rules all_rules eq eq m (mk_env P input) (mk_env Q input).
  Proof.
    intros [] Hrg Hpl Hrec Hst Hst'.
    assert (Hok : forall o, okope all_rules all_rules (m_plain m) (ha (mk_env P input) (mk_env Q input)) o).
    { intros o. rewrite Hpl. apply okope_all. intros r. unfold ha. cbn. rewrite sm_action0. tauto. }
    constructor; cbn [mk_env e_g e_input e_ws e_word e_packrat e_slot e_cached e_has_cut e_need_rules e_recog e_u0]; auto.
    - intros r _. now rewrite sm_g0.
    - intros Hs r d b _ Hd Hb Hn. apply (marks_needs P (proj1 (Hst' Hs)) r d b Hd Hb Hn).
    - intros w Hw. split; [auto|]. intros Hs. destruct (proj2 (Hst' Hs) w Hw) as [Hu Hc].
      now rewrite needs_top_split, Hu, Hc.
    - intros r _. now rewrite sm_slot0.
    - now rewrite sm_g0, sm_start0, sm_ws0, sm_word0.
    - now rewrite Hrg.
    - congruence.
    - congruence.
    - intros inp r vs1 vs2 dt1 dt2 pd1 pd2 _ Hv -> ->. apply VRs_eq in Hv. subst. unfold act_of. cbn. rewrite sm_action0. auto.
    - intros inp r vs1 vs2 dt1 dt2 _ Hv ->. apply VRs_eq in Hv. subst. unfold pred_of. cbn. rewrite sm_pred0. auto.
    - intros inp r pos dt1 dt2 _ ->. unfold enter_of. cbn. now rewrite sm_enter0.
    - intros inp r pos len v1 v2 dt1 dt2 _ -> ->. unfold leave_of. cbn. rewrite sm_leave0. auto.
    - intros inp id pos vs1 vs2 dt1 dt2 _ Hv ->. apply VRs_eq in Hv. subst. cbn. rewrite sm_user0. auto using VRs_refl.
  Qed.
  (** A parse that builds values against the recognizer. *)
  Definition none_both (a b : option V) : Prop := a = None /\ b = None.
  Lemma recognize_spec P : recognize_only P = true ->
    let ids := definition_ids (p_g P) (p_start P) (p_ws P) (p_word P) in
    id_opaque ids = false /\ p_tracer P = false /\ p_log P = false /\
    forall r, In r (id_list ids) -> p_action P r = None /\ p_pred P r = None /\ p_enter P r = None /\ p_leave P r = None.
  Proof.
    unfold recognize_only. cbv zeta. intros H. apply andb_prop in H as [H Hc]. apply andb_prop in H as [H Hl].
    apply andb_prop in H as [Ho Ht]. apply negb_true_iff in Ho, Ht, Hl. apply orb_false_iff in Hl as [_ Hl].
    split; [assumption|split; [assumption|split; [assumption|]]]. intros r Hr.
    rewrite forallb_forall in Hc. specialize (Hc r Hr). apply negb_true_iff in Hc.
    apply orb_false_iff in Hc as [Hc H4]. apply orb_false_iff in Hc as [Hc H3]. apply orb_false_iff in Hc as [H1 H2].
    unfold is_some in *. destruct (p_action P r), (p_enter P r), (p_leave P r), (p_pred P r); try discriminate. auto.
  Qed.
  Lemma ER_recog P Q input : same_but_modes P Q -> recognize_only P = false -> recognize_only Q = true ->
    macro_marks (p_g P) -> plain_ws (p_g P) (p_ws P) ->
    ER (fun r => In r (id_list (definition_ids (p_g P) (p_start P) (p_ws P) (p_word P)))) all_rules none_both eq
      {| m_log := true; m_stk := false; m_rg := true; m_plain := true |} (mk_env P input) (mk_env Q input).
  Proof.
    intros [] HP HQ Hm Hw. destruct (recognize_spec Q HQ) as (Ho & Ht & Hl & Hcb). cbv zeta in *.
    rewrite <- sm_g0, <- sm_start0, <- sm_ws0, <- sm_word0 in Ho, Hcb.
    destruct (definition_ids_spec (p_g P) (p_start P) (p_ws P) (p_word P)) as (Is & Ic & Iw & Iwd).
    set (ids := definition_ids (p_g P) (p_start P) (p_ws P) (p_word P)) in *.
    set (R := fun r => In r (id_list ids)).
    assert (Hok : forall o, covers ids o -> okope R all_rules true (ha (mk_env P input) (mk_env Q input)) o).
    { intros o Hc. apply cov_okope with (c := id_cut ids = true). unfold covers in Hc. eapply cov_mono; [| | |exact Hc]; auto. congruence. }
    assert (HcbP : forall r, R r -> p_action P r = None /\ p_pred P r = None /\ p_enter P r = None /\ p_leave P r = None).
    { intros r Hr. rewrite sm_action0, sm_pred0, sm_enter0, sm_leave0. auto. }
    constructor; cbn [mk_env e_g e_input e_ws e_word e_packrat e_slot e_cached e_has_cut e_need_rules e_recog e_u0 m_log m_stk m_rg m_plain]; auto; try discriminate.
    - intros r Hr. exact Logic.I.
    - intros r _. now rewrite sm_g0.
    - intros r d b Hr Hd Hb. apply Hok. exact (Ic r Hr d b Hd Hb).
    - intros _ r d b _ Hd Hb Hn. apply (marks_needs P Hm r d b Hd Hb Hn).
    - intros w Hww. split; [apply Hok; auto|]. intros _. destruct (Hw w Hww) as [Hu Hc]. now rewrite needs_top_split, Hu, Hc.
    - intros r _. now rewrite sm_slot0.
    - rewrite <- sm_g0, <- sm_start0, <- sm_ws0, <- sm_word0. reflexivity.
    - intros _. split; [unfold none_both; tauto|]. intros r Hr. cbn. split; [auto|]. rewrite <- sm_action0, <- sm_pred0, <- sm_enter0, <- sm_leave0. auto.
    - intros inp r vs1 vs2 dt1 dt2 pd1 pd2 Hr Hv -> _. destruct (HcbP r Hr) as (Ha & _). unfold act_of. cbn.
      rewrite <- sm_action0, Ha. cbn. split; [|reflexivity]. destruct Hv as [Hv _ _ _ _ _ _]. destruct Hv as [|a b l l' [-> ->]]; split; reflexivity.
    - intros inp r vs1 vs2 dt1 dt2 Hr Hv ->. destruct (HcbP r Hr) as (_ & Ha & _). unfold pred_of. cbn. rewrite <- sm_pred0, Ha. cbn. repeat split.
    - intros inp r pos dt1 dt2 Hr ->. destruct (HcbP r Hr) as (_ & _ & Ha & _). unfold enter_of. cbn. now rewrite <- sm_enter0, Ha.
    - intros inp r pos len v1 v2 dt1 dt2 Hr [-> ->] ->. destruct (HcbP r Hr) as (_ & _ & _ & Ha). unfold leave_of. cbn. rewrite <- sm_leave0, Ha. cbn. repeat split.
  Qed.
End Indep.
