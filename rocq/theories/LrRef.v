(** * The meaning of a grammar with directly left-recursive rules is that of the
    grammar with iterations in their place. *)
From Verif Require Import Base BaseLemmas Utf8 Escape TrieM LineInfo Ope Ctx ErrLog Engine EngineLemmas Scope RefSem RefMono RefWord Refine RefineOps RefineMain LrSpec.

Lemma iterate_nth g r : nth_error (iterate g) r = option_map (iterate_rule r) (nth_error g r).
Proof.
  unfold iterate. assert (H : forall k r, nth_error (iterate_from k g) r = option_map (iterate_rule (k + r)) (nth_error g r)); [|apply H].
  induction g as [|d g IH]; intros k [|r']; cbn; try reflexivity; [now rewrite Nat.add_0_r|]. rewrite IH. now rewrite Nat.add_succ_r.
Qed.

Lemma lr_alt_inv r o rest : lr_alt r o = Some rest -> exists kg nm ia mac, o = Seq kg (Ref nm (Some r) ia mac [] :: rest).
Proof.
  destruct o as [kg l| | | | | | | | | | | | | | | | | | | | | | |]; try discriminate. destruct l as [|[] l]; try discriminate.
  match goal with |- lr_alt _ (Seq _ (Ref _ ?x _ _ ?y :: _)) = _ -> _ => destruct x as [r'|]; [|discriminate]; destruct y; [|discriminate] end. cbn [lr_alt].
  destruct (r' =? r) eqn:Hr; [|discriminate]. apply Nat.eqb_eq in Hr. subst. intros H. inv H. eauto.
Qed.

Section LrRef.
  Context {V U : Type} {kp : keepvals}.
  Notation sv := (sv V).
  Implicit Types (vs : sv) (m : mode) (sd : seed V).
  Variable E : env V U.
  Variable al : modes.
  Hypothesis Hkp : kp = false.   (* values are not compared *)
  Hypothesis Hpred : forall r, e_pred E r = None.
  Hypothesis HE : okE E al.

  Definition with_g (g : grammar) : env V U :=
    {| e_g := g; e_input := e_input E; e_ws := e_ws E; e_word := e_word E; e_packrat := e_packrat E;
       e_slot := e_slot E; e_cached := e_cached E; e_has_cut := e_has_cut E; e_tracer := e_tracer E;
       e_verbose := e_verbose E; e_need_rules := e_need_rules E; e_recog := e_recog E; e_u0 := e_u0 E;
       e_action := e_action E; e_pred := e_pred E; e_enter := e_enter E;
       e_leave := e_leave E; e_user := e_user E |}.
  Notation E' := (with_g (iterate (e_g E))).
  Hypothesis Hwords : words_le E' E.

  (** Same outcome up to values. *)
  Definition eqlen {A B} (x : option (nat * A)) (y : option (nat * B)) : Prop := option_map fst x = option_map fst y.
  Definition seed_free (k : nat) sd : Prop :=
    match sd with
    | None => True
    | Some (r, p, _) => (exists m, al r m) /\ forall m, al r m -> call k E' m r p = None
    end.
  Definition fr_ok (fr : fram) : Prop := params_of E (fst fr) /\ Forall (anychk E al) (snd fr).
  Definition chk' m (o : ope) : Prop := match o with Hld r => al r m | _ => chk E al m o end.
  Definition sims (k : nat) : Prop :=
    forall sd fr m o pos vs vs' x, seed_free k sd -> fr_ok fr -> chk' m o ->
      ref k E' None fr m o pos vs = Some x -> exists j y, ref j E sd fr m o pos vs' = Some y /\ eqlen x y.

  Lemma seed_free_le j k sd : j <= k -> seed_free k sd -> seed_free j sd.
  Proof.
    intros Hj. destruct sd as [[[r p] s]|]; [|auto]. intros [A H]. split; [exact A|]. intros m Hm. specialize (H m Hm).
    destruct (call j E' m r p) eqn:X; [|reflexivity]. apply (call_mono j k) in X; [congruence|assumption].
  Qed.
  Lemma chk_chk' m o : chk E al m o -> chk' m o.
  Proof. destruct o; cbn; auto. contradiction. Qed.
  Lemma lift_ref {j} j' {sd fr m o pos vs x} : j <= j' -> ref j E sd fr m o pos vs = Some x -> ref j' E sd fr m o pos vs = Some x.
  Proof. intros H. now apply ref_mono. Qed.

  Lemma v_skip k : sims k -> forall m pos vs vs' x, ref_skip (ref k) E' m pos vs = Some x ->
    exists j y, ref_skip (ref j) E m pos vs' = Some y /\ eqlen x y.
  Proof.
    intros IH m pos vs vs' x H. unfold ref_skip in *. cbn [with_g e_ws] in H. destruct (e_ws E) as [w|] eqn:Hw.
    - destruct (m_tok m) eqn:Ht; [inv H; eexists 0, _; split; reflexivity|].
      destruct (IH None no_frame m w pos vs vs' x) as (j & y & A & B); auto; [exact I| | |eauto].
      + split; [now left|constructor].
      + apply chk_chk'. destruct (ok_ws E al HE w Hw) as [_ Hc]. now apply Hc.
    - inv H. eexists 0, _. split; reflexivity.
  Qed.
  Lemma v_then k : sims k -> forall m pos n vs vs' x, ref_then (ref k) E' m pos n vs = Some x ->
    exists j y, ref_then (ref j) E m pos n vs' = Some y /\ eqlen x y.
  Proof.
    intros IH m pos n vs vs' x H. unfold ref_then in H. oinv H. inv H.
    destruct (v_skip k IH m (pos + n) vs vs' a Hm) as (j & y & A & B). exists j. unfold ref_then. rewrite A. cbn. eexists. split; [reflexivity|].
    destruct a as [[? ?]|], y as [[? ?]|]; try discriminate B; [|reflexivity]. inv B. reflexivity.
  Qed.
  Lemma v_seq k sd fr m l : (forall o, In o l -> chk' m o) -> sims k -> seed_free k sd -> fr_ok fr -> forall pos i vs vs' x,
    ref_seq (ref k E' None fr m) l pos i vs = Some x -> exists j y, ref_seq (ref j E sd fr m) l pos i vs' = Some y /\ eqlen x y.
  Proof.
    intros Hc IH Hs Hf. induction l as [|o l IHl]; intros pos i vs vs' x H; cbn [ref_seq] in *; [inv H; eexists 0, _; split; reflexivity|].
    oinv H. destruct (IH sd fr m o (pos + i) vs vs' a Hs Hf (Hc o (or_introl eq_refl)) Hm) as (j1 & y & A & B).
    destruct a as [[n v]|], y as [[n' v']|]; try discriminate B.
    - inv B. destruct (IHl (fun o Ho => Hc o (or_intror Ho)) pos (i + n') v v' x H) as (j2 & z & C & D).
      exists (j1 + j2), z. split; [|exact D]. rewrite (lift_ref (j1 + j2) (Nat.le_add_r _ _) A). cbn [obind].
      eapply sub_Some; [|exact C]. apply s_seq. intros. apply ref_sub. lia.
    - inv H. exists j1, None. rewrite A. split; reflexivity.
  Qed.
  Lemma v_cho k sd fr m l : (forall o, In o l -> chk' m o) -> sims k -> seed_free k sd -> fr_ok fr -> forall total id total' id' pos vs vs' x,
    ref_cho (ref k E' None fr m) total l id pos vs = Some x ->
    exists j y, ref_cho (ref j E sd fr m) total' l id' pos vs' = Some y /\ eqlen x y.
  Proof.
    intros Hc IH Hs Hf total id total'. revert id. induction l as [|o l IHl]; intros id id' pos vs vs' x H; cbn [ref_cho] in *; [inv H; eexists 0, _; split; reflexivity|].
    oinv H. destruct (IH sd fr m o pos vs vs' a Hs Hf (Hc o (or_introl eq_refl)) Hm) as (j1 & y & A & B).
    destruct a as [[n v]|], y as [[n' v']|]; try discriminate B.
    - inv H. exists j1. rewrite A. cbn. eexists. split; [reflexivity|]. exact B.
    - destruct (IHl (fun o Ho => Hc o (or_intror Ho)) (S id) (S id') pos vs vs' x H) as (j2 & z & C & D).
      exists (j1 + j2), z. split; [|exact D]. rewrite (lift_ref (j1 + j2) (Nat.le_add_r _ _) A). cbn [obind].
      eapply sub_Some; [|exact C]. apply s_cho. intros. apply ref_sub. lia.
  Qed.
  Lemma v_min k sd fr m e n : chk' m e -> sims k -> seed_free k sd -> fr_ok fr -> forall pos i vs vs' x,
    ref_min (ref k E' None fr m e) n pos i vs = Some x -> exists j y, ref_min (ref j E sd fr m e) n pos i vs' = Some y /\ eqlen x y.
  Proof.
    intros Hc IH Hs Hf. induction n as [|n IHn]; intros pos i vs vs' x H; cbn [ref_min] in *; [inv H; eexists 0, _; split; reflexivity|].
    oinv H. destruct (IH sd fr m e (pos + i) vs vs' a Hs Hf Hc Hm) as (j1 & y & A & B).
    destruct a as [[q v]|], y as [[q' v']|]; try discriminate B.
    - inv B. destruct (IHn pos (i + q') v v' x H) as (j2 & z & C & D).
      exists (j1 + j2), z. split; [|exact D]. rewrite (lift_ref (j1 + j2) (Nat.le_add_r _ _) A). cbn [obind].
      eapply sub_Some; [|exact C]. apply s_min. intros. apply ref_sub. lia.
    - inv H. exists j1, None. rewrite A. split; reflexivity.
  Qed.
  Lemma v_more k sd fr m e : chk' m e -> sims k -> seed_free k sd -> fr_ok fr -> forall fuel room pos i vs vs' x,
    ref_more fuel (ref k E' None fr m e) room pos i vs = Some x ->
    exists F j y, ref_more F (ref j E sd fr m e) room pos i vs' = Some y /\ eqlen x y.
  Proof.
    intros Hc IH Hs Hf. induction fuel as [|fuel IHf]; intros room pos i vs vs' x H; cbn [ref_more] in H.
    - destruct room as [[|?]|]; try discriminate. inv H. exists 0, 0. eexists. split; reflexivity.
    - assert (Hstep : room = Some 0 \/ room <> Some 0) by (destruct room as [[|?]|]; auto; right; discriminate).
      destruct Hstep as [->|Hr]; [inv H; exists 0, 0; eexists; split; reflexivity|].
      assert (H' : (let? r := ref k E' None fr m e (pos + i) vs in
        match r with None => Some (Some (i, vs)) | Some (k0, v0) => ref_more fuel (ref k E' None fr m e) (option_map pred room) pos (i + k0) v0 end) = Some x)
        by (destruct room as [[|?]|]; congruence). clear H. oinv H'.
      destruct (IH sd fr m e (pos + i) vs vs' a Hs Hf Hc Hm) as (j1 & y & A & B).
      destruct a as [[q v]|], y as [[q' v']|]; try discriminate B.
      + inv B. destruct (IHf (option_map pred room) pos (i + q') v v' x H') as (F & j2 & z & C & D).
        exists (S F), (j1 + j2), z. split; [|exact D]. cbn [ref_more].
        assert (X : (let? r := ref (j1 + j2) E sd fr m e (pos + i) vs' in
          match r with None => Some (Some (i, vs')) | Some (k0, v0) => ref_more F (ref (j1 + j2) E sd fr m e) (option_map pred room) pos (i + k0) v0 end) = Some z).
        { rewrite (lift_ref (j1 + j2) (Nat.le_add_r _ _) A). cbn [obind].
          eapply sub_Some; [|exact C]. apply s_more; [intros; apply ref_sub; lia|lia]. }
        destruct room as [[|?]|]; congruence.
      + inv H'. exists 1, j1, (Some (i, vs')). split; [|reflexivity]. destruct room as [[|?]|]; [congruence| |]; cbn [ref_more]; rewrite A; reflexivity.
  Qed.
  Lemma v_rep k sd fr m e mn mx : chk' m e -> sims k -> seed_free k sd -> fr_ok fr -> forall fuel pos vs vs' x,
    ref_rep fuel (ref k E' None fr m e) mn mx pos vs = Some x ->
    exists F j y, ref_rep F (ref j E sd fr m e) mn mx pos vs' = Some y /\ eqlen x y.
  Proof.
    intros Hc IH Hs Hf fuel pos vs vs' x H. unfold ref_rep in *. oinv H.
    destruct (v_min k sd fr m e mn Hc IH Hs Hf pos 0 vs vs' a Hm) as (j1 & y & A & B).
    destruct a as [[q v]|], y as [[q' v']|]; try discriminate B.
    - inv B. assert (Hmore : forall room, ref_more fuel (ref k E' None fr m e) room pos q' v = Some x ->
        exists F j y, (let? r := ref_min (ref j E sd fr m e) mn pos 0 vs' in match r with None => Some None | Some (i, v1) => ref_more F (ref j E sd fr m e) room pos i v1 end) = Some y /\ eqlen x y).
      { intros room Hmo. destruct (v_more k sd fr m e Hc IH Hs Hf fuel room pos q' v v' x Hmo) as (F & j2 & z & C & D).
        exists F, (j1 + j2), z. split; [|exact D].
        assert (A' : ref_min (ref (j1 + j2) E sd fr m e) mn pos 0 vs' = Some (Some (q', v'))).
        { eapply sub_Some; [|exact A]. apply s_min. intros. apply ref_sub. lia. }
        rewrite A'. cbn [obind]. eapply sub_Some; [|exact C]. apply s_more; [intros; apply ref_sub; lia|lia]. }
      destruct mx as [mx|].
      + destruct (mn <? mx) eqn:Hmx.
        * destruct (Hmore _ H) as (F & j & y & C & D). exists F, j, y. split; [|exact D]. oinv C. rewrite Hm0. cbn [obind]. exact C.
        * inv H. exists 0, j1, (Some (q', v')). rewrite A. split; reflexivity.
      + destruct (Hmore _ H) as (F & j & y & C & D). exists F, j, y. split; [|exact D]. oinv C. rewrite Hm0. cbn [obind]. exact C.
    - inv H. exists 0, j1, None. rewrite A. split; reflexivity.
  Qed.
  Lemma value_len r d body pos n (chvs : sv) : exists v, ref_value E r d body pos n chvs = Some (n, v).
  Proof. unfold ref_value. rewrite Hpred. eexists. reflexivity. Qed.
  Lemma value_len' r d body pos n (chvs : sv) : exists v, ref_value E' r d body pos n chvs = Some (n, v).
  Proof. unfold ref_value. cbn [with_g e_pred]. rewrite Hpred. eexists. reflexivity. Qed.

  (** ** Rules *)
  Lemma fr_rule r d : nth_error (e_g E) r = Some d -> fr_ok (r_params d, []).
  Proof. intros H. split; [|constructor]. right. exists d. split; [eapply nth_error_In; eassumption|reflexivity]. Qed.
  Lemma v_once k : sims k -> forall r m d body pos x, al r m -> nth_error (e_g E) r = Some d -> r_body d = Some body -> r_is_macro d = false ->
    ref_once (ref k) E' None m r d body pos = Some x ->
    exists j y, ref_once (ref j) E None m r d body pos = Some y /\ eqlen x y.
  Proof.
    intros IH r m d body pos x Hal Hd Hb Hmac H. unfold ref_once in H. oinv H.
    destruct (ok_rule E al HE r m d body Hal Hd Hb) as [_ Hck]. rewrite Hmac in Hck. destruct Hck as [Hck _].
    change (tok_mode E' m) with (tok_mode E m) in Hm.
    destruct (IH None (r_params d, []) _ body pos sv_new sv_new a I (fr_rule r d Hd) (chk_chk' _ _ Hck) Hm) as (j1 & y & A & B).
    destruct a as [[n v]|], y as [[n' v']|]; try discriminate B.
    - inv B. destruct (r_no_whitespace d) eqn:Hnw.
      + oinv H. destruct (v_then k IH m pos n' v v' a Hm0) as (j2 & z & C & D).
        exists (j1 + j2). unfold ref_once. rewrite Hnw. rewrite (lift_ref (j1 + j2) (Nat.le_add_r _ _) A). cbn [obind].
        assert (C' : ref_then (ref (j1 + j2)) E m pos n' v' = Some z).
        { eapply sub_Some; [|exact C]. apply s_then. intros. apply ref_sub. lia. }
        rewrite C'. cbn [obind]. eexists. split; [reflexivity|].
        destruct a as [[q w]|], z as [[q' w']|]; try discriminate D; inv H; [|reflexivity]. inv D.
        destruct (value_len r d body pos q' w') as [? ->]. destruct (value_len' r d body pos q' w) as [? ->]. reflexivity.
      + cbn [obind] in H. inv H. exists j1. unfold ref_once. rewrite Hnw, A. cbn [obind]. eexists. split; [reflexivity|].
        destruct (value_len r d body pos n' v') as [? ->]. destruct (value_len' r d body pos n' v) as [? ->]. reflexivity.
    - inv H. exists j1, None. unfold ref_once. rewrite A. split; reflexivity.
  Qed.

  (** ** Left-recursive rules *)
  Lemma seq_shift (run : ope -> nat -> sv -> option (rv V)) l : forall n pos i vs,
    ref_seq run l pos (n + i) vs = option_map (option_map (fun p => (n + fst p, snd p))) (ref_seq run l (pos + n) i vs).
  Proof.
    induction l as [|o l IH]; intros n pos i vs; cbn [ref_seq]; [reflexivity|].
    rewrite Nat.add_assoc. destruct (run o (pos + n + i) vs) as [[[k v]|]|]; cbn [obind]; try reflexivity.
    rewrite <- Nat.add_assoc. apply IH.
  Qed.
  Lemma indep k : sims k -> forall fr m o pos vs1 vs2 x1 x2, fr_ok fr -> chk' m o ->
    ref k E' None fr m o pos vs1 = Some x1 -> ref k E' None fr m o pos vs2 = Some x2 -> eqlen x1 x2.
  Proof.
    intros IH fr m o pos vs1 vs2 x1 x2 Hf Hc H1 H2.
    destruct (IH None fr m o pos vs1 sv_new x1 I Hf Hc H1) as (j1 & y1 & A1 & B1).
    destruct (IH None fr m o pos vs2 sv_new x2 I Hf Hc H2) as (j2 & y2 & A2 & B2).
    pose proof (ref_det _ _ _ _ _ _ _ _ _ _ _ A1 A2). subst. unfold eqlen in *. congruence.
  Qed.
  Lemma stuck k : sims k -> forall fr m e pos i, fr_ok fr -> chk' m e -> forall fuel vs0 v0 vs x,
    ref k E' None fr m e (pos + i) vs0 = Some (Some (0, v0)) -> ref_more fuel (ref k E' None fr m e) None pos i vs = Some x -> False.
  Proof.
    intros IH fr m e pos i Hf Hc. induction fuel as [|fuel IHf]; intros vs0 v0 vs x H0 H; cbn [ref_more] in H; [discriminate|].
    oinv H. pose proof (indep k IH fr m e (pos + i) vs0 vs _ _ Hf Hc H0 Hm) as He. destruct a as [[n v]|]; [|discriminate He].
    inv He. rewrite Nat.add_0_r in H. eauto.
  Qed.

  Section Lr.
    Variables (r : rid) (d : rule) (m : mode) (pos : nat).
    Hypothesis Hd : nth_error (e_g E) r = Some d.
    Hypothesis Hmac : r_is_macro d = false.
    Hypothesis Hal : al r m.
    Notation fr := (r_params d, @nil ope).
    Notation sd s := (Some (r, pos, s)).
    Variable K : nat.
    Hypothesis IHs : forall j, j <= K -> sims j.
    Hypothesis Hfree : forall s, seed_free K (sd s).

    (** The recursive call is answered by the seed. *)
    Lemma self_call J (s : rr V) f nm ia mac vs : get_body E r <> None ->
      ref (S (S J)) E (sd s) f m (Ref nm (Some r) ia mac []) pos vs
      = Some (match s with Some (n, val) => Some (n, if r_ignore d then vs else push_val val (str2tag (r_name d)) vs) | None => None end).
    Proof.
      intros Hb. cbn [ref ref_core]. unfold ref_reference. rewrite Hd. cbn [obind]. rewrite Hmac. cbn [ref ref_core].
      unfold ref_hld. destruct (get_body E r) as [[d' body]|] eqn:Hg; [|contradiction].
      unfold get_body in Hg. rewrite Hd in Hg. cbn [obind] in Hg. destruct (r_body d); [|discriminate]. inv Hg. cbn [obind].
      rewrite Hmac, !Nat.eqb_refl. cbn [andb obind]. destruct s as [[? ?]|]; reflexivity.
    Qed.
    Lemma alts_no J total vs l : get_body E r <> None -> forall id a b, split_lr r l = (a, b) ->
      ref_cho (ref (S (S (S J))) E (sd None) fr m) total l id pos vs = ref_cho (ref (S (S (S J))) E (sd None) fr m) total b (id + List.length a) pos vs.
    Proof.
      intros Hb. induction l as [|o l IH]; intros id a b Hs; cbn [split_lr] in Hs; [inv Hs; cbn; reflexivity|].
      destruct (lr_alt r o) as [rest|] eqn:Ho; [|inv Hs; now rewrite Nat.add_0_r].
      destruct (split_lr r l) as [a' b'] eqn:Hs'. inv Hs. cbn [ref_cho List.length].
      destruct (lr_alt_inv _ _ _ Ho) as (kg & nm & ia & mac & ->).
      assert (X : ref (S (S (S J))) E (sd None) fr m (Seq kg (Ref nm (Some r) ia mac [] :: rest)) pos vs = Some None).
      { change (ref_seq (ref (S (S J)) E (sd None) fr m) (Ref nm (Some r) ia mac [] :: rest) pos 0 vs = Some None).
        cbn [ref_seq]. rewrite Nat.add_0_r. rewrite self_call by assumption. reflexivity. }
      rewrite X. cbn [obind]. rewrite (IH _ _ _ eq_refl). f_equal. lia.
    Qed.

    (** With a seed of length [n]: the first continuation that matches after it; if
        there is none, the other alternatives. *)
    Lemma alts_some n val vs0 l : get_body E r <> None -> (forall o, In o l -> chk E al m o) -> forall id id' total total' a b j v z, j <= K -> split_lr r l = (a, b) ->
      ref_cho (ref j E' None fr m) total' (map (Seq None) a) id' (pos + n) v = Some z ->
      exists J, match z with
      | Some (k, _) => exists w, ref_cho (ref J E (sd (Some (n, val))) fr m) total l id pos vs0 = Some (Some (n + k, w))
      | None => forall J', J <= J' -> ref_cho (ref J' E (sd (Some (n, val))) fr m) total l id pos vs0
                = ref_cho (ref J' E (sd (Some (n, val))) fr m) total b (id + List.length a) pos vs0
      end.
    Proof.
      intros Hb. induction l as [|o l IH]; intros Hc id id' total total' a b j v z Hj Hs H; cbn [split_lr] in Hs.
      { inv Hs. cbn in H. inv H. exists 0. intros. cbn. reflexivity. }
      destruct (lr_alt r o) as [rest|] eqn:Ho.
      2:{ inv Hs. cbn in H. inv H. exists 0. intros. now rewrite Nat.add_0_r. }
      destruct (split_lr r l) as [a' b'] eqn:Hs'. inv Hs. destruct (lr_alt_inv _ _ _ Ho) as (kg & nm & ia & mac & ->).
      cbn [map ref_cho] in H. oinv H. destruct j as [|j]; [discriminate|]. cbn [ref ref_core] in Hm.
      assert (Hcr : forall o, In o rest -> chk' m o).
      { intros o Hin. apply chk_chk'. specialize (Hc _ (or_introl eq_refl)). cbn [chk] in Hc. destruct Hc as [_ [_ Hc]]. apply chk_all in Hc.
        rewrite Forall_forall in Hc. auto. }
      set (vs1 := if r_ignore d then vs0 else push_val val (str2tag (r_name d)) vs0).
      destruct (v_seq j (sd (Some (n, val))) fr m rest Hcr (IHs j ltac:(lia)) (seed_free_le j K _ ltac:(lia) (Hfree _)) (fr_rule r d Hd) (pos + n) 0 v vs1 a Hm) as (j1 & y & A & B).
      assert (Hself : forall J, S (S j1) <= J -> ref (S J) E (sd (Some (n, val))) fr m (Seq kg (Ref nm (Some r) ia mac [] :: rest)) pos vs0
         = Some (option_map (fun p => (n + fst p, snd p)) y)).
      { intros J HJ. change (ref_seq (ref J E (sd (Some (n, val))) fr m) (Ref nm (Some r) ia mac [] :: rest) pos 0 vs0 = Some (option_map (fun p => (n + fst p, snd p)) y)).
        cbn [ref_seq]. rewrite Nat.add_0_r. destruct J as [|[|J]]; [lia|lia|]. rewrite self_call by assumption. cbn [obind]. fold vs1.
        replace (0 + n) with (n + 0) by lia. rewrite seq_shift.
        assert (A' : ref_seq (ref (S (S J)) E (sd (Some (n, val))) fr m) rest (pos + n) 0 vs1 = Some y).
        { eapply sub_Some; [|exact A]. apply s_seq. intros. apply ref_sub. lia. }
        rewrite A'. reflexivity. }
      destruct a as [[k w]|], y as [[k' w']|]; try discriminate B.
      - inv B. inv H. exists (S (S (S j1))). cbn [ref_cho]. rewrite Hself by lia. cbn. eauto.
      - destruct (IH (fun o Ho => Hc o (or_intror Ho)) (S id) (S id') total total' a' b (S j) v z Hj eq_refl H) as [J HJ].
        destruct z as [[k w]|].
        + destruct HJ as [w' HJ]. exists (S (S (S j1)) + J), w'. cbn [ref_cho].
          replace (ref (S (S (S j1)) + J)) with (@ref V U (S (S (S j1) + J))) by reflexivity. rewrite Hself by lia. cbn [obind option_map].
          eapply sub_Some; [|exact HJ]. apply s_cho. intros. apply ref_sub. lia.
        + exists (S (S (S j1)) + J). intros [|J'] HJ'; [lia|]. cbn [ref_cho List.length]. rewrite Hself by lia. cbn [obind option_map].
          rewrite HJ by lia. f_equal. lia.
    Qed.

    Variables (fl : bool) (fs : list first_set) (l : list ope) (a : list (list ope)) (b : list ope).
    Hypothesis Hbody : r_body d = Some (Cho fl fs l).
    Hypothesis Hsplit : split_lr r l = (a, b).
    Hypothesis Hnw : r_no_whitespace d = false.
    Hypothesis Hlr : r_lr d = true.
    Notation body := (Cho fl fs l).
    Notation conts := (Cho false [] (map (Seq None) a)).
    Notation once J s := (ref_once (ref J) E (sd s) m r d body pos).

    Lemma has_body : get_body E r <> None.
    Proof. unfold get_body. rewrite Hd. cbn [obind]. rewrite Hbody. discriminate. Qed.
    Lemma chk_alts o : In o l -> chk E al m o.
    Proof.
      destruct (ok_rule E al HE r m d body Hal Hd Hbody) as [_ Hck]. rewrite Hmac, Hnw in Hck. destruct Hck as [[_ Hck] _].
      apply chk_all in Hck. rewrite Forall_forall in Hck. apply Hck.
    Qed.
    Lemma split_in q : forall a b, split_lr r q = (a, b) ->
      (forall rest, In rest a -> exists kg nm ia mac, In (Seq kg (Ref nm (Some r) ia mac [] :: rest)) q) /\ (forall o, In o b -> In o q).
    Proof.
      induction q as [|o q IH]; intros a0 b0 Hs; cbn [split_lr] in Hs; [inv Hs; split; intros ? []|].
      destruct (lr_alt r o) as [rest|] eqn:Ho; [|inv Hs; split; [intros ? []|auto]].
      destruct (split_lr r q) as [a' b'] eqn:Hs'. inv Hs. destruct (lr_alt_inv _ _ _ Ho) as (kg & nm & ia & mac & ->).
      destruct (IH _ _ eq_refl) as [H1 H2]. split.
      - intros rest' [<-|Hin]; [exists kg, nm, ia, mac; now left|]. destruct (H1 _ Hin) as (x1 & x2 & x3 & x4 & Hx). exists x1, x2, x3, x4. now right.
      - intros o Hin. right. auto.
    Qed.
    Lemma chk_b o : In o b -> chk' m o.
    Proof. intros H. apply chk_chk', chk_alts. now apply (split_in l _ _ Hsplit). Qed.
    Lemma ann_none (q : list ope) : ann_cho E [] q.
    Proof.
      intros id o p Ho Hp Hs. exfalso. unfold fs_skip in Hs. destruct (_ =? 0); [discriminate|]. destruct id; cbn in Hs; discriminate.
    Qed.
    Lemma chk_conts : chk' m conts.
    Proof.
      apply chk_chk'. cbn [chk]. split; [apply ann_none|]. apply chk_all. rewrite Forall_forall. intros o Ho.
      apply in_map_iff in Ho as (rest & <- & Hin). cbn [chk]. split; [exact I|]. apply chk_all. rewrite Forall_forall. intros o Ho.
      destruct (split_in l _ _ Hsplit) as [H1 _]. destruct (H1 _ Hin) as (kg & nm & ia & mac & Hx). apply chk_alts in Hx.
      cbn [chk] in Hx. destruct Hx as [_ [_ Hx]]. apply chk_all in Hx. rewrite Forall_forall in Hx. auto.
    Qed.
    Lemma once_val J s y : ref_cho (ref J E (sd s) fr m) (List.length l) l 0 pos sv_new = Some y ->
      exists y', once (S J) s = Some y' /\ eqlen y y'.
    Proof.
      intros H. unfold ref_once. rewrite Hnw. cbn [ref ref_core]. rewrite H. cbn [obind]. destruct y as [[n v]|]; [|eexists; split; reflexivity].
      cbn [obind]. eexists. split; [reflexivity|]. destruct (value_len r d body pos n v) as [? ->]. reflexivity.
    Qed.
    Lemma once_le J J' s y : J <= J' -> once J s = Some y -> once J' s = Some y.
    Proof. intros HJ. apply sub_Some. apply s_once. intros. now apply ref_sub. Qed.

    Lemma grows k n0 : k <= K ->
      (forall s id total, exists J w, ref_cho (ref J E (sd s) fr m) total b id pos sv_new = Some (Some (n0, w))) ->
      forall fuel i v x, ref_more fuel (ref k E' None fr m conts) None (pos + n0) i v = Some x ->
      exists e w, x = Some (e, w) /\ forall val, exists F J u, ref_grow F (fun s => once J s) (n0 + i) val = Some (Some (n0 + e, u)).
    Proof.
      intros Hk Hb0. induction fuel as [|fuel IHf]; intros i v x H; cbn [ref_more] in H; [discriminate|].
      oinv H. pose proof Hm as Hrun. destruct k as [|k]; [discriminate|]. cbn [ref ref_core] in Hm.
      assert (Hone : forall val, exists J, match a0 with
        | Some (q, _) => exists w, ref_cho (ref J E (sd (Some (n0 + i, val))) fr m) (List.length l) l 0 pos sv_new = Some (Some (n0 + i + q, w))
        | None => exists w, ref_cho (ref J E (sd (Some (n0 + i, val))) fr m) (List.length l) l 0 pos sv_new = Some (Some (n0, w))
        end).
      { intros val. rewrite <- Nat.add_assoc in Hm. destruct (alts_some (n0 + i) val sv_new l has_body chk_alts 0 0 (List.length l) _ a b k v a0 ltac:(lia) Hsplit Hm) as [J HJ].
        destruct a0 as [[q w]|]; [eauto|]. destruct (Hb0 (Some (n0 + i, val)) (0 + List.length a) (List.length l)) as (J2 & w & HJ2).
        exists (J + J2), w. rewrite HJ by lia. eapply sub_Some; [|exact HJ2]. apply s_cho. intros. apply ref_sub. lia. }
      destruct a0 as [[q w]|].
      - destruct (Nat.eq_dec q 0) as [->|Hq].
        { exfalso. rewrite Nat.add_0_r in H. eapply (stuck (S k) (IHs _ Hk) fr m conts (pos + n0) i); eauto using fr_rule, chk_conts. }
        destruct (IHf (i + q) w x H) as (e & w' & -> & Hg). exists e, w'. split; [reflexivity|]. intros val.
        destruct (Hone val) as (J & u & HJ). destruct (once_val _ _ _ HJ) as (y & Hy & He). destruct y as [[n' u']|]; [|discriminate]. inv He.
        destruct (Hg u') as (F & J2 & u2 & HF). exists (S F), (S J + J2), u2. cbn [ref_grow].
        rewrite (once_le (S J) (S J + J2) _ _ ltac:(lia) Hy). cbn [obind].
        destruct (n0 + i + q <=? n0 + i) eqn:Hle; [apply Nat.leb_le in Hle; lia|].
        rewrite <- Nat.add_assoc. eapply sub_Some; [|exact HF]. apply s_grow; [|lia]. intros s. apply s_once. intros. apply ref_sub. lia.
      - inv H. exists i, v. split; [reflexivity|]. intros val. destruct (Hone val) as (J & u & HJ). destruct (once_val _ _ _ HJ) as (y & Hy & He).
        destruct y as [[n' u']|]; [|discriminate]. inv He. exists 1, (S J), val. cbn [ref_grow]. rewrite Hy. cbn [obind].
        destruct (n' <=? n' + i) eqn:Hle; [reflexivity|apply Nat.leb_gt in Hle; lia].
    Qed.

    Lemma v_lr d' x : ref_once (ref K) E' None m r d' (iteration a b) pos = Some x -> r_params d' = r_params d -> r_no_whitespace d' = false ->
      exists F J y, ref_rule F (ref J) E m r d body pos = Some y /\ eqlen x y.
    Proof.
      intros H Hpar Hnw'. unfold ref_once in H. rewrite Hpar, Hnw' in H. oinv H. 
      assert (HK : exists k, K = S (S k)).
      { clear -Hm. destruct K as [|[|k]]; [discriminate|discriminate|eauto]. }
      destruct HK as [k HK]. rewrite HK in Hm. assert (HK' : S (S k) <= K) by lia. clear HK.
      change (ref_seq (ref (S k) E' None fr m) [Cho false [] b; Rep conts 0 None None] pos 0 sv_new = Some a0) in Hm.
      cbn [ref_seq] in Hm. oinv Hm. rewrite Nat.add_0_r in Hm0. cbn [ref ref_core] in Hm0.
      assert (Hb : forall s id total, exists J y, ref_cho (ref J E (sd s) fr m) total b id pos sv_new = Some y /\ eqlen a1 y).
      { intros s id total. eapply (v_cho k (sd s) fr m b chk_b (IHs k ltac:(lia)) (seed_free_le k K _ ltac:(lia) (Hfree s)) (fr_rule r d Hd)). exact Hm0. }
      assert (Hfirst : exists J y, once J None = Some y /\ eqlen a1 y).
      { destruct (Hb None (0 + List.length a) (List.length l)) as (J & y & HJ & He).
        assert (X : ref_cho (ref (S (S (S J))) E (sd None) fr m) (List.length l) l 0 pos sv_new = Some y).
        { rewrite (alts_no J (List.length l) sv_new l has_body 0 a b Hsplit). eapply sub_Some; [|exact HJ]. apply s_cho. intros. apply ref_sub. lia. }
        destruct (once_val _ _ _ X) as (y' & Hy & He'). exists (S (S (S (S J)))), y'. split; [exact Hy|]. unfold eqlen in *. congruence. }
      destruct Hfirst as (J & y & HJ & He). destruct a1 as [[n0 v0]|], y as [[n1 v1]|]; try discriminate He.
      - inv He. oinv Hm. cbn [ref ref_core] in Hm1. unfold ref_rep in Hm1. cbn [ref_min obind] in Hm1. cbn [Nat.add] in Hm1.
        destruct (grows k n1 ltac:(lia)) with (fuel := k) (i := 0) (v := v0) (x := a1) as (e & w & -> & Hg); [|exact Hm1|].
        { intros s id total. destruct (Hb s id total) as (J2 & y & HJ2 & He2). destruct y as [[n2 v2]|]; [|discriminate]. inv He2. eauto. }
        destruct (Hg v1) as (F & J2 & u & HF). inv Hm. exists F, (J + J2), (Some (n1 + e, u)). split.
        + unfold ref_rule. rewrite Hlr. cbv beta zeta. rewrite (once_le J (J + J2) None _ ltac:(lia) HJ). cbn [obind]. rewrite Nat.add_0_r in HF.
          eapply sub_Some; [|exact HF]. apply s_grow; [|lia]. intros s. apply s_once. intros. apply ref_sub. lia.
        + cbn [obind] in H. inv H. destruct (value_len' r d' (iteration a b) pos (n1 + e) w) as [? X]. unfold iteration in *. rewrite X. reflexivity.
      - inv Hm. inv H. exists 0, J, None. split; [|reflexivity]. unfold ref_rule. rewrite Hlr. cbv beta zeta. refine (eq_trans (f_equal (fun z => obind z _) HJ) _). reflexivity.
    Qed.
  End Lr.

  Lemma iter_rule_same r d : r_is_macro (iterate_rule r d) = r_is_macro d /\ r_params (iterate_rule r d) = r_params d
    /\ r_no_whitespace (iterate_rule r d) = r_no_whitespace d /\ r_ignore (iterate_rule r d) = r_ignore d /\ r_name (iterate_rule r d) = r_name d.
  Proof. unfold iterate_rule, set_body. destruct (r_lr d); cbn; auto. Qed.
  Lemma iter_rule_body r d body : r_body (iterate_rule r d) = Some body ->
    (r_lr d = false /\ iterate_rule r d = d)
    \/ (r_lr d = true /\ r_lr (iterate_rule r d) = false /\ r_is_macro d = false /\ r_no_whitespace d = false
        /\ exists fl fs l a b, r_body d = Some (Cho fl fs l) /\ split_lr r l = (a, b) /\ body = iteration a b).
  Proof.
    clear Hkp HE. unfold iterate_rule. destruct (r_lr d) eqn:Hl; [|auto]. right. cbn in H. split; [reflexivity|]. split; [reflexivity|].
    destruct (r_body d) as [[]|]; try discriminate. destruct (r_is_macro d); [discriminate|]. destruct (r_no_whitespace d); [discriminate|]. cbn [orb] in H.
    split; [reflexivity|]. split; [reflexivity|].
    destruct (split_lr r _) as [a b] eqn:Hs. inv H. eexists _, _, _, a, b. split; [reflexivity|]. split; [exact Hs|reflexivity].
  Qed.

  Lemma v_hld k : (forall j, j <= k -> sims j) -> forall sd fr m r pos vs vs' x, seed_free (S k) sd -> fr_ok fr -> al r m ->
    ref_hld k (ref k) E' None fr m r pos vs = Some x -> exists F j y, ref_hld F (ref j) E sd fr m r pos vs' = Some y /\ eqlen x y.
  Proof.
    intros IH sd fr m r pos vs vs' x Hsd Hfr Hal H. unfold ref_hld in *. oinv H. destruct a as [d' body']. unfold get_body in Hm. cbn [with_g e_g] in Hm.
    rewrite iterate_nth in Hm. destruct (nth_error (e_g E) r) as [d|] eqn:Hd; [|discriminate]. cbn [option_map obind] in Hm. oinv Hm. injection Hm as <- <-.
    rename a into body', Hm0 into Hb'. destruct (iter_rule_same r d) as (Sm & Sp & Sw & Si & Sn). rewrite Sm in H. unfold get_body. rewrite Hd. cbn [obind].
    destruct (iter_rule_body r d body' Hb') as [[Hlr Hsame]|(Hlr & Hlr' & Hmac & Hnw & fl & fs & l & a & b & Hb & Hs & ->)].
    - rewrite Hsame in *. rewrite Hb'. cbn [obind]. destruct (r_is_macro d) eqn:Hmac.
      + rewrite Hlr in *. destruct (ok_rule E al HE r m d body' Hal Hd Hb') as [_ Hck]. rewrite Hmac in Hck.
        destruct (IH k (le_n _) sd (r_params d, snd fr) m body' pos vs vs' x) as (j & y & A & B); auto.
        * eapply seed_free_le; [|exact Hsd]. lia.
        * split; [|apply Hfr]. right. exists d. split; [eapply nth_error_In; eassumption|reflexivity].
        * now apply chk_chk'.
        * exists 0, j, y. auto.
      + oinv H. unfold ref_rule in Hm. rewrite Hlr in Hm. destruct (v_once k (IH k (le_n _)) r m d body' pos a Hal Hd Hb' Hmac Hm) as (j & y & A & B).
        assert (Hsd' : match sd with Some (r0, p0, s) => if (r0 =? r) && (p0 =? pos) then Some s else ref_rule 0 (ref j) E m r d body' pos
                       | None => ref_rule 0 (ref j) E m r d body' pos end = Some y).
        { assert (X : ref_rule 0 (ref j) E m r d body' pos = Some y) by (unfold ref_rule; now rewrite Hlr). destruct sd as [[[r0 p0] s]|]; [|exact X].
          destruct ((r0 =? r) && (p0 =? pos)) eqn:He; [|exact X]. exfalso. apply andb_prop in He as [H1 H2]. apply Nat.eqb_eq in H1, H2. subst.
          destruct Hsd as [_ Hsd]. specialize (Hsd m Hal). cbn [call] in Hsd. unfold ref_call, get_body in Hsd. cbn [with_g e_g] in Hsd.
          rewrite iterate_nth, Hd in Hsd. cbn [option_map obind] in Hsd. rewrite Hsame, Hb' in Hsd. cbn [obind] in Hsd. unfold ref_rule in Hsd. rewrite Hlr in Hsd. congruence. }
        exists 0, j. rewrite Hsd'. cbn [obind]. eexists. split; [reflexivity|]. inv H.
        destruct a as [[? ?]|], y as [[? ?]|]; try discriminate B; [|reflexivity]. inv B. reflexivity.
    - rewrite Hb. cbn [obind]. rewrite Hmac in *. oinv H. unfold ref_rule in Hm. rewrite Hlr' in Hm.
      (* settle at the least depth *)
      assert (Hcall : call (S k) E' m r pos = Some a0).
      { cbn [call]. unfold ref_call, get_body. cbn [with_g e_g]. rewrite iterate_nth, Hd. cbn [option_map obind]. rewrite Hb'. cbn [obind]. unfold ref_rule. now rewrite Hlr'. }
      destruct (call_least _ _ _ _ _ _ Hcall) as (K & HK & HK1 & HK2).
      assert (Hone : ref_once (ref K) E' None m r (iterate_rule r d) (iteration a b) pos = Some a0).
      { cbn [call] in HK1. unfold ref_call, get_body in HK1. cbn [with_g e_g] in HK1. rewrite iterate_nth, Hd in HK1. cbn [option_map obind] in HK1.
        rewrite Hb' in HK1. cbn [obind] in HK1. unfold ref_rule in HK1. now rewrite Hlr' in HK1. }
      destruct (v_lr r d m pos Hd Hmac Hal K) with (fl := fl) (fs := fs) (l := l) (a := a) (b := b) (d' := iterate_rule r d) (x := a0) as (F & J & y & A & B); auto.
      { intros j Hj. apply IH. lia. }
      { intros s. split; [eauto|]. intros m' Hm'. rewrite (ok_mode E al HE r m' m d Hd Hmac Hm' Hal). exact HK2. }
      { now rewrite Sw. }
      assert (Hsd' : match sd with Some (r0, p0, s) => if (r0 =? r) && (p0 =? pos) then Some s else ref_rule F (ref J) E m r d (Cho fl fs l) pos
                     | None => ref_rule F (ref J) E m r d (Cho fl fs l) pos end = Some y).
      { destruct sd as [[[r0 p0] s]|]; [|exact A]. destruct ((r0 =? r) && (p0 =? pos)) eqn:He; [|exact A]. exfalso.
        apply andb_prop in He as [H1 H2]. apply Nat.eqb_eq in H1, H2. subst. destruct Hsd as [_ Hsd]. specialize (Hsd m Hal). congruence. }
      exists F, J. rewrite Hsd'. cbn [obind]. eexists. split; [reflexivity|]. inv H.
      destruct a0 as [[? ?]|], y as [[? ?]|]; try discriminate B; [|reflexivity]. inv B. reflexivity.
  Qed.

  (** Fuel and depth of a reference evaluation can be taken equal. *)
  Lemma core_up F j sd fr m o pos vs y : ref_core F (ref j) E sd fr m o pos vs = Some y -> exists k, ref k E sd fr m o pos vs = Some y.
  Proof.
    intros H. exists (S (F + j)). cbn [ref]. eapply sub_Some; [|exact H]. apply s_core; [|lia]. intros. apply ref_sub. lia.
  Qed.
  Theorem sims_all : forall k, sims k.
  Proof.
    induction k as [k IHk] using (well_founded_induction lt_wf). destruct k as [|k]; [intros ? ? ? ? ? ? ? ? _ _ _ H; discriminate|].
    assert (IH : forall j, j <= k -> sims j) by (intros; apply IHk; lia). clear IHk. pose proof (IH k (le_n _)) as IHk.
    intros sd fr m o pos vs vs' x Hsd Hfr Hck H. assert (Hsd' : seed_free k sd) by (eapply seed_free_le; [|exact Hsd]; lia).
    assert (Hup : (exists F j y, ref_core F (ref j) E sd fr m o pos vs' = Some y /\ eqlen x y) -> exists j y, ref j E sd fr m o pos vs' = Some y /\ eqlen x y).
    { intros (F & j & y & A & B). apply core_up in A as [j' A]. eauto. }
    cbn [ref] in H. apply Hup. clear Hup.
    assert (Hone : forall m' e v v' z, chk E al m' e -> ref k E' None fr m' e pos v = Some z -> exists j y, ref j E sd fr m' e pos v' = Some y /\ eqlen z y).
    { intros m' e v v' z Hc Hz. eapply (IHk sd fr m' e pos v v' z); auto using chk_chk'. }
    destruct o; cbn [ref_core] in H |- *; cbn [chk' chk] in Hck; try discriminate.
    - destruct Hck as [_ Hc]. apply chk_all in Hc. rewrite Forall_forall in Hc.
      destruct (v_seq k sd fr m l (fun o Ho => chk_chk' m o (Hc o Ho)) IHk Hsd' Hfr pos 0 vs vs' x H) as (j & y & A & B). exists 0, j, y. auto.
    - destruct Hck as [_ Hc]. apply chk_all in Hc. rewrite Forall_forall in Hc.
      destruct (v_cho k sd fr m l (fun o Ho => chk_chk' m o (Hc o Ho)) IHk Hsd' Hfr _ 0 (List.length l) 0 pos vs vs' x H) as (j & y & A & B). exists 0, j, y. auto.
    - destruct Hck as [_ Hc]. eapply (v_rep k sd fr m); eauto using chk_chk'.
    - oinv H. destruct (Hone m o vs vs' a Hck Hm) as (j & y & A & B). exists 0, j. rewrite A. cbn [obind]. eexists. split; [reflexivity|].
      inv H. destruct a as [[? ?]|], y as [[? ?]|]; try discriminate B; reflexivity.
    - oinv H. destruct (Hone m o vs vs' a Hck Hm) as (j & y & A & B). exists 0, j. rewrite A. cbn [obind]. eexists. split; [reflexivity|].
      inv H. destruct a as [[? ?]|], y as [[? ?]|]; try discriminate B; reflexivity.
    - rewrite ref_dic_eq in H. setoid_rewrite ref_dic_eq. cbn [with_g e_input] in H. destruct (trie_match t _) as [i id]. destruct (i =? 0).
      { inv H. exists 0, 0, None. split; reflexivity. }
      oinv H. destruct (proj2 Hwords k (pos + i) a Hm) as [j1 W]. destruct a; [|inv H; exists 0, j1, None; rewrite W; split; reflexivity].
      destruct (v_then k IHk m pos i _ (set_choice (t_items_count t) (match id with Some q => q | None => 0 end) vs') x H) as (j & y & A & B).
      exists 0, (j1 + j), y. rewrite (word_dic_up j1 (j1 + j) _ _ _ (Nat.le_add_r _ _) W). cbn [obind]. split; [|exact B].
      eapply sub_Some; [|exact A]. apply s_then. intros. apply ref_sub. lia.
    - rewrite ref_lit_eq in H. setoid_rewrite ref_lit_eq. cbn [with_g e_input] in H. oinv H.
      change (left E' pos) with (left E pos) in Hm. rewrite Hm. cbn [obind] in *. destruct a; [|inv H; exists 0, 0, None; split; reflexivity].
      oinv H. destruct (proj1 Hwords k _ pos a Hm0) as [j1 W]. destruct a; [|inv H; exists 0, j1, None; rewrite W; split; reflexivity].
      destruct (v_then k IHk m pos _ _ vs' x H) as (j & y & A & B).
      exists 0, (j1 + j), y. rewrite (word_lit_up j1 (j1 + j) _ _ _ _ (Nat.le_add_r _ _) W). cbn [obind]. split; [|exact B].
      eapply sub_Some; [|exact A]. apply s_then. intros. apply ref_sub. lia.
    - exists 0, 0. unfold ref_cls in *. change (left E' pos) with (left E pos) in H. cbn [with_g e_input] in H.
      destruct (left E pos =? 0); [inv H; eexists; split; reflexivity|]. oinv H. rewrite Hm. cbn [obind]. destruct a as [len cp]. oinv H. rewrite Hm0. cbn [obind].
      eexists. split; [reflexivity|]. inv H. destruct (xorb _ _); reflexivity.
    - exists 0, 0. unfold ref_chr in *. change (left E' pos) with (left E pos) in H. cbn [with_g e_input] in H.
      destruct (left E pos =? 0); [inv H; eexists; split; reflexivity|]. oinv H. rewrite Hm. cbn [obind]. destruct a as [len cp'].
      eexists. split; [reflexivity|]. inv H. destruct (_ =? _)%N; reflexivity.
    - exists 0, 0. unfold ref_dot in *. change (left E' pos) with (left E pos) in H. cbn [with_g e_input] in H. oinv H. rewrite Hm. cbn [obind].
      eexists. split; [reflexivity|]. inv H. destruct (_ <? _); reflexivity.
    - destruct (Hone m o vs vs' x Hck H) as (j & y & A & B). exists 0, j, y. auto.
    - destruct (Hone m o vs vs' x Hck H) as (j & y & A & B). exists 0, j, y. auto.
    - oinv H. destruct (Hone _ o vs vs' a Hck Hm) as (j1 & y & A & B). destruct a as [[n v]|], y as [[n' v']|]; try discriminate B.
      + inv B. destruct (v_then k IHk m pos n' _ (push_tok (pos, n') v') x H) as (j2 & z & C & D). exists 0, (j1 + j2), z. split; [|exact D].
        rewrite (lift_ref (j1 + j2) (Nat.le_add_r _ _) A). cbn [obind]. eapply sub_Some; [|exact C]. apply s_then. intros. apply ref_sub. lia.
      + inv H. exists 0, j1, None. rewrite A. split; reflexivity.
    - oinv H. destruct (Hone m o sv_new sv_new a Hck Hm) as (j & y & A & B). exists 0, j. rewrite A. cbn [obind]. eexists. split; [reflexivity|].
      inv H. destruct a as [[? ?]|], y as [[? ?]|]; try discriminate B; [|reflexivity]. inv B. reflexivity.
    - destruct Hck as [Hal _]. destruct (IHk sd fr m (Hld r) pos vs vs' x Hsd' Hfr Hal H) as (j & y & A & B). exists 0, j, y. auto.
    - eapply (v_hld k IH); eauto.
    - unfold ref_reference in *. cbn [with_g e_g] in H. destruct rule as [r|].
      + oinv H. rewrite iterate_nth in Hm. destruct (nth_error (e_g E) r) as [d|] eqn:Hd; [|discriminate]. inv Hm. cbn [obind].
        destruct (iter_rule_same r d) as (Sm & Sp & _ & _ & _). rewrite Sm, Sp in H. destruct Hck as [[Hal _] Hargs]. apply chk_every in Hargs.
        destruct (r_is_macro d) eqn:Hmac.
        * oinv H. rewrite Hm. cbn [obind]. assert (Hlr : r_lr d = false).
          { destruct (r_lr d) eqn:Hlr; [|reflexivity]. exfalso. clear -Hlr Hmac H Hd IHk Hsd'.
            assert (X : r_lr (iterate_rule r d) = false) by (unfold iterate_rule; now rewrite Hlr). rewrite X in H.
            destruct k as [|k]; [discriminate|]. cbn [ref ref_core] in H. unfold ref_hld, get_body in H. cbn [with_g e_g] in H. rewrite iterate_nth, Hd in H.
            cbn [option_map obind] in H. unfold iterate_rule in H. rewrite Hlr in H. cbn in H. rewrite Hmac in H. cbn in H. destruct (r_body d) as [[]|]; discriminate. }
          rewrite Hlr. assert (Hlr' : r_lr (iterate_rule r d) = false) by (unfold iterate_rule; now rewrite Hlr). rewrite Hlr' in H.
          apply out_of_Some in Hm. destruct (IHk sd (r_params d, a) m (Hld r) pos vs vs' x) as (j & y & A & B); auto.
          { split; [right; exists d; split; [eapply nth_error_In; eassumption|reflexivity]|]. destruct Hfr as [Hf1 Hf2]. exact (chk_subst_args _ _ _ _ _ Hf1 Hf2 _ Hm Hargs). }
          exists 0, j, y. auto.
        * destruct (IHk sd no_frame m (Hld r) pos vs vs' x) as (j & y & A & B); auto; [split; [now left|constructor]|]. exists 0, j, y. auto.
      + oinv H. rewrite Hm. cbn [obind]. destruct Hfr as [Hf1 Hf2]. pose proof Hf2 as Hf2'. rewrite Forall_forall in Hf2. specialize (Hf2 a (nth_error_In _ _ Hm) m Hck).
        destruct (IHk sd fr m a pos vs vs' x) as (j & y & A & B); auto; [split; assumption|now apply chk_chk'|]. exists 0, j, y. auto.
    - destruct Hck as [Hc|Hc]; destruct (m_ws m) eqn:Hw; try discriminate; try (inv H; exists 0, 0; eexists; split; reflexivity).
      destruct (Hone _ o vs vs' x Hc H) as (j & y & A & B). exists 0, j, y. auto.
    - exfalso. destruct Hck as [[Hl _] _]. apply Hl. right. split; [exact Hkp|exact Hpred].
  Qed.
End LrRef.

(** The %word checks of the iterated grammar are those of the grammar. *)
Lemma iterate_words {V U} (E : env V U) al wal : okA (kp := false) E al wal -> (forall r, e_pred E r = None) ->
  words_le (with_g E (iterate (e_g E))) E.
Proof.
  intros HA Hp. apply words_of; [reflexivity|reflexivity|]. intros w inp k o pos x Hw Ho H.
  change (word_env (with_g E (iterate (e_g E))) inp) with (with_g (word_env E inp) (iterate (e_g (word_env E inp)))) in H.
  pose proof (oa_word _ _ _ HA inp) as HE. destruct (oa_chk _ _ _ HA w Hw) as (_ & _ & Hc). specialize (Hc inp).
  assert (Hn : words_le (with_g (word_env E inp) (iterate (e_g (word_env E inp)))) (word_env E inp)) by (apply words_none; reflexivity).
  eapply (sims_all (kp := false) (word_env E inp) wal eq_refl Hp HE Hn k None no_frame m_top o pos sv_new sv_new x I); [| |exact H].
  - split; [now left|constructor].
  - destruct Ho as [-> | ->]; [now apply chk_chk'|exact Hc].
Qed.
