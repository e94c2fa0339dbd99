(** * Facts about a whole parse (C13, C28, C29, C38). *)
From Verif Require Import Base BaseLemmas Utf8 Escape TrieM LineInfo Ope Ctx ErrLog Engine EngineLemmas Top Frame Scope Bounds Mono EngineSpec EventSpec Events.

Section TopFacts.
  Context {V U : Type}.
  Implicit Types (P : pobj V U).

  Lemma inb_new E (log : bool) (dt : U) : inb (V:=V) E (ctx_new log dt).
  Proof. constructor; cbn; auto; discriminate. Qed.
  Lemma post_err {A} E pos c (x : option nat * A * ctx V U) : post E pos c x -> inb E (snd x).
  Proof. now intros (_ & H & _). Qed.

  (** What a result of def_parse satisfies. *)
  Definition in_input (input : bytes) (r : result V U) : Prop :=
    rs_len r <= List.length input
    /\ (forall p, ei_pos (rs_err r) = Some p -> p <= List.length input)
    /\ (forall p, ei_mpos (rs_err r) = Some p -> p <= List.length input).
  Lemma def_parse_safe fuel P input dt : wfE (mk_env P input) ->
    safe (in_input input) (def_parse fuel P input dt).
  Proof.
    intros HE. unfold def_parse. cbv zeta. set (E := mk_env P input) in *.
    assert (Hin : inlen E = List.length input) by reflexivity.
    assert (Hmk : forall ret len vs c, inb E c -> len <= List.length input -> in_input input (mk_result ret len vs c)).
    { intros ret len vs c [A B C D] Hl. repeat split; cbn; auto; intros p Hp; rewrite <- Hin; auto. }
    eapply safe_bind with (P := fun x => pos_ok E 0 (fst (fst x)) /\ inb E (snd x)).
    - destruct (p_ws P) as [w|].
      + eapply safe_bind; [apply parse_safe; auto; [lia|]|].
        * eapply inb_same; [apply (inb_new E (p_log P) dt)|reflexivity..].
        * intros [[r v] k] (A & B & C). cbn. split; [exact A|]. eapply inb_same; [exact B|reflexivity..].
      + split; [apply (pos_ok_zero E 0); lia|apply inb_new].
    - intros [[wl vs1] c1] [A B]. cbn in A, B. destruct wl as [i|]; [|apply Hmk; [assumption|lia]].
      specialize (A i eq_refl). cbn in A.
      eapply safe_bind; [apply parse_safe; auto|]. intros [[len vs2] c2] (A2 & B2 & _). cbn in A2, B2.
      destruct len as [k|]; [|apply Hmk; [assumption|lia]]. specialize (A2 k eq_refl).
      destruct (p_eoi P && (i + k <? List.length input)); apply Hmk; try assumption; try lia.
      destruct (olt _ _); [|assumption]. destruct B2 as [X1 X2 X3 X4]. constructor; cbn; auto.
      intros p Hp. inv Hp. lia.
  Qed.
  Lemma parser_parse_safe fuel P input dt : wfE (mk_env P input) ->
    safe (fun x => in_input input (snd x)) (parser_parse fuel P input dt).
  Proof.
    intros HE. unfold parser_parse. eapply safe_bind; [apply def_parse_safe; assumption|].
    intros r Hr. eapply safe_bind with (P := fun _ => True).
    - destruct (_ && _); [|exact I]. eapply safe_bind; [apply safe_output_log; apply Hr|]. intros [? ?] _. exact I.
    - intros; cbn. assumption.
  Qed.
  Lemma parser_parse_in_input fuel P input dt : wfE (mk_env P input) ->
    parser_parse fuel P input dt <> UB OutOfBounds
    /\ forall b reps r, parser_parse fuel P input dt = Ok (b, reps, r) -> in_input input r.
  Proof.
    intros HE. pose proof (parser_parse_safe fuel P input dt HE) as H. split.
    - intros Hu. rewrite Hu in H. exact H.
    - intros b reps r Hr. rewrite Hr in H. exact H.
  Qed.

  (** The leading whitespace of the input took [i] bytes. *)
  Definition leading (fuel : nat) P input dt (i : nat) (vs : sv V) (c : ctx V U) : Prop :=
    match p_ws P with
    | None => i = 0 /\ vs = sv_new /\ c = ctx_new (p_log P) dt
    | Some w => exists c1, parse fuel (mk_env P input) w 0 sv_new (set_ign (negb (p_verbose P)) (ctx_new (p_log P) dt))
                  = Ok (Some i, vs, c1) /\ c = set_ign false c1
    end.
  Lemma whole_match fuel P input dt b reps r : wfE (mk_env P input) ->
    parser_parse fuel P input dt = Ok (b, reps, r) ->
    (b = true <-> exists i vs1 c1 k vs2 c2, leading fuel P input dt i vs1 c1
       /\ parse fuel (mk_env P input) (Hld (p_start P)) i vs1 c1 = Ok (Some k, vs2, c2)
       /\ (p_eoi P = true -> i + k = List.length input)
       /\ c_rcv c2 = false).
  Proof.
    intros HE H. pose proof (proj2 (parser_parse_in_input fuel P input dt HE) _ _ _ H) as Hin.
    unfold parser_parse in H. binv H. binv H. inv H. clear Hm0.
    unfold def_parse in Hm. cbv zeta in Hm. binv Hm.
    assert (Hl : forall i, r0 = Some i -> leading fuel P input dt i v k).
    { intros i ->. unfold leading. destruct (p_ws P) as [w|]; [|inv Hm0; auto].
      binv Hm0. inv Hm0. eexists. split; [eassumption|]. reflexivity. }
    assert (Hd : forall i vs1 c1, leading fuel P input dt i vs1 c1 -> r0 = Some i /\ vs1 = v /\ c1 = k).
    { intros i vs1 c1 Hx. unfold leading in Hx. destruct (p_ws P) as [w|].
      - destruct Hx as (c3 & Hw & ->). rewrite Hw in Hm0. cbn in Hm0. inv Hm0. auto.
      - destruct Hx as (-> & -> & ->). inv Hm0. auto. }
    destruct r0 as [i|].
    2:{ inv Hm. cbn. split; [discriminate|]. intros (i & vs1 & c1 & k' & vs2 & c2 & Hx & _). apply Hd in Hx as [Hx _]. discriminate. }
    binv Hm. pose proof (Hl i eq_refl) as Hlead. destruct r0 as [n|].
    - split.
      + intros Hb. exists i, v, k, n, v0, k0. split; [assumption|]. split; [assumption|].
        destruct (p_eoi P) eqn:He; cbn [andb] in Hm.
        * destruct (Nat.ltb_spec (i + n) (List.length input)); inv Hm; [discriminate|].
          cbn in Hb. destruct Hin as [Hin _]. cbn in Hin. split; [intros _; lia|]. now apply negb_true_iff.
        * inv Hm. cbn in Hb. split; [discriminate|]. now apply negb_true_iff.
      + intros (i' & vs1 & c1 & k' & vs2 & c2 & Hx & Hp & He & Hr). apply Hd in Hx as (Hi & -> & ->). inv Hi.
        rewrite Hm1 in Hp. inv Hp. destruct (p_eoi P); cbn [andb] in Hm.
        * destruct (Nat.ltb_spec (i' + k') (List.length input)); [specialize (He eq_refl); lia|]. inv Hm. cbn. now rewrite Hr.
        * inv Hm. cbn. now rewrite Hr.
    - inv Hm. cbn. split; [discriminate|]. intros (i' & vs1 & c1 & k' & vs2 & c2 & Hx & Hp & _).
      apply Hd in Hx as (Hi & -> & ->). inv Hi. congruence.
  Qed.

  (** The trace of a whole parse. *)
  Definition norcv_grammar P : Prop :=
    (forall r d body, nth_error (p_g P) r = Some d -> r_body d = Some body -> norcv body = true)
    /\ (forall w, p_ws P = Some w -> norcv w = true).
  Lemma def_parse_tr (rq : bool) fuel P input dt r :
    (rq = true \/ norcv_grammar P) -> def_parse fuel P input dt = Ok r ->
    exists evs, rs_evs r = rev evs /\ nested evs
      /\ (rq = false -> p_tracer P = true -> p_verbose P = true -> p_log P = true -> errs input evs err_new (rs_err r)).
  Proof.
    intros Hr H. unfold def_parse in H. cbv zeta in H. set (E := mk_env P input) in *.
    assert (HE : norcvs rq E).
    { destruct Hr as [-> |[A B]]; [constructor; intros; apply nrv_true|].
      destruct rq; [constructor; intros; apply nrv_true|]. constructor; intros; rewrite nrv_false; eauto. }
    assert (Hfin : forall c0 c, c_evs c0 = [] -> c_err c0 = err_new -> c_ign c0 = false -> c_log c0 = p_log P ->
              tr rq E c0 c -> exists evs, c_evs c = rev evs /\ nested evs
      /\ (rq = false -> p_tracer P = true -> p_verbose P = true -> p_log P = true -> errs input evs err_new (c_err c))).
    { intros c0 c E1 E2 E3 E4 (A1 & A2 & evs & A3 & A4 & A5). exists evs. rewrite E1, app_nil_r in A3.
      split; [assumption|]. split; [assumption|]. intros. rewrite <- E2. apply A5. repeat split; auto. congruence. }
    binv H.
    assert (H1 : tr rq E (ctx_new (p_log P) dt) k /\ nrargs rq k).
    { destruct (p_ws P) as [w|] eqn:Hw.
      - binv Hm. inv Hm. pose proof (parse_frame _ _ _ _ _ _ _ _ _ Hm0) as F. apply (parse_tr rq) in Hm0; auto.
        + split; [eapply tr_ign; [|exact Hm0]; now intros Hv; change (p_verbose P = true) in Hv; rewrite Hv|].
          unfold nrargs. csimpl. now rewrite (f_args _ _ F).
        + reflexivity.
        + eapply nr_ws; eauto.
      - inv Hm. split; [now apply tr_refl|reflexivity]. }
    destruct H1 as [H1 H2]. destruct r0 as [i|].
    2:{ inv H. cbn. eapply Hfin; [| | | |exact H1]; reflexivity. }
    binv H. apply (parse_tr rq) in Hm0; auto. pose proof (tr_trans _ _ _ _ _ H1 Hm0) as H3.
    apply Hfin in H3; try reflexivity. destruct H3 as (evs & A & B & C).
    destruct r0 as [n|]; [|inv H; exists evs; auto].
    destruct (_ && _); inv H; exists evs; cbn; split; try assumption; [destruct (olt _ _); assumption|split; [assumption|]|auto].
    intros R1 R2 R3 R4. specialize (C R1 R2 R3 R4). destruct (olt _ _); [|assumption].
    eapply errs_same; [|exact C]. reflexivity.
  Qed.
  Lemma def_parse_nested fuel P input dt r : def_parse fuel P input dt = Ok r -> nested (rev (rs_evs r)).
  Proof.
    intros H. apply (def_parse_tr true) in H; [|auto]. destruct H as (evs & -> & Hn & _). now rewrite rev_involutive.
  Qed.
  Lemma farthest_failure fuel P input dt r :
    wfE (mk_env P input) -> norcv_grammar P ->
    p_tracer P = true -> p_verbose P = true -> p_log P = true ->
    def_parse fuel P input dt = Ok r ->
    match ei_pos (rs_err r) with
    | Some q => q <= List.length input
        /\ (forall e p, In e (rs_evs r) -> failure input e p -> p <= q)
        /\ (exists e, In e (rs_evs r) /\ blamed e q)
    | None => forall e p, In e (rs_evs r) -> ~ failure input e p
    end.
  Proof.
    intros HE Hn H1 H2 H3 H. pose proof (def_parse_safe fuel P input dt HE) as Hs. rewrite H in Hs.
    apply (def_parse_tr false) in H; [|auto]. destruct H as (evs & -> & _ & He).
    destruct (He eq_refl H1 H2 H3) as [A B C].
    assert (Hi : forall e, In e (rev evs) <-> In e evs) by (intros; symmetry; apply in_rev).
    destruct (ei_pos (rs_err r)) as [q|] eqn:Hq.
    - split; [destruct Hs as (_ & X & _); auto|]. split.
      + intros e p Hx Hf. apply Hi in Hx. destruct (A e p Hx Hf) as (q' & Hq' & Hl). rewrite Hq in Hq'; inv Hq'; assumption.
      + destruct (C q eq_refl) as [Hx|(e & Hx & Hb)]; [discriminate|]. exists e. split; [now apply Hi|assumption].
    - intros e p Hx Hf. apply Hi in Hx. destruct (A e p Hx Hf) as (q' & Hq' & _). congruence.
  Qed.
End TopFacts.
