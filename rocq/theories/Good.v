(** * Values stay good: a property of values relative to the user data that callbacks
    preserve holds of every value a parse keeps, wherever it keeps it (scopes, the packrat
    table, the left-recursion table).  Used for the nodes of an AST (C42). *)
From Verif Require Import Base BaseLemmas Utf8 Escape TrieM LineInfo Ope Ctx ErrLog Engine EngineLemmas Frame Scope Bounds EventSpec Events.

Section Good.
  Context {V U : Type}.
  Notation env := (env V U).
  Notation ctx := (ctx V U).
  Notation sv := (sv V).
  Implicit Types (E : env) (c : ctx) (vs : sv).
  (** [le u u']: [u'] comes after [u]; [good u v] once true stays true. *)
  Variable good : U -> V -> Prop.
  Variable le : U -> U -> Prop.
  Hypothesis le_refl : forall u, le u u.
  Hypothesis le_trans : forall u u1 u2, le u u1 -> le u1 u2 -> le u u2.
  Hypothesis good_mono : forall u u' v, good u v -> le u u' -> good u' v.

  Definition goodO (u : U) (v : option V) : Prop := match v with Some x => good u x | None => True end.
  Definition goods (u : U) (l : list (option V)) : Prop := Forall (goodO u) l.
  Lemma goodO_mono u u' v : goodO u v -> le u u' -> goodO u' v.
  Proof. destruct v; cbn; eauto. Qed.
  Lemma goods_mono u u' l : goods u l -> le u u' -> goods u' l.
  Proof. intros H Hl. eapply Forall_impl; [|exact H]. intros v Hv. eapply goodO_mono; eauto. Qed.
  Lemma goods_front u l : goods u l -> goodO u (front l).
  Proof. intros []; [exact I|assumption]. Qed.
  Lemma goods_resize u n l : goods u l -> goods u (resize None n l).
  Proof.
    intros H. unfold resize. apply Forall_app. split.
    - revert n. induction H as [|x l Hx H IH]; intros [|n]; cbn; constructor; auto.
    - apply Forall_forall. intros x Hx. apply repeat_spec in Hx. subst. exact I.
  Qed.

  Record goodenv E : Prop := {
    ge_action : forall r f vs u pd, e_action E r = Some f -> goods u (v_vals vs) ->
                le u (snd (f (e_input E) vs u pd)) /\ goodO (snd (f (e_input E) vs u pd)) (fst (f (e_input E) vs u pd));
    ge_enter : forall r f pos u, e_enter E r = Some f -> le u (f (e_input E) pos u);
    ge_leave : forall r f pos n v u, e_leave E r = Some f -> goodO u v ->
               le u (snd (f (e_input E) pos n v u)) /\ goodO (snd (f (e_input E) pos n v u)) (fst (f (e_input E) pos n v u));
    ge_user : forall id pos vs u, goods u (v_vals vs) ->
              le u (snd (e_user E id (e_input E) pos vs u)) /\ goods (snd (e_user E id (e_input E) pos vs u)) (v_vals (snd (fst (e_user E id (e_input E) pos vs u))));
    ge_rule : forall r d body, nth_error (e_g E) r = Some d -> r_body d = Some body -> nrv false body = true;
    ge_ws : forall w, e_ws E = Some w -> nrv false w = true
  }.
  Definition okr c : Prop := forallb (forallb (nrv false)) (c_args c) = true.
  Lemma okr_frame c c' : frame c c' -> okr c -> okr c'.
  Proof. intros [] H. unfold okr. now rewrite f_args. Qed.
  Lemma okr_top c : okr c -> forallb (nrv false) (top_args c) = true.
  Proof. unfold okr, top_args. destruct (c_args c); cbn; [reflexivity|]. intros H. now apply andb_prop in H as [H _]. Qed.

  Record kinv c : Prop := {
    ki_lrm : Forall (fun e => goodO (c_dt c) (snd (snd e))) (c_lrm c);
    ki_pkv : Forall (fun e => good (c_dt c) (snd e)) (c_pkv c)
  }.
  Lemma kinv_same c c' : kinv c -> c_lrm c' = c_lrm c -> c_pkv c' = c_pkv c -> c_dt c' = c_dt c -> kinv c'.
  Proof. intros [] H1 H2 H3. constructor; rewrite ?H1, ?H2, ?H3; assumption. Qed.
  Ltac same := eapply kinv_same; [eassumption|reflexivity..].
  Lemma kinv_dt u c : kinv c -> le (c_dt c) u -> kinv (set_dt u c).
  Proof.
    intros [H1 H2] Hl. constructor; csimpl; (eapply Forall_impl; [|eassumption]); cbn; intros e He; [eapply goodO_mono; eauto|eapply good_mono; eauto].
  Qed.
  Lemma dt_error_pos E pos lit c : c_dt (set_error_pos E pos lit c) = c_dt c.
  Proof.
    unfold set_error_pos. destruct (c_log c); [|reflexivity]. destruct (ole _ _); [|reflexivity]. cbv zeta.
    repeat match goal with |- context [match ?x with _ => _ end] => destruct x end; reflexivity.
  Qed.
  Lemma kinv_error_pos E pos lit c : kinv c -> kinv (set_error_pos E pos lit c).
  Proof.
    intros H. unfold set_error_pos. destruct (c_log c); [|assumption]. destruct (ole _ _); [|assumption]. cbv zeta.
    repeat match goal with |- context [match ?x with _ => _ end] => destruct x end; same.
  Qed.
  Lemma dt_cut_top b c : c_dt (set_cut_top b c) = c_dt c.
  Proof. unfold set_cut_top. destruct (c_cut c); reflexivity. Qed.
  Lemma kinv_cut_top b c : kinv c -> kinv (set_cut_top b c).
  Proof. intros H. unfold set_cut_top. destruct (c_cut c); [assumption|same]. Qed.
  Lemma dt_fs_error fs id pos c : c_dt (fs_error fs id pos c) = c_dt c.
  Proof. unfold fs_error. repeat match goal with |- context [match ?x with _ => _ end] => destruct x end; reflexivity. Qed.
  Lemma kinv_fs_error fs id pos c : kinv c -> kinv (fs_error fs id pos c).
  Proof.
    intros H. unfold fs_error.
    repeat match goal with |- context [match ?x with _ => _ end] => destruct x end; try assumption; cbv zeta; same.
  Qed.
  Lemma Forall_filter {A} (P : A -> Prop) f l : Forall P l -> Forall P (filter f l).
  Proof. induction 1; cbn; [constructor|]. destruct (f x); [constructor|]; assumption. Qed.
  Lemma kinv_lrm_erase c k : kinv c -> kinv (set_lrm (lr_erase k (c_lrm c)) c).
  Proof. intros []. constructor; csimpl; [now apply Forall_filter|assumption]. Qed.
  Lemma kinv_lrm_set c k x : kinv c -> goodO (c_dt c) (snd x) -> kinv (set_lrm (lr_set k x (c_lrm c)) c).
  Proof. intros [] Hx. constructor; csimpl; [|assumption]. constructor; [exact Hx|now apply Forall_filter]. Qed.
  Lemma lr_find_good c k n v : kinv c -> lr_find (c_lrm c) k = Some (n, v) -> goodO (c_dt c) v.
  Proof.
    intros [H _]. unfold lr_find. rewrite Forall_forall in H. destruct (find _ _) as [[a b]|] eqn:Hf; [|discriminate].
    intros Hx. inv Hx. apply find_some in Hf as [Hf _]. now apply H in Hf.
  Qed.
  Lemma nfind_good c k v : kinv c -> nfind (c_pkv c) k = Some v -> good (c_dt c) v.
  Proof.
    intros [_ H]. unfold nfind. rewrite Forall_forall in H. destruct (find _ _) as [[a b]|] eqn:Hf; [|discriminate].
    intros Hx. inv Hx. apply find_some in Hf as [Hf _]. now apply H in Hf.
  Qed.
  Lemma kinv_clear_cycle pos r cyc c : kinv c -> kinv (clear_cycle pos r cyc c).
  Proof. intros []. unfold clear_cycle. constructor; csimpl; [now apply Forall_filter|assumption]. Qed.
  Lemma dt_write E pos r len val c : c_dt (write_packrat_cache E pos r len val c) = c_dt c.
  Proof. unfold write_packrat_cache. cbv zeta. repeat match goal with |- context [match ?x with _ => _ end] => destruct x end; reflexivity. Qed.
  Lemma kinv_write E pos r len val c : kinv c -> goodO (c_dt c) val -> kinv (write_packrat_cache E pos r len val c).
  Proof.
    intros [H1 H2] Hl. unfold write_packrat_cache. cbv zeta.
    repeat match goal with |- context [match ?x with _ => _ end] => destruct x end; constructor; csimpl; try assumption.
    - constructor; [exact Hl|now apply Forall_filter].
    - now apply Forall_filter.
  Qed.
  Lemma dt_clear E pos r c : c_dt (clear_packrat_cache E pos r c) = c_dt c.
  Proof. unfold clear_packrat_cache. cbv zeta. repeat match goal with |- context [match ?x with _ => _ end] => destruct x end; reflexivity. Qed.
  Lemma kinv_clear E pos r c : kinv c -> kinv (clear_packrat_cache E pos r c).
  Proof.
    intros []. unfold clear_packrat_cache. cbv zeta.
    repeat match goal with |- context [match ?x with _ => _ end] => destruct x end; constructor; csimpl; auto; now apply Forall_filter.
  Qed.

  Definition fin (u : U) vs' c' : Prop := le u (c_dt c') /\ kinv c' /\ goods (c_dt c') (v_vals vs').
  Definition rec_good (rec : rec_t) : Prop :=
    forall E o pos vs c r vs' c', goodenv E -> okr c -> kinv c -> nrv false o = true -> goods (c_dt c) (v_vals vs) ->
    rec E o pos vs c = Ok (r, vs', c') -> fin (c_dt c) vs' c'.
  Lemma fin_same u vs c : c_dt c = u -> kinv c -> goods u (v_vals vs) -> fin u vs c.
  Proof. intros <- Hk Hg. split; [apply le_refl|]. now split. Qed.
  Lemma fin_step u u1 vs c : le u u1 -> fin u1 vs c -> fin u vs c.
  Proof. intros H (A & B & C). split; [eauto|]. now split. Qed.
  Lemma fin_vals u vs vs' c : fin u vs c -> goods u (v_vals vs') -> fin u vs' c.
  Proof. intros (A & B & C) H. split; [assumption|]. split; [assumption|]. eapply goods_mono; eauto. Qed.
  Lemma fin_rollback u vs vs' c0 c : fin u vs' c -> fin u (rollback_vs vs vs') (rollback_c c0 c).
  Proof. intros (A & B & C). split; [exact A|]. split; [same|]. cbn. now apply goods_resize. Qed.
  Lemma fin_ctx u vs c c' : fin u vs c -> c_lrm c' = c_lrm c -> c_pkv c' = c_pkv c -> c_dt c' = c_dt c -> fin u vs c'.
  Proof. intros (A & B & C) H1 H2 H3. unfold fin. rewrite H3. split; [assumption|]. split; [eapply kinv_same; eauto|assumption]. Qed.
  Lemma fin_err u vs E pos lit c : fin u vs c -> fin u vs (set_error_pos E pos lit c).
  Proof. intros (A & B & C). unfold fin. rewrite dt_error_pos. split; [assumption|]. split; [now apply kinv_error_pos|assumption]. Qed.

  Section Ops.
    Variable rec : @rec_t V U.
    Hypothesis Hrec : rec_good rec.
    Hypothesis Hfr : rec_frame rec.

    Lemma g_skip E pos vs c r vs' c' : goodenv E -> okr c -> kinv c -> goods (c_dt c) (v_vals vs) ->
      skip_whitespace E rec pos vs c = Ok (r, vs', c') -> fin (c_dt c) vs' c'.
    Proof.
      intros HE Hc Hi Hv. unfold skip_whitespace. destruct (e_ws E) eqn:Hw; intros H.
      - destruct (0 <? c_tb c); [inv H; now apply fin_same|].
        binv H. inv H. eapply Hrec in Hm; [eapply fin_ctx; [exact Hm|reflexivity..]|assumption|exact Hc|same|eapply ge_ws; eauto|exact Hv].
      - inv H. now apply fin_same.
    Qed.
    Lemma g_then_skip E pos n vs c r vs' c' : goodenv E -> okr c -> kinv c -> goods (c_dt c) (v_vals vs) ->
      then_skip E rec pos n vs c = Ok (r, vs', c') -> fin (c_dt c) vs' c'.
    Proof. intros HE Hc Hi Hv. unfold then_skip. intros H. binv H. eapply g_skip in Hm; eauto. inv H. assumption. Qed.
    Lemma g_literal E lit ic pos vs c r vs' c' : goodenv E -> okr c -> kinv c -> goods (c_dt c) (v_vals vs) ->
      parse_literal E rec lit ic pos vs c = Ok (r, vs', c') -> fin (c_dt c) vs' c'.
    Proof.
      intros HE Hc Hi Hv. unfold parse_literal. intros H. binv H. destruct a.
      - binv H. destruct a; [eapply g_then_skip in H; eauto|]. inv H. now apply fin_err, fin_same.
      - inv H. now apply fin_err, fin_same.
    Qed.
    Lemma g_dic E t pos vs c r vs' c' : goodenv E -> okr c -> kinv c -> goods (c_dt c) (v_vals vs) ->
      parse_dic E rec t pos vs c = Ok (r, vs', c') -> fin (c_dt c) vs' c'.
    Proof.
      intros HE Hc Hi Hv. unfold parse_dic, fail_at. intros H. destruct (trie_match _ _) as [i id].
      destruct (i =? 0); [inv H; now apply fin_err, fin_same|]. cbv zeta in H. binv H. destruct a.
      - eapply g_then_skip in H; eauto.
      - inv H. now apply fin_err, fin_same.
    Qed.
    Lemma g_kg E kw pos vs c r vs' c' : goodenv E -> okr c -> kinv c -> goods (c_dt c) (v_vals vs) ->
      parse_keyword_guarded E rec kw pos vs c = Ok (Some (r, vs', c')) -> fin (c_dt c) vs' c'.
    Proof.
      intros HE Hc Hi Hv. unfold parse_keyword_guarded. cbv zeta. intros H.
      destruct (_ <? 1); [inv H; now apply fin_err, fin_same|].
      binv H. destruct (btest _ _); [|inv H; now apply fin_err, fin_same]. binv H.
      assert (Hgo : forall x,
        (let* r := then_skip E rec pos (S a0) (if e_recog E then vs else push_tok (pos, S a0) vs) c in
         Ok (Some r)) = Ok (Some x) -> fin (c_dt c) (snd (fst x)) (snd x)).
      { intros [[r1 v1] c1] Hx. binv Hx. inv Hx. cbn [fst snd]. eapply g_then_skip in Hm1; eauto. destruct (e_recog E); exact Hv. }
      destruct (_ && _).
      - destruct (existsb _ _); [inv H; now apply fin_err, fin_same|].
        destruct (existsb _ _); [discriminate|]. apply Hgo in H. assumption.
      - apply Hgo in H. assumption.
    Qed.
    Lemma g_seq_loop E l : goodenv E -> forallb (nrv false) l = true -> forall pos i vs c r vs' c', okr c -> kinv c -> goods (c_dt c) (v_vals vs) ->
      seq_loop E rec l pos i vs c = Ok (r, vs', c') -> fin (c_dt c) vs' c'.
    Proof.
      intros HE. induction l as [|o l IH]; cbn [seq_loop forallb]; intros Hn pos i vs c r vs' c' Hc Hi Hv H.
      - inv H. now apply fin_same.
      - apply andb_prop in Hn as [Ho Hl]. binv H. pose proof (Hfr _ _ _ _ _ _ _ _ Hm) as Hf.
        eapply Hrec in Hm as (A & B & C); eauto. destruct r0.
        + eapply fin_step; [exact A|]. eapply IH in H; eauto using okr_frame.
        + inv H. now split.
    Qed.
    Lemma g_seq E kg l pos vs c r vs' c' : goodenv E -> okr c -> kinv c -> goods (c_dt c) (v_vals vs) -> forallb (nrv false) l = true ->
      parse_seq E rec kg l pos vs c = Ok (r, vs', c') -> fin (c_dt c) vs' c'.
    Proof.
      intros HE Hc Hi Hv Hn. unfold parse_seq. destruct kg; intros H.
      - binv H. destruct a as [[[r1 v1] c1]|].
        + inv H. eapply g_kg; eauto.
        + eapply g_seq_loop; eauto.
      - eapply g_seq_loop; eauto.
    Qed.
    Lemma g_cho_loop E fs total l : goodenv E -> forallb (nrv false) l = true ->
      forall id pos vs c r vs' c', okr c -> kinv c -> goods (c_dt c) (v_vals vs) ->
      cho_loop E rec fs total l id pos vs c = Ok (r, vs', c') -> fin (c_dt c) vs' c'.
    Proof.
      intros HE. induction l as [|o l IH]; cbn [cho_loop forallb]; intros Hn id pos vs c r vs' c' Hc Hi Hv H.
      - inv H. now apply fin_same.
      - apply andb_prop in Hn as [Ho Hl]. binv H. destruct a.
        + rewrite <- (dt_fs_error fs id pos c). eapply IH in H; eauto; [eapply okr_frame; [apply frame_fs_error|assumption]|now apply kinv_fs_error|now rewrite dt_fs_error].
        + cbv zeta in H. binv H.
          set (c2 := set_err _ _) in *.
          assert (Hc2 : okr c2).
          { unfold c2, okr. csimpl. destruct (e_has_cut E); [|exact Hc]. unfold set_cut_top. destruct (c_cut c); exact Hc. }
          assert (Hd2 : c_dt c2 = c_dt c) by (unfold c2; csimpl; destruct (e_has_cut E); [apply dt_cut_top|reflexivity]).
          assert (Hi2 : kinv c2).
          { unfold c2. apply kinv_same with (c := if e_has_cut E then set_cut_top false c else c); [|reflexivity..]. destruct (e_has_cut E); [now apply kinv_cut_top|assumption]. }
          pose proof (Hfr _ _ _ _ _ _ _ _ Hm0) as Hf.
          eapply Hrec in Hm0 as F; eauto; [|now rewrite Hd2]. rewrite Hd2 in F. destruct r0.
          * inv H. eapply fin_ctx; [exact F|reflexivity..].
          * apply (fin_rollback _ vs _ c2) in F. destruct (_ && _).
            -- inv H. eapply fin_ctx; [exact F|reflexivity..].
            -- destruct F as (A & B & C). eapply fin_step; [exact A|]. eapply (IH Hl) in H; [exact H|exact (okr_frame _ _ Hf Hc2)|exact B|exact C].
    Qed.
    Lemma g_cho E fl fs l pos vs c r vs' c' : goodenv E -> okr c -> kinv c -> goods (c_dt c) (v_vals vs) -> forallb (nrv false) l = true ->
      parse_cho E rec fl fs l pos vs c = Ok (r, vs', c') -> fin (c_dt c) vs' c'.
    Proof.
      intros HE Hc Hi Hv Hn. unfold parse_cho. cbv zeta. intros H. binv H.
      match type of Hm with cho_loop _ _ _ _ _ _ _ _ ?c0 = _ => assert (Hd0 : c_dt c0 = c_dt c) by (destruct (_ && _); reflexivity); assert (Hc0 : okr c0) by (destruct (_ && _); exact Hc); assert (Hi0 : kinv c0) by (destruct (_ && _); [same|assumption]) end.
      eapply (g_cho_loop E) in Hm; eauto; [|now rewrite Hd0]. rewrite Hd0 in Hm. inv H.
      eapply fin_ctx; [exact Hm|destruct (_ && _); reflexivity..].
    Qed.
    Lemma g_rep_min E e m : goodenv E -> nrv false e = true -> forall pos i vs c r vs' c', okr c -> kinv c -> goods (c_dt c) (v_vals vs) ->
      rep_min E rec e m pos i vs c = Ok (r, vs', c') -> fin (c_dt c) vs' c'.
    Proof.
      intros HE He. induction m as [|m IH]; cbn [rep_min]; intros pos i vs c r vs' c' Hc Hi Hv H.
      - inv H. now apply fin_same.
      - binv H. pose proof (Hfr _ _ _ _ _ _ _ _ Hm) as Hf. eapply Hrec in Hm as (A & B & C); eauto. destruct r0.
        + eapply fin_step; [exact A|]. eapply IH in H; eauto using okr_frame.
        + inv H. now split.
    Qed.
    Lemma g_rep_more E e fuel : goodenv E -> nrv false e = true -> forall room pos i vs c r vs' c', okr c -> kinv c -> goods (c_dt c) (v_vals vs) ->
      rep_more fuel E rec e room pos i vs c = Ok (r, vs', c') -> fin (c_dt c) vs' c'.
    Proof.
      intros HE He. induction fuel as [|fuel IH]; cbn [rep_more]; intros room pos i vs c r vs' c' Hc Hi Hv H.
      - destruct room as [[|n]|]; try discriminate. inv H. now apply fin_same.
      - assert (Hx : (let* (r, vs', c') := rec E e (pos + i) vs c in
                match r with
                | Some len => rep_more fuel E rec e (option_map Nat.pred room) pos (i + len) vs' c'
                | None => Ok (Some i, rollback_vs vs vs', rollback_c c c')
                end) = Ok (r, vs', c') -> fin (c_dt c) vs' c').
        { clear H. intros H. binv H. pose proof (Hfr _ _ _ _ _ _ _ _ Hm) as Hf.
          eapply Hrec in Hm as F; eauto. destruct r0.
          - destruct F as (A & B & C). eapply fin_step; [exact A|]. eapply IH in H; eauto using okr_frame.
          - inv H. now apply fin_rollback. }
        destruct room as [[|n]|]; auto. inv H. now apply fin_same.
    Qed.
    Lemma g_rep fuel E e mn mx span pos vs c r vs' c' : goodenv E -> okr c -> kinv c -> goods (c_dt c) (v_vals vs) -> nrv false e = true ->
      parse_rep fuel E rec e mn mx span pos vs c = Ok (r, vs', c') -> fin (c_dt c) vs' c'.
    Proof.
      intros HE Hc Hi Hv He. unfold parse_rep. destruct span; cbv zeta; intros H.
      - binv H. destruct (_ <? _); inv H.
        + now apply fin_err, fin_same.
        + repeat match goal with |- context [if ?b then _ else _] => destruct b end; try (now apply fin_same); now apply fin_err, fin_same.
      - binv H. assert (Hf : frame c k) by (eapply frame_rep_min; eauto).
        destruct (g_rep_min E e mn HE He _ _ _ _ _ _ _ Hc Hi Hv Hm) as (A & B & C). assert (Hk : okr k) by (eapply okr_frame; eauto). destruct r0.
        + eapply fin_step; [exact A|]. destruct mx as [m|].
          * destruct (mn <? m).
            -- eapply g_rep_more in H; eauto.
            -- inv H. now apply fin_same.
          * eapply g_rep_more in H; eauto.
        + inv H. now split.
    Qed.
    Lemma g_tok E e pos vs c r vs' c' : goodenv E -> okr c -> kinv c -> goods (c_dt c) (v_vals vs) -> nrv false e = true ->
      parse_tok E rec e pos vs c = Ok (r, vs', c') -> fin (c_dt c) vs' c'.
    Proof.
      intros HE Hc Hi Hv He. unfold parse_tok. cbv zeta. intros H. binv H.
      pose proof (Hfr _ _ _ _ _ _ _ _ Hm) as Hf. eapply Hrec in Hm as (A & B & C); [|assumption|exact Hc|same|assumption|exact Hv].
      destruct r0.
      - binv H. inv H. eapply fin_step; [exact A|]. eapply (g_then_skip E) in Hm; [eapply fin_ctx; [exact Hm|reflexivity..]|assumption| | |].
        + eapply okr_frame in Hf; [exact Hf|exact Hc].
        + same.
        + destruct (e_recog E); exact C.
      - inv H. split; [exact A|]. split; [same|exact C].
    Qed.
    Lemma g_body E r d body pos vs c len vs' c' : goodenv E -> okr c -> kinv c -> goods (c_dt c) (v_vals vs) -> nrv false body = true ->
      parse_ope_body E rec r d body pos vs c = Ok (len, vs', c') -> fin (c_dt c) vs' c'.
    Proof.
      intros HE Hc Hi Hv Hb. unfold parse_ope_body. cbv zeta. intros H. binv H. inv H.
      set (c1 := if e_need_rules E || r_macro_ref d then set_rstk (r :: c_rstk c) c else c) in *.
      assert (Hc1 : okr c1) by (unfold c1; destruct (_ || _); exact Hc).
      assert (Hi1 : kinv c1) by (unfold c1; destruct (_ || _); [same|assumption]).
      assert (Hd1 : c_dt c1 = c_dt c) by (unfold c1; destruct (_ || _); reflexivity).
      assert (Hx : fin (c_dt c) vs' k).
      { rewrite <- Hd1 in Hv |- *. destruct (r_no_whitespace d); [|eapply Hrec; eauto].
        binv Hm. pose proof (Hfr _ _ _ _ _ _ _ _ Hm0) as Hf. eapply (Hrec E body) in Hm0 as (A & B & C); [|assumption|exact Hc1|same|exact Hb|exact Hv].
        eapply fin_step; [exact A|]. destruct r0.
        - eapply (g_then_skip E) in Hm; [exact Hm|assumption| |same|exact C]. eapply okr_frame in Hf; [exact Hf|exact Hc1].
        - inv Hm. apply fin_same; [reflexivity|same|exact C]. }
      eapply fin_ctx; [exact Hx|destruct (_ || _); reflexivity..].
    Qed.
    Definition rfin (u : U) (val : option V) c' : Prop := le u (c_dt c') /\ kinv c' /\ goodO (c_dt c') val.
    Lemma g_action E r vs pd c : goodenv E -> kinv c -> goods (c_dt c) (v_vals vs) ->
      rfin (c_dt c) (fst (run_action E r vs pd c)) (snd (run_action E r vs pd c)).
    Proof.
      intros HE Hi Hv. unfold run_action. cbv zeta. destruct (e_action E r) as [f|] eqn:Ha.
      - set (c1 := set_prec _ c). assert (Hi1 : kinv c1) by same.
        destruct (ge_action _ HE r f vs (c_dt c1) pd Ha Hv) as [A B]. destruct (f _ _ _ _) as [v u]. cbn [fst snd] in *.
        split; [exact A|]. split; [|exact B]. exact (kinv_dt u c1 Hi1 A).
      - split; [apply le_refl|]. split; [same|]. cbn. now apply goods_front.
    Qed.
    Lemma g_reduce E r d vs pd c : goodenv E -> kinv c -> goods (c_dt c) (v_vals vs) ->
      rfin (c_dt c) (fst (reduce E r d vs pd c)) (snd (reduce E r d vs pd c)).
    Proof. intros HE Hi Hv. unfold reduce. destruct (_ && _); [now apply g_action|]. split; [apply le_refl|]. split; [assumption|]. cbn. now apply goods_front. Qed.
    Lemma rfin_none u c : le u (c_dt c) -> kinv c -> rfin u None c.
    Proof. intros H1 H2. split; [assumption|]. split; [assumption|exact I]. Qed.
    Lemma rfin_step u u1 v c : le u u1 -> rfin u1 v c -> rfin u v c.
    Proof. intros H (A & B & C). split; [eauto|]. now split. Qed.
    Lemma g_do_parse E r d body pos c len val c' : goodenv E -> okr c -> kinv c -> nrv false body = true ->
      do_parse E rec r d body pos c = Ok (len, val, c') -> rfin (c_dt c) val c'.
    Proof.
      intros HE Hc Hi Hb H. unfold do_parse in H. cbv zeta in H.
      set (c1 := match e_enter E r with Some f => _ | None => c end) in *.
      assert (Hc1 : okr c1) by (unfold c1; destruct (e_enter E r); exact Hc).
      assert (Hi1 : le (c_dt c) (c_dt c1) /\ kinv c1).
      { unfold c1. destruct (e_enter E r) as [f|] eqn:He; [|split; [apply le_refl|assumption]].
        pose proof (ge_enter _ HE r f pos (c_dt c) He) as Hl. split; [exact Hl|]. now apply kinv_dt. }
      destruct Hi1 as [Hl1 Hi1]. eapply rfin_step; [exact Hl1|].
      binv H. eapply (g_body E) in Hm as (A & B & C); eauto; [|constructor].
      match type of H with match ?x with (_, _) => _ end = _ => destruct x as [[len' val'] c3] eqn:Hmid end.
      assert (Hx : rfin (c_dt c1) val' c3).
      { destruct r0 as [n|].
        2: { inv Hmid. apply rfin_none; match goal with |- context [if ?b then _ else _] => destruct b end; try exact A; try exact B; same. }
        set (vs2 := if is_choice_like _ then _ else _) in Hmid.
        assert (Hv2 : goods (c_dt k) (v_vals vs2)) by (unfold vs2; destruct (is_choice_like _); exact C).
        assert (Hred : forall pd len'' v c'', (if c_rcv k then (Some n, None, k) else let (v, c') := reduce E r d vs2 pd k in (Some n, v, c')) = (len'', v, c'') -> rfin (c_dt c1) v c'').
        { intros pd len'' v' c'' Hr. destruct (c_rcv k); [inv Hr; now apply rfin_none|].
          pose proof (g_reduce E r d vs2 pd k HE B Hv2) as G.
          destruct (reduce E r d vs2 pd k) as [v'' c'3]. inv Hr. eapply rfin_step; [exact A|exact G]. }
        destruct (e_pred E r) as [p|]; [|now apply Hred in Hmid].
        destruct (p _ _ _) as [[[] msg] pd]; [now apply Hred in Hmid|]. inv Hmid.
        apply rfin_none; match goal with |- context [if ?b then _ else _] => destruct b end; try exact A; try exact B; same. }
      destruct Hx as (A' & B' & C'). destruct (e_leave E r) as [f|] eqn:Hlv.
      - destruct (f _ _ _ _ _) as [v'' dt] eqn:Hf. inv H. destruct (ge_leave _ HE r f pos len val' (c_dt c3) Hlv C') as [L1 L2]. rewrite Hf in L1, L2.
        split; [csimpl; eauto|]. split; [now apply kinv_dt|exact L2].
      - inv H. now split.
    Qed.
    Definition fn_good (fn : ctx -> outcome (option nat * option V * ctx)) : Prop :=
      forall c len val c', okr c -> kinv c -> fn c = Ok (len, val, c') -> rfin (c_dt c) val c'.
    Lemma rfin_ctx u v c c' : rfin u v c -> c_lrm c' = c_lrm c -> c_pkv c' = c_pkv c -> c_dt c' = c_dt c -> rfin u v c'.
    Proof. intros (A & B & C) H1 H2 H3. unfold rfin. rewrite H3. split; [assumption|]. split; [eapply kinv_same; eauto|assumption]. Qed.
    Lemma g_packrat E pos r fn c len val c' : okr c -> kinv c -> fn_good fn ->
      packrat E pos r fn c = Ok (len, val, c') -> rfin (c_dt c) val c'.
    Proof.
      intros Hc Hi Hfn. unfold packrat. destruct (e_slot E r) as [s|] eqn:Hs; cbv zeta.
      - destruct (_ <? _); [|discriminate]. destruct (nfind (c_pkr c) _) as [[n|]|] eqn:Hn; intros H.
        + inv H. split; [apply le_refl|]. split; [assumption|]. destruct (nfind (c_pkv c') _) eqn:Hv; [|exact I]. cbn. eapply nfind_good; eauto.
        + inv H. apply rfin_none; [apply le_refl|assumption].
        + binv H. inv H. apply Hfn in Hm as (A & B & C); [|exact Hc|same]. destruct len; [|now split].
          unfold rfin. rewrite dt_write. split; [exact A|]. split; [now apply kinv_write|exact C].
      - intros H. destruct (nfind _ _).
        + destruct (_ =? _); [inv H; apply rfin_none; [apply le_refl|assumption]|]. binv H. inv H. apply Hfn in Hm; [|exact Hc|same]. eapply rfin_ctx; [exact Hm|reflexivity..].
        + binv H. inv H. apply Hfn in Hm; [|exact Hc|same]. eapply rfin_ctx; [exact Hm|reflexivity..].
    Qed.
    Lemma g_guard pos r fn c len val c' : okr c -> kinv c -> fn_good fn ->
      guard pos r fn c = Ok (len, val, c') -> rfin (c_dt c) val c'.
    Proof.
      intros Hc Hi Hfn. unfold guard. intros H. destruct (lr_find _ _); [inv H; apply rfin_none; [apply le_refl|assumption]|].
      binv H. inv H. apply Hfn in Hm as (A & B & C); [|exact Hc|apply kinv_lrm_set; [assumption|exact I]].
      split; [exact A|]. split; [now apply kinv_lrm_erase|exact C].
    Qed.
    Lemma okr_clear E pos r c : okr c -> okr (clear_packrat_cache E pos r c).
    Proof. intros H. exact (okr_frame _ _ (frame_clear E pos r c) H). Qed.
    Lemma g_grow E r d body cycle pos : goodenv E -> nrv false body = true -> forall fuel len val c len' val' c',
      okr c -> kinv c -> goodO (c_dt c) val ->
      lr_grow fuel E rec r d body cycle pos len val c = Ok (len', val', c') -> rfin (c_dt c) val' c'.
    Proof.
      intros HE Hb. induction fuel as [|fuel IH]; intros len val c len' val' c' Hc Hi Hv H; cbn [lr_grow] in H; [discriminate|]. cbv zeta in H.
      binv H. set (c2 := clear_cycle pos r cycle (clear_packrat_cache E pos r c)) in *.
      assert (Hc2 : okr c2) by exact (okr_clear E pos r c Hc).
      assert (Hd2 : c_dt c2 = c_dt c) by (unfold c2, clear_cycle; csimpl; apply dt_clear).
      pose proof (frame_do_parse rec Hfr _ _ _ _ _ _ _ _ _ Hm) as Hf.
      eapply g_do_parse in Hm as (A & B & C); eauto; [|now apply kinv_clear_cycle, kinv_clear]. rewrite Hd2 in A.
      assert (Hold : goodO (c_dt k) val) by (eapply goodO_mono; eauto). destruct r0 as [n|].
      - destruct (_ <=? _); [inv H; now split|].
        eapply rfin_step; [exact A|]. eapply (IH n v) in H; [exact H|exact (okr_frame _ _ Hf Hc2)| |exact C]. now apply kinv_lrm_set.
      - inv H. now split.
    Qed.
    Lemma g_lr fuel E r d body pos c len val c' : goodenv E -> okr c -> kinv c -> nrv false body = true ->
      parse_lr fuel E rec r d body pos c = Ok (len, val, c') -> rfin (c_dt c) val c'.
    Proof.
      intros HE Hc Hi Hb. unfold parse_lr. cbv zeta. destruct (lr_find _ _) as [[[n|] v]|] eqn:Hl; intros H.
      - inv H. split; [apply le_refl|]. split; [same|]. eapply lr_find_good in Hl; eauto.
      - inv H. apply rfin_none; [apply le_refl|same].
      - binv H. set (c1 := set_hits [] _) in *.
        assert (Hi1 : kinv c1). { unfold c1. eapply kinv_same; [apply (kinv_lrm_set c (r, pos) (None, None) Hi I)|reflexivity..]. }
        assert (Hc1 : okr c1) by exact Hc.
        pose proof (frame_do_parse rec Hfr _ _ _ _ _ _ _ _ _ Hm) as Hf.
        eapply g_do_parse in Hm as (A & B & C); eauto. destruct r0 as [n0|].
        + binv H. inv H. match type of Hm with lr_grow _ _ _ _ _ _ _ _ _ _ ?c0 = _ => set (c3 := c0) in * end.
          assert (Hd3 : c_dt c3 = c_dt k) by reflexivity.
          assert (Hi3 : kinv c3) by (eapply kinv_lrm_set; [same|exact C]).
          eapply g_grow in Hm as (A' & B' & C'); [|assumption|assumption|exact (okr_frame _ _ Hf Hc1)|exact Hi3|exact C].
          unfold rfin. csimpl. rewrite dt_write. split; [eapply le_trans; [exact A|exact A']|]. split; [eapply kinv_same; [apply kinv_write; eassumption|reflexivity..]|exact C'].
        + inv H. apply rfin_none; [exact A|same].
    Qed.
    Lemma g_hld fuel E r pos vs c len vs' c' : goodenv E -> okr c -> kinv c -> goods (c_dt c) (v_vals vs) ->
      parse_hld fuel E rec r pos vs c = Ok (len, vs', c') -> fin (c_dt c) vs' c'.
    Proof.
      intros HE Hc Hi Hv. unfold parse_hld. intros H. binv H. unfold get_rule in Hm.
      destruct (nth_error (e_g E) r) as [d|] eqn:Hd; [|discriminate]. inv Hm.
      destruct (r_body a) as [body|] eqn:Hb; [|discriminate]. pose proof (ge_rule _ HE r a body Hd Hb) as Hnb.
      destruct (r_is_macro a) eqn:Hmac.
      { destruct (r_lr a); [discriminate|]. binv H. eapply Hrec in Hm; [|assumption|exact Hc|same|exact Hnb|exact Hv].
        inv H. eapply fin_ctx; [exact Hm|reflexivity..]. }
      destruct (e_recog E && negb (r_lr a)) eqn:Hq.
      { destruct (e_packrat E).
        - destruct (e_slot E r).
          + cbv zeta in H. destruct (_ <? _); [|discriminate].
            destruct (nfind _ _) as [o|]; [inv H; now apply fin_same|].
            binv H. inv H. eapply g_body in Hm as (A & B & C); [|assumption|exact Hc|same|exact Hv|exact Hnb]. destruct len; [|now split].
            unfold fin. rewrite dt_write. split; [exact A|]. split; [|exact C]. apply kinv_write; [assumption|exact I].
          + destruct (nfind _ _).
            * destruct (_ =? _); [inv H; now apply fin_same|].
              binv H. inv H. eapply g_body in Hm; [|assumption|exact Hc|same|exact Hv|exact Hnb]. eapply fin_ctx; [exact Hm|reflexivity..].
            * binv H. inv H. eapply g_body in Hm; [|assumption|exact Hc|same|exact Hv|exact Hnb]. eapply fin_ctx; [exact Hm|reflexivity..].
        - destruct (lr_find _ _); [inv H; now apply fin_same|].
          binv H. inv H. eapply g_body in Hm as (A & B & C); [|assumption|exact Hc| |exact Hv|exact Hnb].
          + split; [exact A|]. split; [now apply kinv_lrm_erase|exact C].
          + apply kinv_lrm_set; [assumption|exact I]. }
      binv H.
      assert (Hx : rfin (c_dt c) v k).
      { destruct (r_lr a); [eapply g_lr; eauto|]. destruct (e_packrat E) eqn:Hp; [eapply g_packrat; eauto|eapply g_guard; eauto];
          intros c0 l0 v0 c0' Hc0 Hi0 Hdp; eapply g_do_parse; eauto. }
      destruct Hx as (A & B & C). pose proof (goods_mono _ _ _ Hv A) as Hv'. destruct r0 as [n|]; inv H; [|now split].
      split; [exact A|]. split; [exact B|].
      destruct (negb (r_ignore a) && _); [|assumption]. cbn [push_val v_vals]. apply Forall_app. split; [assumption|]. constructor; [exact C|constructor].
    Qed.
    Lemma g_dispatch E rl iarg args pos vs c len vs' c' : goodenv E -> okr c -> kinv c -> goods (c_dt c) (v_vals vs) -> forallb (nrv false) args = true ->
      parse_dispatch E rec rl iarg args pos vs c = Ok (len, vs', c') -> fin (c_dt c) vs' c'.
    Proof.
      intros HE Hc Hi Hv Ha. unfold parse_dispatch. intros H. destruct rl as [r|].
      - binv H. destruct (r_is_macro a).
        + destruct (c_rstk c) eqn:Hs; [discriminate|]. binv H. binv H.
          destruct (r_lr a); [discriminate|]. binv H. inv H. eapply (Hrec E) in Hm2; [|assumption| |same|reflexivity|exact Hv].
          * eapply fin_ctx; [exact Hm2|reflexivity..].
          * unfold okr. csimpl. cbn [forallb]. rewrite (norcv_subst_args false _ _ _ _ (okr_top _ Hc) Ha Hm1). exact Hc.
        + destruct (_ && _); [eapply Hrec; eauto; reflexivity|].
          binv H. inv H. eapply (Hrec E) in Hm0; [|assumption|exact Hc|same|reflexivity|exact Hv]. eapply fin_ctx; [exact Hm0|reflexivity..].
      - destruct (nth_error _ _) eqn:Hn; [|discriminate]. eapply Hrec; eauto.
        apply nth_error_In in Hn. pose proof (okr_top _ Hc) as Ht. rewrite forallb_forall in Ht. auto.
    Qed.
    Lemma g_ref E rl iarg args pos vs c len vs' c' : goodenv E -> okr c -> kinv c -> goods (c_dt c) (v_vals vs) -> forallb (nrv false) args = true ->
      parse_ref E rec rl iarg args pos vs c = Ok (len, vs', c') -> fin (c_dt c) vs' c'.
    Proof.
      intros HE Hc Hi Hv Ha. unfold parse_ref. destruct (e_tracer E); [|now apply g_dispatch].
      intros H. cbv zeta in H. binv H. inv H.
      match type of Hm with parse_dispatch _ _ _ _ _ _ _ ?c0 = _ => assert (Hd0 : c_dt c0 = c_dt c) by (match goal with |- c_dt (if ?b then _ else _) = _ => destruct b end; reflexivity);
        assert (Hc0 : okr c0) by (match goal with |- okr (if ?b then _ else _) => destruct b end; exact Hc);
        assert (Hi0 : kinv c0) by (match goal with |- kinv (if ?b then _ else _) => destruct b end; [same|assumption]) end.
      eapply (g_dispatch E) in Hm; eauto; [|now rewrite Hd0]. rewrite Hd0 in Hm. eapply fin_ctx; [exact Hm|reflexivity..].
    Qed.
    Lemma g_prec_loop E atom binop info rl : goodenv E -> nrv false atom = true -> nrv false binop = true ->
      forall fuel mp pos i vs c r vs' c', okr c -> kinv c -> goods (c_dt c) (v_vals vs) ->
      prec_loop fuel E rec atom binop info rl mp pos i vs c = Ok (r, vs', c') -> fin (c_dt c) vs' c'.
    Proof.
      intros HE Hna Hnb. induction fuel as [|fuel IH]; intros mp pos i vs c r vs' c' Hc Hi Hv H; cbn [prec_loop] in H.
      { destruct (_ <? _); [discriminate|]. inv H. now apply fin_same. }
      destruct (_ <? _); [|inv H; now apply fin_same].
      binv H. pose proof (Hfr _ _ _ _ _ _ _ _ Hm) as Hf. pose proof (okr_frame _ _ Hf Hc) as Hk.
      eapply (Hrec E binop) in Hm as (A & B & C); [|assumption|exact Hc|assumption|assumption|constructor].
      pose proof (goods_mono _ _ _ Hv A) as Hv'.
      assert (Hstop : fin (c_dt c) vs k) by (split; [exact A|]; now split).
      destruct r0 as [chlen|]; [|inv H; exact Hstop]. cbv zeta in H.
      destruct (binfo_find _ _) as [[level la]|]; [|inv H; exact Hstop].
      destruct (level <? mp); [inv H; exact Hstop|].
      destruct (v_vals v) as [|opv vrest] eqn:Hvv; [discriminate|].
      assert (Ho : goodO (c_dt k) opv) by (now inversion C).
      eapply fin_step; [exact A|].
      binv H.
      assert (Hv1 : goods (c_dt k) (v_vals vs ++ [opv])) by (apply Forall_app; split; [assumption|]; constructor; [exact Ho|constructor]).
      assert (Hrhs : fin (c_dt k) v0 k0 /\ okr k0).
      { binv Hm. pose proof (Hfr _ _ _ _ _ _ _ _ Hm0) as Hf0. pose proof (okr_frame _ _ Hf0 Hk) as Hk0.
        eapply (Hrec E atom) in Hm0 as (A0 & B0 & C0); [|assumption|exact Hk|assumption|assumption|constructor].
        destruct r1 as [n1|]; [|inv Hm; split; [now split|assumption]].
        binv Hm. binv Hm. inv Hm. match goal with Hq : prec_loop _ _ _ _ _ _ _ _ _ _ _ _ = _ |- _ => rename Hq into Hq' end.
        pose proof (frame_prec_loop rec Hfr _ _ _ _ _ _ _ _ _ _ _ _ _ _ Hq') as Hf2.
        eapply IH in Hq' as (A2 & B2 & C2); [|exact Hk0|same|exact C0].
        split; [|exact (okr_frame _ _ Hf2 Hk0)]. split; [eapply le_trans; [exact A0|exact A2]|]. split; [same|exact C2]. }
      destruct Hrhs as ((A1 & B1 & C1) & Hk1). eapply fin_step; [exact A1|].
      pose proof (goods_mono _ _ _ Hv1 A1) as Hv1'.
      destruct r0 as [l2|]; [|inv H; apply fin_same; [reflexivity|assumption|eapply goods_mono; [exact Hv'|exact A1]]].
      destruct (v_vals v0) as [|rv rrest] eqn:Hv0; [discriminate|].
      assert (Hr : goodO (c_dt k0) rv) by (now inversion C1).
      set (vs2 := set_vals (v_vals (set_vals (v_vals vs ++ [opv]) vs) ++ [rv]) (set_vals (v_vals vs ++ [opv]) vs)) in *.
      assert (Hv2 : goods (c_dt k0) (v_vals vs2)) by (change (v_vals vs2) with ((v_vals vs ++ [opv]) ++ [rv]); apply Forall_app; split; [assumption|]; constructor; [exact Hr|constructor]).
      match type of H with match ?x with (_, _) => _ end = _ => destruct x as [[val vs3] c3] eqn:Hmid end.
      assert (Hx : rfin (c_dt k0) val c3 /\ okr c3).
      { destruct (has_action E k0 rl).
        - set (vsx := set_span (pos, i + chlen + l2) vs2) in *.
          pose proof (g_action E rl vsx None k0 HE B1 Hv2) as G.
          pose proof (frame_action E rl vsx None k0) as Hfa.
          destruct (run_action E rl vsx None k0) as [v' cx]. inv Hmid. split; [exact G|exact (okr_frame _ _ Hfa Hk1)].
        - inv Hmid. split; [|assumption]. split; [apply le_refl|]. split; [assumption|]. exact (goods_front _ _ Hv2). }
      destruct Hx as ((A3 & B3 & C3) & Hk3).
      eapply fin_step; [exact A3|]. eapply IH in H; eauto. cbn. constructor; [exact C3|constructor].
    Qed.
    Lemma g_prec E atom binop info rl fuel pos vs c r vs' c' : goodenv E -> okr c -> kinv c -> goods (c_dt c) (v_vals vs) -> nrv false atom = true -> nrv false binop = true ->
      parse_prec fuel E rec atom binop info rl pos vs c = Ok (r, vs', c') -> fin (c_dt c) vs' c'.
    Proof.
      intros HE Hc Hi Hv Ha Hb. unfold parse_prec. intros H. binv H. pose proof (Hfr _ _ _ _ _ _ _ _ Hm) as Hf.
      eapply (Hrec E atom) in Hm as (A & B & C); eauto.
      destruct r0 as [la|]; [|inv H; now split].
      binv H. binv H. inv H. eapply fin_step; [exact A|]. eapply (g_prec_loop E) in Hm0; [eapply fin_ctx; [exact Hm0|reflexivity..]|assumption|assumption|assumption|exact (okr_frame _ _ Hf Hc)|same|exact C].
    Qed.

    Lemma g_core fuel E o pos vs c r vs' c' : goodenv E -> okr c -> kinv c -> nrv false o = true -> goods (c_dt c) (v_vals vs) ->
      parse_core fuel rec E o pos vs c = Ok (r, vs', c') -> fin (c_dt c) vs' c'.
    Proof.
      intros HE Hc Hi Hn Hv H.
      destruct o; cbn [parse_core nrv] in *; try discriminate H; try discriminate Hn;
        eauto 3 using g_seq, g_cho, g_rep, g_dic, g_literal, g_tok, g_hld, g_ref.
      - unfold parse_and in H. binv H. eapply Hrec in Hm; eauto. inv H. now apply fin_rollback.
      - unfold parse_not in H. cbv zeta in H. binv H.
        match type of Hm with rec _ _ _ _ ?c0 = _ => assert (Hc0 : okr c0) by exact Hc; assert (Hi0 : kinv c0) by (first [assumption|same]) end.
        eapply Hrec in Hm; eauto. 
        destruct r0; inv H; apply (fin_rollback _ vs _ c) in Hm.
        + apply fin_err. eapply fin_ctx; [exact Hm|reflexivity..].
        + eapply fin_ctx; [exact Hm|reflexivity..].
      - unfold parse_cls, fail_at in H. destruct (_ =? 0); [inv H; now apply fin_err, fin_same|].
        binv H. binv H. destruct (xorb _ _); inv H; [now apply fin_same|now apply fin_err, fin_same].
      - unfold parse_chr, fail_at in H. destruct (_ =? 0); [inv H; now apply fin_err, fin_same|].
        binv H. destruct (_ =? _)%N; inv H; [now apply fin_same|now apply fin_err, fin_same].
      - unfold parse_dot, fail_at in H. binv H. destruct (_ <? _); inv H; [now apply fin_err, fin_same|now apply fin_same].
      - unfold parse_csc in H. binv H. eapply Hrec in Hm; eauto. inv H. eapply fin_ctx; [exact Hm|reflexivity..].
      - unfold parse_cap in H. binv H. eapply Hrec in Hm; eauto. destruct r0; inv H; (eapply fin_ctx; [exact Hm|reflexivity..]).
      - unfold parse_ign in H. binv H. inv H. eapply (Hrec E o) in Hm; [|assumption|exact Hc|assumption|exact Hn|constructor]. eapply fin_vals; eauto.
      - unfold parse_usr in H. destruct (e_user _ _ _ _ _ _) as [[? ?] ?] eqn:Hu. inv H. destruct (ge_user _ HE id pos vs (c_dt c) Hv) as [K1 K2]. rewrite Hu in K1, K2. cbn [fst snd] in *.
        split; [exact K1|]. split; [now apply kinv_dt|exact K2].
      - eapply Hrec; eauto. reflexivity.
      - unfold parse_wsp in H. destruct (c_inws c); [inv H; now apply fin_same|].
        binv H. eapply Hrec in Hm; [|assumption|exact Hc|same|exact Hn|exact Hv]. inv H. eapply fin_ctx; [exact Hm|reflexivity..].
      - unfold parse_bkr in H. destruct (last_capture _ _).
        + eapply g_literal; eauto.
        + inv H. repeat match goal with |- context [if ?b then _ else _] => destruct b end; apply fin_same; first [reflexivity|assumption|same].
      - apply andb_prop in Hn as [Ha Hb]. exact (g_prec E o1 o2 info rule fuel pos vs c r vs' c' HE Hc Hi Hv Ha Hb H).
      - inv H. apply fin_same; [apply dt_cut_top|now apply kinv_cut_top|assumption].
    Qed.
  End Ops.

  Theorem parse_good fuel : forall E o pos vs c r vs' c',
    goodenv E -> okr c -> kinv c -> nrv false o = true -> goods (c_dt c) (v_vals vs) ->
    parse fuel E o pos vs c = Ok (r, vs', c') -> fin (c_dt c) vs' c'.
  Proof.
    induction fuel as [|fuel IH]; intros E o pos vs c r vs' c' HE Hc Hi Hn Hv H; cbn [parse] in H; [discriminate|].
    pose proof (g_core (parse fuel) IH (parse_frame fuel)) as Hcore.
    unfold traced in H. destruct (is_traceable E o c).
    - binv H. inv H. eapply Hcore in Hm; [|assumption|exact Hc|same|exact Hn|exact Hv]. eapply fin_ctx; [exact Hm|reflexivity..].
    - eapply Hcore in H; eauto.
  Qed.
End Good.
