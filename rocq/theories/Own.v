(** * Values made by a parse are fresh and not shared, when no value is taken from a memo
    table: the callbacks allocate in the user data; evaluating an operator leaves everything
    allocated before as it was, and the values in a scope own disjoint parts of what was
    allocated since the scope was opened (used for C42). *)
From Verif Require Import Base BaseLemmas Utf8 Escape TrieM LineInfo Ope Ctx ErrLog Engine EngineLemmas Frame Scope Bounds Loc.

Section Own.
  Context {V U : Type}.
  Notation env := (env V U).
  Notation ctx := (ctx V U).
  Notation sv := (sv V).
  Implicit Types (E : env) (c : ctx) (vs : sv).

  (** [mark u]: how much has been allocated; [kept m u u']: [u'] comes after [u] and what
      was allocated before [m] is the same in both; [forest lo u l]: the values [l] own
      disjoint parts of what was allocated from [lo] on. *)
  Variable mark : U -> nat.
  Variable kept : nat -> U -> U -> Prop.
  Variable forest : nat -> U -> list (option V) -> Prop.
  Hypothesis kept_refl : forall m u, kept m u u.
  Hypothesis kept_trans : forall m u u1 u2, kept m u u1 -> kept m u1 u2 -> kept m u u2.
  Hypothesis kept_less : forall m m' u u', kept m u u' -> m' <= m -> kept m' u u'.
  Hypothesis kept_mark : forall m u u', kept m u u' -> mark u <= mark u'.
  Hypothesis forest_nil : forall lo u, lo <= mark u -> forest lo u [].
  Hypothesis forest_mark : forall lo u l, forest lo u l -> lo <= mark u.
  Hypothesis forest_app : forall lo u u' l l', forest lo u l -> kept (mark u) u u' -> forest (mark u) u' l' -> forest lo u' (l ++ l').
  Hypothesis forest_lo : forall lo lo' u l, forest lo u l -> lo' <= lo -> forest lo' u l.
  Hypothesis forest_front : forall lo u l, forest lo u l -> forest lo u [front l].
  Hypothesis forest_none : forall lo u, lo <= mark u -> forest lo u [None].

  Lemma forest_kept lo u u' l : forest lo u l -> kept (mark u) u u' -> forest lo u' l.
  Proof. intros H1 H2. rewrite <- (app_nil_r l). eapply forest_app; eauto. Qed.
  Definition step u u' : Prop := kept (mark u) u u'.
  Lemma step_refl u : step u u. Proof. apply kept_refl. Qed.
  Lemma step_trans u u1 u2 : step u u1 -> step u1 u2 -> step u u2.
  Proof. intros H1 H2. eapply kept_trans; [exact H1|]. eapply kept_less; [exact H2|]. eapply kept_mark; exact H1. Qed.
  Lemma step_kept lo u l u' : forest lo u l -> step u u' -> kept lo u u'.
  Proof. intros H1 H2. eapply kept_less; [exact H2|]. eauto. Qed.

  Record owned E : Prop := {
    ow_action : forall r f vs lo u pd, e_action E r = Some f -> forest lo u (v_vals vs) ->
                kept lo u (snd (f (e_input E) vs u pd)) /\ forest lo (snd (f (e_input E) vs u pd)) [fst (f (e_input E) vs u pd)];
    ow_enter : forall r f pos u, e_enter E r = Some f -> step u (f (e_input E) pos u);
    ow_leave : forall r f pos n v lo u, e_leave E r = Some f -> forest lo u [v] ->
               step u (snd (f (e_input E) pos n v u)) /\ forest lo (snd (f (e_input E) pos n v u)) [fst (f (e_input E) pos n v u)];
    ow_user : forall id lo pos vs u, forest lo u (v_vals vs) ->
              step u (snd (e_user E id (e_input E) pos vs u)) /\ forest lo (snd (e_user E id (e_input E) pos vs u)) (v_vals (snd (fst (e_user E id (e_input E) pos vs u))));
    ow_packrat : e_packrat E = false;
    ow_lr : forall r d, nth_error (e_g E) r = Some d -> r_lr d = false;
    ow_pre : forall r d body, nth_error (e_g E) r = Some d -> r_body d = Some body ->
             nopre body = true \/ (r_is_macro d = false /\ exists a b i, body = Pre a b i r /\ nopre a = true /\ nopre b = true)
  }.

  Lemma dt_error_pos E pos lit c : c_dt (set_error_pos E pos lit c) = c_dt c.
  Proof.
    unfold set_error_pos. destruct (c_log c); [|reflexivity]. destruct (ole _ _); [|reflexivity]. cbv zeta.
    repeat match goal with |- context [match ?x with _ => _ end] => destruct x end; reflexivity.
  Qed.
  Lemma dt_cut_top b c : c_dt (set_cut_top b c) = c_dt c.
  Proof. unfold set_cut_top. destruct (c_cut c); reflexivity. Qed.
  Lemma dt_fs_error fs id pos c : c_dt (fs_error fs id pos c) = c_dt c.
  Proof. unfold fs_error. repeat match goal with |- context [match ?x with _ => _ end] => destruct x end; reflexivity. Qed.

  Definition mayo E o vs : Prop := nopre o = true \/ (vs = sv_new /\ exists a b i q, o = Pre a b i q /\ nopre a = true /\ nopre b = true).
  Definition fin (lo : nat) (u : U) (r : option nat) (vs' : sv) (u' : U) : Prop := step u u' /\ forall n, r = Some n -> forest lo u' (v_vals vs').
  Definition rec_own (rec : rec_t) : Prop :=
    forall E o lo pos vs c r vs' c', owned E -> scoped E -> okargs c -> mayo E o vs -> forest lo (c_dt c) (v_vals vs) ->
    rec E o pos vs c = Ok (r, vs', c') -> fin lo (c_dt c) r vs' (c_dt c').
  Lemma fin_none lo u vs u' : u' = u -> fin lo u None vs u'.
  Proof. intros ->. split; [apply step_refl|discriminate]. Qed.
  Lemma fin_some lo u n vs u' : u' = u -> forest lo u (v_vals vs) -> fin lo u (Some n) vs u'.
  Proof. intros -> H. split; [apply step_refl|]. intros k Hk. exact H. Qed.
  Lemma fin_same lo u r vs u' : u' = u -> forest lo u (v_vals vs) -> fin lo u r vs u'.
  Proof. intros -> H. split; [apply step_refl|]. intros k Hk. exact H. Qed.
  Lemma fin_step lo u u1 r vs u2 : step u u1 -> fin lo u1 r vs u2 -> fin lo u r vs u2.
  Proof. intros H [A B]. split; [eapply step_trans; eauto|exact B]. Qed.
  Lemma fin_fail lo u vs u' : step u u' -> fin lo u None vs u'.
  Proof. intros H. split; [exact H|discriminate]. Qed.

  Section Ops.
    Variable rec : @rec_t V U.
    Hypothesis Hrec : rec_own rec.
    Hypothesis Hext : rec_ext rec.
    Hypothesis Hfr : rec_frame rec.

    Lemma o_rec E o lo pos vs c r vs' c' : owned E -> scoped E -> okargs c -> nopre o = true -> forest lo (c_dt c) (v_vals vs) ->
      rec E o pos vs c = Ok (r, vs', c') -> fin lo (c_dt c) r vs' (c_dt c').
    Proof. intros. eapply Hrec; eauto. now left. Qed.
    Lemma o_skip E lo pos vs c r vs' c' : owned E -> scoped E -> okargs c -> forest lo (c_dt c) (v_vals vs) ->
      skip_whitespace E rec pos vs c = Ok (r, vs', c') -> fin lo (c_dt c) r vs' (c_dt c').
    Proof.
      intros HE HS Hc Hv. unfold skip_whitespace. destruct (e_ws E) eqn:Hw; intros H.
      - destruct (0 <? c_tb c); [inv H; now apply fin_some|].
        binv H. eapply (o_rec E _ lo) in Hm as [A B]; [inv H; split; [exact A|exact B]|assumption|assumption|exact Hc| |exact Hv].
        eapply sc_ws; eauto.
      - inv H. now apply fin_some.
    Qed.
    Lemma o_then_skip E lo pos n vs c r vs' c' : owned E -> scoped E -> okargs c -> forest lo (c_dt c) (v_vals vs) ->
      then_skip E rec pos n vs c = Ok (r, vs', c') -> fin lo (c_dt c) r vs' (c_dt c').
    Proof.
      intros HE HS Hc Hv. unfold then_skip. intros H. binv H. eapply o_skip in Hm as [A B]; eauto. inv H. split; [assumption|].
      intros k Hk. destruct r0 as [w|]; inv Hk. now apply (B w).
    Qed.
    Lemma o_literal E lo lit ic pos vs c r vs' c' : owned E -> scoped E -> okargs c -> forest lo (c_dt c) (v_vals vs) ->
      parse_literal E rec lit ic pos vs c = Ok (r, vs', c') -> fin lo (c_dt c) r vs' (c_dt c').
    Proof.
      intros HE HS Hc Hv. unfold parse_literal. intros H. binv H. destruct a.
      - binv H. destruct a; [eapply o_then_skip in H; eauto|]. inv H. apply fin_none, dt_error_pos.
      - inv H. apply fin_none, dt_error_pos.
    Qed.
    Lemma o_dic E lo t pos vs c r vs' c' : owned E -> scoped E -> okargs c -> forest lo (c_dt c) (v_vals vs) ->
      parse_dic E rec t pos vs c = Ok (r, vs', c') -> fin lo (c_dt c) r vs' (c_dt c').
    Proof.
      intros HE HS Hc Hv. unfold parse_dic, fail_at. intros H. destruct (trie_match _ _) as [i id].
      destruct (i =? 0); [inv H; apply fin_none, dt_error_pos|]. cbv zeta in H. binv H. destruct a.
      - eapply o_then_skip in H; eauto.
      - inv H. apply fin_none, dt_error_pos.
    Qed.
    Lemma o_kg E lo kw pos vs c r vs' c' : owned E -> scoped E -> okargs c -> forest lo (c_dt c) (v_vals vs) ->
      parse_keyword_guarded E rec kw pos vs c = Ok (Some (r, vs', c')) -> fin lo (c_dt c) r vs' (c_dt c').
    Proof.
      intros HE HS Hc Hv. unfold parse_keyword_guarded. cbv zeta. intros H.
      destruct (_ <? 1); [inv H; apply fin_none, dt_error_pos|].
      binv H. destruct (btest _ _); [|inv H; apply fin_none, dt_error_pos]. binv H.
      assert (Hgo : forall x,
        (let* r := then_skip E rec pos (S a0) (if e_recog E then vs else push_tok (pos, S a0) vs) c in
         Ok (Some r)) = Ok (Some x) -> fin lo (c_dt c) (fst (fst x)) (snd (fst x)) (c_dt (snd x))).
      { intros [[r1 v1] c1] Hx. binv Hx. inv Hx. cbn [fst snd]. eapply o_then_skip in Hm1; eauto. destruct (e_recog E); exact Hv. }
      destruct (_ && _).
      - destruct (existsb _ _); [inv H; apply fin_none, dt_error_pos|].
        destruct (existsb _ _); [discriminate|]. apply Hgo in H. assumption.
      - apply Hgo in H. assumption.
    Qed.
    Lemma o_seq_loop E lo l : owned E -> scoped E -> forallb nopre l = true -> forall pos i vs c r vs' c', okargs c -> forest lo (c_dt c) (v_vals vs) ->
      seq_loop E rec l pos i vs c = Ok (r, vs', c') -> fin lo (c_dt c) r vs' (c_dt c').
    Proof.
      intros HE HS. induction l as [|o l IH]; cbn [seq_loop forallb]; intros Hn pos i vs c r vs' c' Hc Hv H.
      - inv H. now apply fin_some.
      - apply andb_prop in Hn as [Ho Hl]. binv H. pose proof (Hfr _ _ _ _ _ _ _ _ Hm) as Hf.
        eapply (o_rec E _ lo) in Hm as [A B]; eauto. destruct r0.
        + eapply fin_step; [exact A|]. eapply IH in H; eauto using okargs_frame.
        + inv H. now apply fin_fail.
    Qed.
    Lemma o_seq E lo kg l pos vs c r vs' c' : owned E -> scoped E -> okargs c -> forest lo (c_dt c) (v_vals vs) -> forallb nopre l = true ->
      parse_seq E rec kg l pos vs c = Ok (r, vs', c') -> fin lo (c_dt c) r vs' (c_dt c').
    Proof.
      intros HE HS Hc Hv Hn. unfold parse_seq. destruct kg; intros H.
      - binv H. destruct a as [[[r1 v1] c1]|].
        + inv H. eapply o_kg; eauto.
        + eapply o_seq_loop; eauto.
      - eapply o_seq_loop; eauto.
    Qed.
    Lemma o_cho_loop E lo fs total l : owned E -> scoped E -> forallb nopre l = true ->
      forall id pos vs c r vs' c', okargs c -> forest lo (c_dt c) (v_vals vs) ->
      cho_loop E rec fs total l id pos vs c = Ok (r, vs', c') -> fin lo (c_dt c) r vs' (c_dt c').
    Proof.
      intros HE HS. induction l as [|o l IH]; cbn [cho_loop forallb]; intros Hn id pos vs c r vs' c' Hc Hv H.
      - inv H. now apply fin_none.
      - apply andb_prop in Hn as [Ho Hl]. binv H. destruct a.
        + rewrite <- (dt_fs_error fs id pos c). eapply IH in H; eauto; [eapply okargs_frame; [apply frame_fs_error|assumption]|now rewrite dt_fs_error].
        + cbv zeta in H. binv H.
          set (c2 := set_err _ _) in *.
          assert (Hc2 : okargs c2).
          { unfold c2, okargs. csimpl. destruct (e_has_cut E); [|exact Hc].
            unfold set_cut_top. destruct (c_cut c); exact Hc. }
          assert (Hd2 : c_dt c2 = c_dt c) by (unfold c2; csimpl; destruct (e_has_cut E); [apply dt_cut_top|reflexivity]).
          pose proof (Hfr _ _ _ _ _ _ _ _ Hm0) as Hf. pose proof (Hext _ _ _ _ _ _ _ _ HS Hc2 Ho Hm0) as Hx.
          eapply (o_rec E _ lo) in Hm0 as [A B]; eauto; [|now rewrite Hd2]. rewrite Hd2 in A. destruct r0.
          * inv H. split; [exact A|]. intros m Hm'. exact (B _ eq_refl).
          * rewrite (rollback_ext _ _ Hx) in H. destruct (_ && _).
            -- inv H. now apply fin_fail.
            -- eapply fin_step; [exact A|]. eapply (IH Hl) in H; [exact H|exact (okargs_frame _ _ Hf Hc2)|]. cbn. eapply forest_kept; eauto.
    Qed.
    Lemma o_cho E lo fl fs l pos vs c r vs' c' : owned E -> scoped E -> okargs c -> forest lo (c_dt c) (v_vals vs) -> forallb nopre l = true ->
      parse_cho E rec fl fs l pos vs c = Ok (r, vs', c') -> fin lo (c_dt c) r vs' (c_dt c').
    Proof.
      intros HE HS Hc Hv Hn. unfold parse_cho. cbv zeta. intros H. binv H.
      match type of Hm with cho_loop _ _ _ _ _ _ _ _ ?c0 = _ => assert (Hd0 : c_dt c0 = c_dt c) by (destruct (_ && _); reflexivity); assert (Hc0 : okargs c0) by (destruct (_ && _); exact Hc) end.
      eapply (o_cho_loop E lo) in Hm as [A B]; eauto; [|now rewrite Hd0]. rewrite Hd0 in A. inv H.
      match goal with |- fin _ _ _ _ (c_dt ?x) => assert (Hk : c_dt x = c_dt k) by (destruct (_ && _); reflexivity) end. rewrite Hk. now split.
    Qed.
    Lemma o_rep_min E lo e m : owned E -> scoped E -> nopre e = true -> forall pos i vs c r vs' c', okargs c -> forest lo (c_dt c) (v_vals vs) ->
      rep_min E rec e m pos i vs c = Ok (r, vs', c') -> fin lo (c_dt c) r vs' (c_dt c').
    Proof.
      intros HE HS He. induction m as [|m IH]; cbn [rep_min]; intros pos i vs c r vs' c' Hc Hv H.
      - inv H. now apply fin_some.
      - binv H. pose proof (Hfr _ _ _ _ _ _ _ _ Hm) as Hf. eapply (o_rec E _ lo) in Hm as [A B]; eauto. destruct r0.
        + eapply fin_step; [exact A|]. eapply IH in H; eauto using okargs_frame.
        + inv H. now apply fin_fail.
    Qed.
    Lemma o_rep_more E lo e fuel : owned E -> scoped E -> nopre e = true -> forall room pos i vs c r vs' c', okargs c -> forest lo (c_dt c) (v_vals vs) ->
      rep_more fuel E rec e room pos i vs c = Ok (r, vs', c') -> fin lo (c_dt c) r vs' (c_dt c').
    Proof.
      intros HE HS He. induction fuel as [|fuel IH]; cbn [rep_more]; intros room pos i vs c r vs' c' Hc Hv H.
      - destruct room as [[|n]|]; try discriminate. inv H. now apply fin_some.
      - assert (Hx : (let* (r, vs', c') := rec E e (pos + i) vs c in
                match r with
                | Some len => rep_more fuel E rec e (option_map Nat.pred room) pos (i + len) vs' c'
                | None => Ok (Some i, rollback_vs vs vs', rollback_c c c')
                end) = Ok (r, vs', c') -> fin lo (c_dt c) r vs' (c_dt c')).
        { clear H. intros H. binv H. pose proof (Hfr _ _ _ _ _ _ _ _ Hm) as Hf. pose proof (Hext _ _ _ _ _ _ _ _ HS Hc He Hm) as Hx.
          eapply (o_rec E _ lo) in Hm as [A B]; eauto. destruct r0.
          - eapply fin_step; [exact A|]. eapply IH in H; eauto using okargs_frame.
          - inv H. rewrite (rollback_ext _ _ Hx). split; [exact A|]. intros n0 _. cbn. eapply forest_kept; eauto. }
        destruct room as [[|n]|]; auto. inv H. now apply fin_some.
    Qed.
    Lemma o_rep fuel E lo e mn mx span pos vs c r vs' c' : owned E -> scoped E -> okargs c -> forest lo (c_dt c) (v_vals vs) -> nopre e = true ->
      parse_rep fuel E rec e mn mx span pos vs c = Ok (r, vs', c') -> fin lo (c_dt c) r vs' (c_dt c').
    Proof.
      intros HE HS Hc Hv He. unfold parse_rep. destruct span; cbv zeta; intros H.
      - binv H. destruct (_ <? _); inv H.
        + apply fin_none, dt_error_pos.
        + apply fin_some; [|assumption].
          repeat match goal with |- context [if ?b then _ else _] => destruct b end; try reflexivity; apply dt_error_pos.
      - binv H. assert (Hf : frame c k) by (eapply frame_rep_min; eauto).
        destruct (o_rep_min E lo e mn HE HS He _ _ _ _ _ _ _ Hc Hv Hm) as [A B]. assert (Hk : okargs k) by (eapply okargs_frame; eauto). destruct r0.
        + specialize (B _ eq_refl). eapply fin_step; [exact A|]. destruct mx as [m|].
          * destruct (mn <? m).
            -- eapply o_rep_more in H; eauto.
            -- inv H. now apply fin_some.
          * eapply o_rep_more in H; eauto.
        + inv H. now apply fin_fail.
    Qed.
    Lemma o_tok E lo e pos vs c r vs' c' : owned E -> scoped E -> okargs c -> forest lo (c_dt c) (v_vals vs) -> nopre e = true ->
      parse_tok E rec e pos vs c = Ok (r, vs', c') -> fin lo (c_dt c) r vs' (c_dt c').
    Proof.
      intros HE HS Hc Hv He. unfold parse_tok. cbv zeta. intros H. binv H.
      pose proof (Hfr _ _ _ _ _ _ _ _ Hm) as Hf. eapply (o_rec E _ lo) in Hm as [A B]; [|assumption|assumption|exact Hc|assumption|exact Hv].
      destruct r0.
      - specialize (B _ eq_refl). binv H. inv H. eapply fin_step; [exact A|]. eapply (o_then_skip E lo) in Hm as [A2 B2]; [split; [exact A2|exact B2]|assumption|assumption| |].
        + eapply okargs_frame in Hf; [exact Hf|exact Hc].
        + destruct (e_recog E); exact B.
      - inv H. now apply fin_fail.
    Qed.
    Lemma o_body E lo r d body pos vs c len vs' c' : owned E -> scoped E -> okargs c -> forest lo (c_dt c) (v_vals vs) -> mayo E body vs ->
      parse_ope_body E rec r d body pos vs c = Ok (len, vs', c') -> fin lo (c_dt c) len vs' (c_dt c').
    Proof.
      intros HE HS Hc Hv Hb. unfold parse_ope_body. cbv zeta. intros H. binv H. inv H.
      set (c1 := if e_need_rules E || r_macro_ref d then set_rstk (r :: c_rstk c) c else c) in *.
      assert (Hc1 : okargs c1) by (unfold c1; destruct (_ || _); exact Hc).
      assert (Hd1 : c_dt c1 = c_dt c) by (unfold c1; destruct (_ || _); reflexivity).
      assert (Hx : fin lo (c_dt c) len vs' (c_dt k)).
      { destruct (r_no_whitespace d); [|rewrite <- Hd1; eapply Hrec; eauto; now rewrite Hd1].
        binv Hm. pose proof (Hfr _ _ _ _ _ _ _ _ Hm0) as Hf. eapply (Hrec E body lo) in Hm0 as [A B]; [|assumption|assumption|exact Hc1|exact Hb|csimpl; rewrite Hd1; exact Hv].
        match type of A with step (c_dt ?x) _ => change (c_dt x) with (c_dt c1) in A end. rewrite Hd1 in A. destruct r0.
        - eapply fin_step; [exact A|]. eapply (o_then_skip E lo) in Hm; eauto. eapply okargs_frame in Hf; [exact Hf|exact Hc1].
        - inv Hm. now apply fin_fail. }
      match goal with |- fin _ _ _ _ (c_dt ?x) => assert (Hk : c_dt x = c_dt k) by (destruct (_ || _); reflexivity) end. now rewrite Hk.
    Qed.
    (** A rule: what it makes is new. *)
    Definition rfin (u : U) (len : option nat) (val : option V) (u' : U) : Prop := step u u' /\ forest (mark u) u' [val].
    Lemma o_action E r vs pd c lo : owned E -> forest lo (c_dt c) (v_vals vs) ->
      kept lo (c_dt c) (c_dt (snd (run_action E r vs pd c))) /\ forest lo (c_dt (snd (run_action E r vs pd c))) [fst (run_action E r vs pd c)].
    Proof.
      intros HE Hv. unfold run_action. cbv zeta. destruct (e_action E r) as [f|] eqn:Ha.
      - pose proof (ow_action _ HE r f vs lo (c_dt (set_prec (map (fun p : rid * bytes => if fst p =? r then (fst p, sv_token E vs) else p) (c_prec c)) c)) pd Ha Hv) as Hl.
        destruct (f _ _ _ _). exact Hl.
      - split; [apply kept_refl|]. cbn. now apply forest_front.
    Qed.
    Lemma o_reduce E r d vs pd c lo : owned E -> forest lo (c_dt c) (v_vals vs) ->
      kept lo (c_dt c) (c_dt (snd (reduce E r d vs pd c))) /\ forest lo (c_dt (snd (reduce E r d vs pd c))) [fst (reduce E r d vs pd c)].
    Proof. intros HE Hv. unfold reduce. destruct (_ && _); [now apply o_action|]. split; [apply kept_refl|]. cbn. now apply forest_front. Qed.
    Lemma o_do_parse E r d body pos c len val c' : owned E -> scoped E -> okargs c -> mayo E body sv_new ->
      do_parse E rec r d body pos c = Ok (len, val, c') -> rfin (c_dt c) len val (c_dt c').
    Proof.
      intros HE HS Hc Hb H. unfold do_parse in H. cbv zeta in H.
      set (c1 := match e_enter E r with Some f => _ | None => c end) in *.
      assert (Hc1 : okargs c1) by (unfold c1; destruct (e_enter E r); exact Hc).
      assert (Hi1 : step (c_dt c) (c_dt c1)).
      { unfold c1. destruct (e_enter E r) as [f|] eqn:He; [|apply step_refl]. csimpl. now apply (ow_enter _ HE r f pos). }
      set (m := mark (c_dt c)).
      assert (Hf0 : forest m (c_dt c1) (v_vals (@sv_new V))) by (apply forest_nil; eapply kept_mark; exact Hi1).
      binv H. eapply (o_body E m) in Hm as [A B]; eauto.
      assert (Ak : step (c_dt c) (c_dt k)) by (eapply step_trans; eauto).
      match type of H with match ?x with (_, _) => _ end = _ => destruct x as [[len' val'] c3] eqn:Hmid end.
      assert (Hx : kept m (c_dt c) (c_dt c3) /\ forest m (c_dt c3) [val']).
      { destruct r0 as [n|].
        2: { inv Hmid.
             match goal with |- kept _ _ (c_dt ?x) /\ _ => assert (Hq : c_dt x = c_dt k) by (match goal with |- c_dt (if ?b then _ else _) = _ => destruct b end; reflexivity) end.
             rewrite Hq. split; [exact Ak|]. apply forest_none. eapply kept_mark; exact Ak. }
        set (vs2 := if is_choice_like _ then _ else _) in Hmid.
        assert (Hv2 : forest m (c_dt k) (v_vals vs2)) by (unfold vs2; destruct (is_choice_like _); exact (B _ eq_refl)).
        assert (Hred : forall pd len'' v c'', (if c_rcv k then (Some n, None, k) else let (v, c') := reduce E r d vs2 pd k in (Some n, v, c')) = (len'', v, c'') -> kept m (c_dt c) (c_dt c'') /\ forest m (c_dt c'') [v]).
        { intros pd len'' v' c'' Hr. destruct (c_rcv k); [inv Hr; split; [exact Ak|apply forest_none; eapply kept_mark; exact Ak]|].
          destruct (o_reduce E r d vs2 pd k m HE Hv2) as [K1 K2].
          destruct (reduce E r d vs2 pd k) as [v'' c'3]. inv Hr. split; [eapply kept_trans; [exact Ak|exact K1]|exact K2]. }
        destruct (e_pred E r) as [p|]; [|now apply Hred in Hmid].
        destruct (p _ _ _) as [[[] msg] pd]; [now apply Hred in Hmid|]. inv Hmid.
        match goal with |- kept _ _ (c_dt ?x) /\ _ => assert (Hq : c_dt x = c_dt k) by (match goal with |- c_dt (if ?b then _ else _) = _ => destruct b end; reflexivity) end.
        rewrite Hq. split; [exact Ak|]. apply forest_none. eapply kept_mark; exact Ak. }
      destruct Hx as [A' B']. destruct (e_leave E r) as [f|] eqn:Hlv.
      - destruct (f _ _ _ _ _) as [v'' dt] eqn:Hf. inv H. destruct (ow_leave _ HE r f pos len val' m (c_dt c3) Hlv B') as [L1 L2]. rewrite Hf in L1, L2. csimpl.
        split; [|exact L2]. eapply kept_trans; [exact A'|]. eapply step_kept; eauto.
      - inv H. now split.
    Qed.
    Lemma o_guard pos r fn c len val c' : okargs c ->
      (forall c len val c', okargs c -> fn c = Ok (len, val, c') -> rfin (c_dt c) len val (c_dt c')) ->
      guard pos r fn c = Ok (len, val, c') -> step (c_dt c) (c_dt c') /\ forall n, len = Some n -> forest (mark (c_dt c)) (c_dt c') [val].
    Proof.
      intros Hc Hfn. unfold guard. intros H. destruct (lr_find _ _); [inv H; split; [apply step_refl|discriminate]|].
      binv H. inv H. apply Hfn in Hm as [A B]; [|exact Hc]. split; [exact A|]. intros n _. exact B.
    Qed.
    Lemma o_hld fuel E lo r pos vs c len vs' c' : owned E -> scoped E -> okargs c -> forest lo (c_dt c) (v_vals vs) ->
      parse_hld fuel E rec r pos vs c = Ok (len, vs', c') -> fin lo (c_dt c) len vs' (c_dt c').
    Proof.
      intros HE HS Hc Hv. unfold parse_hld. intros H. binv H. unfold get_rule in Hm.
      destruct (nth_error (e_g E) r) as [d|] eqn:Hd; [|discriminate]. inv Hm. pose proof (ow_lr _ HE r a Hd) as Hlr. rewrite (ow_packrat _ HE), Hlr in H.
      destruct (r_body a) as [body|] eqn:Hb; [|discriminate].
      destruct (r_is_macro a) eqn:Hmac.
      { binv H. eapply (o_rec E _ lo) in Hm as [A B]; [|assumption|assumption|exact Hc| |exact Hv].
        - inv H. split; [exact A|exact B].
        - eapply sc_rule; eauto. }
      destruct (e_recog E && negb false) eqn:Hq.
      { apply andb_prop in Hq as [Hq _]. assert (Hnb : mayo E body vs) by (left; eapply sc_rule; eauto).
        destruct (lr_find _ _); [inv H; now apply fin_none|].
        binv H. inv H. eapply o_body in Hm as [A B]; [|assumption|assumption|exact Hc|exact Hv|exact Hnb]. split; [exact A|exact B]. }
      assert (Hnb : mayo E body sv_new).
      { destruct (ow_pre _ HE r a body Hd Hb) as [Hn|(_ & p1 & p2 & p3 & -> & Hn1 & Hn2)]; [now left|right; split; [reflexivity|]]. exists p1, p2, p3, r. auto. }
      binv H. apply o_guard in Hm as [A B]; [|exact Hc|intros c0 l0 v0 c0' Hc0 Hdp; eapply o_do_parse; eauto].
      destruct r0 as [n|]; inv H; [|now apply fin_fail]. split; [exact A|]. intros n' _.
      destruct (negb (r_ignore a) && _); [cbn [push_val v_vals]; csimpl; eapply forest_app; eauto|eapply forest_kept; eauto].
    Qed.
    Lemma o_dispatch E lo rl iarg args pos vs c len vs' c' : owned E -> scoped E -> okargs c -> forest lo (c_dt c) (v_vals vs) -> forallb nopre args = true ->
      parse_dispatch E rec rl iarg args pos vs c = Ok (len, vs', c') -> fin lo (c_dt c) len vs' (c_dt c').
    Proof.
      intros HE HS Hc Hv Ha. unfold parse_dispatch. intros H. destruct rl as [r|].
      - binv H. destruct (r_is_macro a).
        + destruct (c_rstk c) eqn:Hs; [discriminate|]. binv H. binv H.
          destruct (r_lr a); [discriminate|]. binv H. inv H. eapply (o_rec E _ lo) in Hm2 as [A B]; [|assumption|assumption| |reflexivity|exact Hv].
          * split; [exact A|exact B].
          * unfold okargs. csimpl. cbn [forallb]. rewrite (nopre_subst_args _ _ _ _ (okargs_top _ Hc) Hm1 Ha). exact Hc.
        + destruct (_ && _); [eapply o_rec; eauto; reflexivity|].
          binv H. inv H. eapply (o_rec E _ lo) in Hm0 as [A B]; [|assumption|assumption|exact Hc|reflexivity|exact Hv]. split; [exact A|exact B].
      - destruct (nth_error _ _) eqn:Hn; [|discriminate]. eapply o_rec; eauto.
        apply nth_error_In in Hn. pose proof (okargs_top _ Hc) as Ht. rewrite forallb_forall in Ht. auto.
    Qed.
    Lemma o_ref E lo rl iarg args pos vs c len vs' c' : owned E -> scoped E -> okargs c -> forest lo (c_dt c) (v_vals vs) -> forallb nopre args = true ->
      parse_ref E rec rl iarg args pos vs c = Ok (len, vs', c') -> fin lo (c_dt c) len vs' (c_dt c').
    Proof.
      intros HE HS Hc Hv Ha. unfold parse_ref. destruct (e_tracer E); [|now apply o_dispatch].
      intros H. cbv zeta in H. binv H. inv H.
      match type of Hm with parse_dispatch _ _ _ _ _ _ _ ?c0 = _ => assert (Hd0 : c_dt c0 = c_dt c) by (match goal with |- c_dt (if ?b then _ else _) = _ => destruct b end; reflexivity);
        assert (Hc0 : okargs c0) by (match goal with |- okargs (if ?b then _ else _) => destruct b end; exact Hc) end.
      eapply (o_dispatch E lo) in Hm as [A B]; eauto; [|now rewrite Hd0]. rewrite Hd0 in A. split; [exact A|exact B].
    Qed.
    (** A precedence expression works on the values of its own rule, all of them new. *)
    Definition pfin (m : nat) (u : U) (r : option nat) (vs' : sv) (u' : U) : Prop := kept m u u' /\ forall n, r = Some n -> forest m u' (v_vals vs').
    Lemma pfin_step m u u1 r vs u2 : kept m u u1 -> pfin m u1 r vs u2 -> pfin m u r vs u2.
    Proof. intros H [A B]. split; [eapply kept_trans; eauto|exact B]. Qed.
    Lemma o_prec_loop E atom binop info rl : owned E -> scoped E -> nopre atom = true -> nopre binop = true ->
      forall fuel m mp pos i vs c r vs' c', okargs c -> forest m (c_dt c) (v_vals vs) ->
      prec_loop fuel E rec atom binop info rl mp pos i vs c = Ok (r, vs', c') -> pfin m (c_dt c) r vs' (c_dt c').
    Proof.
      intros HE HS Hna Hnb. induction fuel as [|fuel IH]; intros m mp pos i vs c r vs' c' Hc Hv H; cbn [prec_loop] in H.
      { destruct (_ <? _); [discriminate|]. inv H. split; [apply kept_refl|]. intros; assumption. }
      destruct (_ <? _); [|inv H; split; [apply kept_refl|intros; assumption]].
      binv H. pose proof (Hfr _ _ _ _ _ _ _ _ Hm) as Hf. pose proof (okargs_frame _ _ Hf Hc) as Hk.
      eapply (o_rec E binop (mark (c_dt c))) in Hm as [A B]; [|assumption|assumption|exact Hc|assumption|now apply forest_nil].
      assert (Hstop : pfin m (c_dt c) (Some i) vs (c_dt k)) by (split; [eapply step_kept; eauto|intros; eapply forest_kept; eauto]).
      destruct r0 as [chlen|]; [|inv H; exact Hstop]. cbv zeta in H.
      destruct (binfo_find _ _) as [[level la]|]; [|inv H; exact Hstop].
      destruct (level <? mp); [inv H; exact Hstop|].
      destruct (v_vals v) as [|opv vrest] eqn:Hvv; [discriminate|].
      specialize (B _ eq_refl). pose proof (forest_front _ _ _ B) as Bo. cbn [front] in Bo.
      assert (Hv1 : forest m (c_dt k) (v_vals vs ++ [opv])) by (eapply forest_app; eauto).
      eapply pfin_step; [eapply step_kept; [exact Hv|exact A]|].
      binv H.
      assert (Hrhs : step (c_dt k) (c_dt k0) /\ okargs k0 /\ forall n, r0 = Some n -> forest (mark (c_dt k)) (c_dt k0) (v_vals v0)).
      { binv Hm. pose proof (Hfr _ _ _ _ _ _ _ _ Hm0) as Hf0. pose proof (okargs_frame _ _ Hf0 Hk) as Hk0.
        eapply (o_rec E atom (mark (c_dt k))) in Hm0 as [A0 B0]; [|assumption|assumption|exact Hk|assumption|now apply forest_nil].
        destruct r1 as [n1|]; [|inv Hm; split; [assumption|split; [assumption|discriminate]]].
        binv Hm. binv Hm. inv Hm. match goal with Hq : prec_loop _ _ _ _ _ _ _ _ _ _ _ _ = _ |- _ => rename Hq into Hq' end.
        pose proof (frame_prec_loop rec Hfr _ _ _ _ _ _ _ _ _ _ _ _ _ _ Hq') as Hf2.
        eapply (IH (mark (c_dt k))) in Hq' as [A2 B2]; [|exact Hk0|exact (B0 _ eq_refl)].
        split; [eapply kept_trans; [exact A0|exact A2]|]. split; [exact (okargs_frame _ _ Hf2 Hk0)|exact B2]. }
      destruct Hrhs as (A1 & Hk1 & B1).
      destruct r0 as [l2|]; [|inv H; split; [eapply step_kept; [exact Hv1|exact A1]|discriminate]].
      specialize (B1 _ eq_refl). destruct (v_vals v0) as [|rv rrest] eqn:Hv0; [discriminate|].
      pose proof (forest_front _ _ _ B1) as Br. cbn [front] in Br.
      set (vs2 := set_vals (v_vals (set_vals (v_vals vs ++ [opv]) vs) ++ [rv]) (set_vals (v_vals vs ++ [opv]) vs)) in *.
      assert (Hv2 : forest m (c_dt k0) (v_vals vs2)) by (change (v_vals vs2) with ((v_vals vs ++ [opv]) ++ [rv]); eapply forest_app; eauto).
      eapply pfin_step; [eapply step_kept; [exact Hv1|exact A1]|].
      match type of H with match ?x with (_, _) => _ end = _ => destruct x as [[val vs3] c3] eqn:Hmid end.
      assert (Hx : kept m (c_dt k0) (c_dt c3) /\ okargs c3 /\ forest m (c_dt c3) [val]).
      { destruct (has_action E k0 rl).
        - set (vsx := set_span (pos, i + chlen + l2) vs2) in *.
          destruct (o_action E rl vsx None k0 m HE Hv2) as [K1 K2].
          pose proof (frame_action E rl vsx None k0) as Hfa.
          destruct (run_action E rl vsx None k0) as [v' cx]. inv Hmid. split; [exact K1|]. split; [exact (okargs_frame _ _ Hfa Hk1)|exact K2].
        - inv Hmid. split; [apply kept_refl|]. split; [assumption|]. now apply forest_front. }
      destruct Hx as (A3 & Hk3 & Hl).
      eapply pfin_step; [exact A3|]. eapply IH in H; eauto.
    Qed.
    Lemma o_prec E lo atom binop info rl fuel pos c r vs' c' : owned E -> scoped E -> okargs c -> lo <= mark (c_dt c) -> nopre atom = true -> nopre binop = true ->
      parse_prec fuel E rec atom binop info rl pos sv_new c = Ok (r, vs', c') -> fin lo (c_dt c) r vs' (c_dt c').
    Proof.
      intros HE HS Hc Hlo Ha Hb. unfold parse_prec. intros H. binv H. pose proof (Hfr _ _ _ _ _ _ _ _ Hm) as Hf.
      eapply (o_rec E atom (mark (c_dt c))) in Hm as [A B]; [|assumption|assumption|exact Hc|assumption|now apply forest_nil].
      destruct r0 as [la|]; [|inv H; now apply fin_fail].
      binv H. binv H. inv H. eapply (o_prec_loop E) with (m := mark (c_dt c)) in Hm0 as [A2 B2]; eauto.
      - split; [eapply kept_trans; [exact A|exact A2]|]. intros n Hn. eapply forest_lo; [exact (B2 n Hn)|assumption].
      - exact (okargs_frame _ _ Hf Hc).
    Qed.

    Lemma o_core fuel E lo o pos vs c r vs' c' : owned E -> scoped E -> okargs c -> mayo E o vs -> forest lo (c_dt c) (v_vals vs) ->
      parse_core fuel rec E o pos vs c = Ok (r, vs', c') -> fin lo (c_dt c) r vs' (c_dt c').
    Proof.
      intros HE HS Hc Hmay Hv H.
      destruct Hmay as [Hn|(-> & a & b & i & q & -> & Ha & Hb)]; [|exact (o_prec E lo a b i q fuel pos c r vs' c' HE HS Hc (forest_mark _ _ _ Hv) Ha Hb H)].
      assert (Hrec' : forall o' p' vs0 c0 r0 vs1 c1, nopre o' = true -> okargs c0 -> forest lo (c_dt c0) (v_vals vs0) ->
        rec E o' p' vs0 c0 = Ok (r0, vs1, c1) -> fin lo (c_dt c0) r0 vs1 (c_dt c1)).
      { intros. eapply o_rec; eauto. }
      destruct o; cbn [parse_core nopre] in *; try discriminate H;
        eauto 3 using o_seq, o_cho, o_rep, o_dic, o_literal, o_tok, o_hld, o_ref.
      - unfold parse_and in H. binv H. pose proof (Hext _ _ _ _ _ _ _ _ HS Hc Hn Hm) as Hx. eapply Hrec' in Hm as [A B]; eauto. inv H.
        rewrite (rollback_ext _ _ Hx). split; [exact A|]. intros n0 Hn0. cbn. eapply forest_kept; eauto.
      - unfold parse_not in H. cbv zeta in H. binv H.
        match type of Hm with rec _ _ _ _ ?c0 = _ => assert (Hc0 : okargs c0) by exact Hc; assert (Hi0 : c_dt c0 = c_dt c) by reflexivity end.
        pose proof (Hext _ _ _ _ _ _ _ _ HS Hc0 Hn Hm) as Hx. eapply Hrec' in Hm as [A B]; eauto. 
        destruct r0; inv H; rewrite (rollback_ext _ _ Hx).
        + apply fin_fail. rewrite dt_error_pos. exact A.
        + split; [exact A|]. intros n0 Hn0. cbn. eapply forest_kept; eauto.
      - unfold parse_cls, fail_at in H. destruct (_ =? 0); [inv H; apply fin_none, dt_error_pos|].
        binv H. binv H. destruct (xorb _ _); inv H; [now apply fin_some|apply fin_none, dt_error_pos].
      - unfold parse_chr, fail_at in H. destruct (_ =? 0); [inv H; apply fin_none, dt_error_pos|].
        binv H. destruct (_ =? _)%N; inv H; [now apply fin_some|apply fin_none, dt_error_pos].
      - unfold parse_dot, fail_at in H. binv H. destruct (_ <? _); inv H; [apply fin_none, dt_error_pos|now apply fin_some].
      - unfold parse_csc in H. binv H. eapply Hrec' in Hm as [A B]; eauto. inv H. split; [exact A|exact B].
      - unfold parse_cap in H. binv H. eapply Hrec' in Hm as [A B]; eauto. destruct r0; inv H; (split; [exact A|exact B]).
      - unfold parse_ign in H. binv H. inv H. eapply (o_rec E o lo) in Hm as [A B]; [|assumption|assumption|exact Hc|exact Hn|apply forest_nil; now apply forest_mark in Hv]. split; [exact A|].
        intros m Hm. eapply forest_kept; eauto.
      - unfold parse_usr in H. destruct (e_user _ _ _ _ _ _) as [[? ?] ?] eqn:Hu. inv H. destruct (ow_user _ HE id lo pos vs (c_dt c) Hv) as [K1 K2]. rewrite Hu in K1, K2. cbn [fst snd] in *.
        split; [exact K1|]. intros n _. exact K2.
      - eapply Hrec'; eauto. reflexivity.
      - unfold parse_wsp in H. destruct (c_inws c); [inv H; now apply fin_some|].
        binv H. eapply Hrec' in Hm as [A B]; [|assumption|exact Hc|exact Hv]. inv H. split; [exact A|exact B].
      - unfold parse_bkr in H. destruct (last_capture _ _).
        + eapply o_literal; eauto.
        + inv H. apply fin_none. repeat match goal with |- context [if ?b then _ else _] => destruct b end; reflexivity.
      - discriminate.
      - unfold parse_rcv in H. destruct o; try discriminate. cbv zeta in H. binv H. binv H. binv H. inv H.
        assert (Ha : c_dt a = c_dt c /\ okargs a).
        { destruct (c_log c); [|inv Hm; now split]. destruct args as [|[]]; try discriminate; try (inv Hm; now split).
          match type of Hm with match ?x with _ => _ end = _ => destruct x end; [|discriminate]. binv Hm. destruct (r_error_message _); inv Hm; (split; [reflexivity|exact Hc]). }
        destruct Ha as [Hia Hca]. rewrite dt_cut_top.
        assert (Hia0 : c_dt a0 = c_dt c).
        { rewrite <- Hia. destruct r; [|inv Hm1; reflexivity]. destruct (c_log a); [|inv Hm1; reflexivity]. binv Hm1. inv Hm1. reflexivity. }
        rewrite Hia0. now apply fin_same.
      - inv H. apply fin_some; [apply dt_cut_top|assumption].
    Qed.
  End Ops.

  Theorem parse_own fuel : forall E o lo pos vs c r vs' c',
    owned E -> scoped E -> okargs c -> mayo E o vs -> forest lo (c_dt c) (v_vals vs) ->
    parse fuel E o pos vs c = Ok (r, vs', c') -> step (c_dt c) (c_dt c') /\ forall n, r = Some n -> forest lo (c_dt c') (v_vals vs').
  Proof.
    induction fuel as [|fuel IH]; intros E o lo pos vs c r vs' c' HE HS Hc Hmay Hv H; cbn [parse] in H; [discriminate|].
    pose proof (o_core (parse fuel) IH (parse_ext fuel) (parse_frame fuel)) as Hcore.
    unfold traced in H. destruct (is_traceable E o c).
    - binv H. inv H. eapply Hcore in Hm as [A B]; [|assumption|assumption|exact Hc|exact Hmay|exact Hv]. split; [exact A|exact B].
    - eapply Hcore in H; eauto.
  Qed.
End Own.
