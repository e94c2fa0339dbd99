(** * What every sub-parse leaves as it found it (property C40). *)
From Verif Require Import Base BaseLemmas Utf8 Escape TrieM LineInfo Ope Ctx ErrLog Engine EngineLemmas.

Section Frame.
  Context {V U : Type}.
  Notation env := (env V U).
  Notation ctx := (ctx V U).
  Notation sv := (sv V).
  Implicit Types (E : env) (c : ctx) (vs : sv).

  Record frame (c c' : ctx) : Prop := {
    f_tb : c_tb c' = c_tb c;
    f_inws : c_inws c' = c_inws c;
    f_rstk : c_rstk c' = c_rstk c;
    f_args : c_args c' = c_args c;
    f_ign : c_ign c' = c_ign c;
    f_tids : c_tids c' = c_tids c;
    f_log : c_log c' = c_log c;
    f_cutl : List.length (c_cut c') = List.length (c_cut c);
    f_cut : tl (c_cut c') = tl (c_cut c);
    f_prec : map fst (c_prec c') = map fst (c_prec c);
    f_caps : prefix (c_caps c) (c_caps c')
  }.

  Lemma frame_refl c : frame c c.
  Proof. constructor; try reflexivity. apply prefix_refl. Qed.
  Lemma frame_trans a b c : frame a b -> frame b c -> frame a c.
  Proof.
    intros [] []. constructor; try congruence. eapply prefix_trans; eauto.
  Qed.

  Definition rec_frame (rec : rec_t) : Prop :=
    forall E o pos vs c r vs' c', rec E o pos vs c = Ok (r, vs', c') -> frame c c'.

  (** Contexts that differ only in fields [frame] does not mention. *)
  Lemma frame_pure c c' :
    c_tb c' = c_tb c -> c_inws c' = c_inws c -> c_rstk c' = c_rstk c -> c_args c' = c_args c ->
    c_ign c' = c_ign c -> c_tids c' = c_tids c -> c_log c' = c_log c -> c_cut c' = c_cut c ->
    c_prec c' = c_prec c -> c_caps c' = c_caps c -> frame c c'.
  Proof. intros. constructor; try congruence. exists []. rewrite app_nil_r. congruence. Qed.

  Ltac fpure := apply frame_pure; reflexivity.

  Lemma frame_error_pos E pos lit c : frame c (set_error_pos E pos lit c).
  Proof.
    unfold set_error_pos. destruct (c_log c); [|apply frame_refl].
    destruct (ole _ _); [|apply frame_refl]. cbv zeta.
    repeat match goal with |- context [match ?x with _ => _ end] => destruct x end; fpure.
  Qed.
  Lemma frame_cut_top b c : frame c (set_cut_top b c).
  Proof.
    unfold set_cut_top. destruct (c_cut c) eqn:H; [apply frame_refl|].
    constructor; csimpl; rewrite ?H; try reflexivity. apply prefix_refl.
  Qed.
  Lemma frame_rollback c c' : frame c c' -> frame c (rollback_c c c').
  Proof.
    intros []. unfold rollback_c. constructor; csimpl; try assumption.
    rewrite resize_prefix by assumption. apply prefix_refl.
  Qed.
  Lemma rollback_caps c c' : frame c c' -> c_caps (rollback_c c c') = c_caps c.
  Proof. intros []. unfold rollback_c. csimpl. now apply resize_prefix. Qed.

  Lemma frame_traced E o pos (core : ctx -> res) c r vs' c' :
    (forall c r vs' c', core c = Ok (r, vs', c') -> frame c c') ->
    traced E o pos core c = Ok (r, vs', c') -> frame c c'.
  Proof.
    intros Hc H. unfold traced in H. destruct (is_traceable E o c); [|eauto].
    binv H. apply Hc in Hm. inv H. destruct Hm. csimpl.
    constructor; csimpl; try assumption. now rewrite f_tids0.
  Qed.

  Section Ops.
    Variable rec : @rec_t V U.
    Hypothesis Hrec : rec_frame rec.

    Lemma frame_skip E pos vs c r vs' c' :
      skip_whitespace E rec pos vs c = Ok (r, vs', c') -> frame c c'.
    Proof.
      unfold skip_whitespace. destruct (e_ws E); intros H.
      - destruct (0 <? c_tb c); [inv H; apply frame_refl|].
        binv H. apply Hrec in Hm. inv H. destruct Hm. constructor; csimpl; auto.
      - inv H. apply frame_refl.
    Qed.
    Lemma frame_then_skip E pos len vs c r vs' c' :
      then_skip E rec pos len vs c = Ok (r, vs', c') -> frame c c'.
    Proof. unfold then_skip. intros H. binv H. apply frame_skip in Hm. inv H. assumption. Qed.

    Lemma frame_literal E lit ic pos vs c r vs' c' :
      parse_literal E rec lit ic pos vs c = Ok (r, vs', c') -> frame c c'.
    Proof.
      unfold parse_literal. intros H. binv H. destruct a.
      - binv H. destruct a; [eapply frame_then_skip; eauto|]. inv H. apply frame_error_pos.
      - inv H. apply frame_error_pos.
    Qed.
    Lemma frame_dic E t pos vs c r vs' c' :
      parse_dic E rec t pos vs c = Ok (r, vs', c') -> frame c c'.
    Proof.
      unfold parse_dic, fail_at. intros H. destruct (trie_match _ _) as [i id].
      destruct (i =? 0); [inv H; apply frame_error_pos|]. cbv zeta in H.
      binv H. destruct a; [eapply frame_then_skip; eauto|]. inv H. apply frame_error_pos.
    Qed.
    Lemma frame_cls E rs neg ic pos vs c r vs' c' :
      parse_cls E rs neg ic pos vs c = Ok (r, vs', c') -> frame c c'.
    Proof.
      unfold parse_cls, fail_at. intros H. destruct (_ =? 0); [inv H; apply frame_error_pos|].
      binv H. binv H. destruct (xorb _ _); inv H; [apply frame_refl | apply frame_error_pos].
    Qed.
    Lemma frame_chr E ch pos vs c r vs' c' :
      parse_chr E ch pos vs c = Ok (r, vs', c') -> frame c c'.
    Proof.
      unfold parse_chr, fail_at. intros H. destruct (_ =? 0); [inv H; apply frame_error_pos|].
      binv H. destruct (_ =? _)%N; inv H; [apply frame_refl | apply frame_error_pos].
    Qed.
    Lemma frame_dot E pos vs c r vs' c' :
      parse_dot E pos vs c = Ok (r, vs', c') -> frame c c'.
    Proof.
      unfold parse_dot, fail_at. intros H. binv H.
      destruct (_ <? _); inv H; [apply frame_error_pos | apply frame_refl].
    Qed.

    Lemma frame_kg E kw pos vs c r vs' c' :
      parse_keyword_guarded E rec kw pos vs c = Ok (Some (r, vs', c')) -> frame c c'.
    Proof.
      unfold parse_keyword_guarded. cbv zeta. intros H.
      destruct (_ <? 1); [inv H; apply frame_error_pos|].
      binv H. destruct (btest _ _); [|inv H; apply frame_error_pos]. binv H.
      assert (Hgo : forall x,
        (let* r := then_skip E rec pos (S a0) (if e_recog E then vs else push_tok (pos, S a0) vs) c in
         Ok (Some r)) = Ok (Some x) -> frame c (snd x)).
      { intros [[r1 v1] c1] Hx. binv Hx. apply frame_then_skip in Hm1. inv Hx. assumption. }
      destruct (_ && _).
      - destruct (existsb _ _); [inv H; apply frame_error_pos|].
        destruct (existsb _ _); [discriminate|]. apply Hgo in H. assumption.
      - apply Hgo in H. assumption.
    Qed.
    Lemma frame_seq_loop E l : forall pos i vs c r vs' c',
      seq_loop E rec l pos i vs c = Ok (r, vs', c') -> frame c c'.
    Proof.
      induction l as [|o l IH]; cbn [seq_loop]; intros pos i vs c r vs' c' H.
      - inv H. apply frame_refl.
      - binv H. apply Hrec in Hm. destruct r0.
        + apply IH in H. eapply frame_trans; eauto.
        + inv H. assumption.
    Qed.
    Lemma frame_seq E kg l pos vs c r vs' c' :
      parse_seq E rec kg l pos vs c = Ok (r, vs', c') -> frame c c'.
    Proof.
      unfold parse_seq. destruct kg; intros H.
      - binv H. destruct a as [[[r1 v1] c1]|].
        + inv H. eapply frame_kg; eauto.
        + eapply frame_seq_loop; eauto.
      - eapply frame_seq_loop; eauto.
    Qed.

    Lemma frame_fs_error fs id pos c : frame c (fs_error fs id pos c).
    Proof.
      unfold fs_error. destruct (nth_error _ _) as [f|]; [|apply frame_refl].
      destruct (fs_first_literal f), (fs_first_rule f); try apply frame_refl;
        destruct (_ && _); try apply frame_refl; fpure.
    Qed.
    Lemma frame_cho_loop E fs total l : forall id pos vs c r vs' c',
      cho_loop E rec fs total l id pos vs c = Ok (r, vs', c') -> frame c c'.
    Proof.
      induction l as [|o l IH]; cbn [cho_loop]; intros id pos vs c r vs' c' H.
      - inv H. apply frame_refl.
      - binv H. destruct a.
        + apply IH in H. eapply frame_trans; [apply frame_fs_error|eauto].
        + cbv zeta in H. binv H. apply Hrec in Hm0.
          assert (H1 : frame c (if e_has_cut E then set_cut_top false c else c))
            by (destruct (e_has_cut E); [apply frame_cut_top | apply frame_refl]).
          assert (H2 : frame c (set_err (err_keep (0 <? id) (c_err (if e_has_cut E then set_cut_top false c else c)))
                   (if e_has_cut E then set_cut_top false c else c)))
            by (eapply frame_trans; [exact H1|fpure]).
          destruct r0.
          * inv H. eapply frame_trans; eauto.
          * destruct (_ && _).
            -- inv H. eapply frame_trans; [exact H2|]. now apply frame_rollback.
            -- apply IH in H. eapply frame_trans; [exact H2|].
               eapply frame_trans; [apply frame_rollback; exact Hm0 | exact H].
    Qed.
    Lemma frame_cho E fl fs l pos vs c r vs' c' :
      parse_cho E rec fl fs l pos vs c = Ok (r, vs', c') -> frame c c'.
    Proof.
      unfold parse_cho. cbv zeta. intros H. binv H. apply frame_cho_loop in Hm. inv H.
      destruct (_ && _); destruct Hm; constructor; csimpl; auto.
      all: destruct (c_cut k) as [|b t]; csimpl; try discriminate; try congruence.
    Qed.

    Lemma frame_rep_min E e m : forall pos i vs c r vs' c',
      rep_min E rec e m pos i vs c = Ok (r, vs', c') -> frame c c'.
    Proof.
      induction m as [|m IH]; cbn [rep_min]; intros pos i vs c r vs' c' H.
      - inv H. apply frame_refl.
      - binv H. apply Hrec in Hm. destruct r0.
        + apply IH in H. eapply frame_trans; eauto.
        + inv H. assumption.
    Qed.
    Lemma frame_rep_more E e fuel : forall room pos i vs c r vs' c',
      rep_more fuel E rec e room pos i vs c = Ok (r, vs', c') -> frame c c'.
    Proof.
      induction fuel as [|fuel IH]; cbn [rep_more]; intros room pos i vs c r vs' c' H.
      - destruct room as [[|n]|]; try discriminate. inv H. apply frame_refl.
      - assert (Hx : (let* (r, vs', c') := rec E e (pos + i) vs c in
                match r with
                | Some len => rep_more fuel E rec e (option_map Nat.pred room) pos (i + len) vs' c'
                | None => Ok (Some i, rollback_vs vs vs', rollback_c c c')
                end) = Ok (r, vs', c') -> frame c c').
        { clear H. intros H. binv H. apply Hrec in Hm. destruct r0.
          - apply IH in H. eapply frame_trans; eauto.
          - inv H. now apply frame_rollback. }
        destruct room as [[|n]|]; auto. inv H. apply frame_refl.
    Qed.
    Lemma frame_rep fuel E e mn mx span pos vs c r vs' c' :
      parse_rep fuel E rec e mn mx span pos vs c = Ok (r, vs', c') -> frame c c'.
    Proof.
      unfold parse_rep. destruct span; cbv zeta; intros H.
      - binv H. destruct (_ <? _); inv H; [apply frame_error_pos|apply frame_refl].
      - binv H. apply frame_rep_min in Hm. destruct r0.
        + destruct mx as [m|].
          * destruct (mn <? m).
            -- apply frame_rep_more in H. eapply frame_trans; eauto.
            -- inv H. assumption.
          * apply frame_rep_more in H. eapply frame_trans; eauto.
        + inv H. assumption.
    Qed.
    Lemma frame_and E e pos vs c r vs' c' :
      parse_and E rec e pos vs c = Ok (r, vs', c') -> frame c c'.
    Proof. unfold parse_and. intros H. binv H. apply Hrec in Hm. inv H. now apply frame_rollback. Qed.
    Lemma frame_not E e pos vs c r vs' c' :
      parse_not E rec e pos vs c = Ok (r, vs', c') -> frame c c'.
    Proof.
      unfold parse_not. intros H. binv H. apply Hrec in Hm. cbv zeta in H.
      destruct r0; inv H.
      - eapply frame_trans; [apply frame_rollback; eauto|apply frame_error_pos].
      - now apply frame_rollback.
    Qed.
    Lemma frame_csc E e pos vs c r vs' c' :
      parse_csc E rec e pos vs c = Ok (r, vs', c') -> frame c c'.
    Proof. unfold parse_csc. intros H. binv H. apply Hrec in Hm. inv H. now apply frame_rollback. Qed.
    Lemma frame_cap E n e pos vs c r vs' c' :
      parse_cap E rec n e pos vs c = Ok (r, vs', c') -> frame c c'.
    Proof.
      unfold parse_cap. intros H. binv H. apply Hrec in Hm. destruct r0; inv H; [|assumption].
      destruct Hm. constructor; csimpl; auto. eapply prefix_trans; eauto. apply prefix_app.
    Qed.
    Lemma frame_bkr E n pos vs c r vs' c' :
      parse_bkr E rec n pos vs c = Ok (r, vs', c') -> frame c c'.
    Proof.
      unfold parse_bkr. destruct (last_capture _ _); intros H.
      - eapply frame_literal; eauto.
      - inv H. fpure.
    Qed.
    Lemma frame_tok E e pos vs c r vs' c' :
      parse_tok E rec e pos vs c = Ok (r, vs', c') -> frame c c'.
    Proof.
      unfold parse_tok. cbv zeta. intros H. binv H. apply Hrec in Hm.
      assert (Hx : forall x, frame (set_tb (Nat.pred (c_tb k)) k) x -> frame c (set_ign (c_ign c) x)).
      { intros x Hx. destruct Hm, Hx. csimpl. constructor; csimpl; try congruence.
        - rewrite f_tb1, f_tb0. reflexivity.
        - eapply prefix_trans; eauto. }
      destruct r0.
      - binv H. apply frame_then_skip in Hm0. inv H. now apply Hx.
      - inv H. apply Hx, frame_refl.
    Qed.
    Lemma frame_ign E e pos vs c r vs' c' :
      parse_ign E rec e pos vs c = Ok (r, vs', c') -> frame c c'.
    Proof. unfold parse_ign. intros H. binv H. apply Hrec in Hm. inv H. assumption. Qed.
    Lemma frame_wsp E e pos vs c r vs' c' :
      parse_wsp E rec e pos vs c = Ok (r, vs', c') -> frame c c'.
    Proof.
      unfold parse_wsp. destruct (c_inws c) eqn:Hw; intros H; [inv H; apply frame_refl|].
      binv H. apply Hrec in Hm. inv H. destruct Hm. csimpl. constructor; csimpl; congruence.
    Qed.
    Lemma frame_usr E id pos vs c r vs' c' :
      parse_usr E id pos vs c = Ok (r, vs', c') -> frame c c'.
    Proof. unfold parse_usr. destruct (e_user _ _ _ _ _ _) as [[? ?] ?]. intros H. inv H. fpure. Qed.

    Lemma frame_body E r d body pos vs c len vs' c' :
      parse_ope_body E rec r d body pos vs c = Ok (len, vs', c') -> frame c c'.
    Proof.
      unfold parse_ope_body. cbv zeta. intros H. binv H. inv H.
      assert (Hx : frame (if e_need_rules E || r_macro_ref d then set_rstk (r :: c_rstk c) c else c) k).
      { destruct (r_no_whitespace d); [|eapply Hrec; eauto].
        binv Hm. apply Hrec in Hm0. destruct r0.
        - apply frame_then_skip in Hm. eapply frame_trans; [|exact Hm].
          destruct Hm0. csimpl. constructor; csimpl; auto. now rewrite f_tb0.
        - inv Hm. destruct Hm0. csimpl. constructor; csimpl; auto. now rewrite f_tb0. }
      destruct (_ || _); destruct Hx; csimpl; constructor; csimpl; auto. now rewrite f_rstk0.
    Qed.

    Lemma map_fst_rewrite r (tok : bytes) (l : list (rid * bytes)) :
      map fst (map (fun p => if fst p =? r then (fst p, tok) else p) l) = map fst l.
    Proof. rewrite map_map. apply map_ext. intros [a b]. cbn. destruct (a =? r); reflexivity. Qed.
    Lemma frame_action E r vs pd c : frame c (snd (run_action E r vs pd c)).
    Proof.
      unfold run_action. destruct (e_action E r) as [f|].
      - destruct (f _ _ _ _) as [v dt]. cbn [snd]. constructor; csimpl; try reflexivity.
        + apply map_fst_rewrite. + apply prefix_refl.
      - cbn [snd]. constructor; csimpl; try reflexivity.
        + apply map_fst_rewrite. + apply prefix_refl.
    Qed.
    Lemma frame_reduce E r d vs pd c : frame c (snd (reduce E r d vs pd c)).
    Proof. unfold reduce. destruct (_ && _); [apply frame_action | apply frame_refl]. Qed.

    Lemma frame_do_parse E r d body pos c len val c' :
      do_parse E rec r d body pos c = Ok (len, val, c') -> frame c c'.
    Proof.
      unfold do_parse. cbv zeta. intros H. binv H. apply frame_body in Hm.
      assert (H1 : frame c k).
      { eapply frame_trans; [|exact Hm]. destruct (e_enter E r); [fpure|apply frame_refl]. }
      clear Hm.
      match type of H with match ?x with _ => _ end = _ =>
        assert (H2 : frame c (snd x)) end.
      { destruct r0 as [n|].
        - set (vs2 := if is_choice_like _ then _ else _).
          destruct (e_pred E r) as [p|].
          + destruct (p _ _ _) as [[ok msg] pd]. destruct ok.
            * destruct (c_rcv k); cbn [snd]; [assumption|].
              destruct (reduce E r d vs2 pd k) as [v1 c1] eqn:Hr. cbn [snd].
              eapply frame_trans; [exact H1|]. rewrite <- (f_equal snd Hr : snd (reduce E r d vs2 pd k) = c1).
              apply frame_reduce.
            * cbn [snd]. destruct (_ && _); [|assumption]. eapply frame_trans; [exact H1|fpure].
          + destruct (c_rcv k); cbn [snd]; [assumption|].
            destruct (reduce E r d vs2 None k) as [v1 c1] eqn:Hr. cbn [snd].
            eapply frame_trans; [exact H1|]. rewrite <- (f_equal snd Hr : snd (reduce E r d vs2 None k) = c1).
            apply frame_reduce.
        - cbn [snd]. destruct (_ && _); [|assumption]. eapply frame_trans; [exact H1|fpure]. }
      match type of H with match ?x with _ => _ end = _ => destruct x as [[len1 val1] c1] end.
      cbn [snd] in H2. destruct (e_leave E r) as [f|].
      - destruct (f _ _ _ _ _) as [v1 dt]. inv H. eapply frame_trans; [exact H2|fpure].
      - inv H. assumption.
    Qed.

    Lemma frame_write E pos r len val c : frame c (write_packrat_cache E pos r len val c).
    Proof.
      unfold write_packrat_cache. destruct (e_packrat E); [|apply frame_refl].
      destruct (e_slot E r); [|apply frame_refl]. cbv zeta.
      destruct (_ <? _); [|apply frame_refl]. destruct (_ <? _)%N; [fpure|].
      destruct val; fpure.
    Qed.
    Lemma frame_clear E pos r c : frame c (clear_packrat_cache E pos r c).
    Proof.
      unfold clear_packrat_cache. destruct (e_packrat E); [|apply frame_refl].
      destruct (e_slot E r); [|apply frame_refl]. cbv zeta.
      destruct (_ <? _); fpure.
    Qed.

    Definition fn_frame (fn : ctx -> outcome (option nat * option V * ctx)) : Prop :=
      forall c len val c', fn c = Ok (len, val, c') -> frame c c'.
    Lemma frame_packrat E pos r fn c len val c' :
      fn_frame fn -> packrat E pos r fn c = Ok (len, val, c') -> frame c c'.
    Proof.
      intros Hf H. unfold packrat in H. destruct (e_slot E r).
      - cbv zeta in H. destruct (_ <? _); [|discriminate].
        destruct (nfind _ _) as [[|]|]; try (inv H; apply frame_refl).
        binv H. apply Hf in Hm. inv H.
        assert (frame c k) by (eapply frame_trans; [|exact Hm]; fpure).
        destruct len; [|assumption]. eapply frame_trans; [eassumption|apply frame_write].
      - destruct (nfind _ _).
        + destruct (_ =? _); [inv H; apply frame_refl|].
          binv H. apply Hf in Hm. inv H.
          eapply frame_trans; [|eapply frame_trans; [exact Hm|]]; fpure.
        + binv H. apply Hf in Hm. inv H.
          eapply frame_trans; [|eapply frame_trans; [exact Hm|]]; fpure.
    Qed.
    Lemma frame_guard pos r fn c len val c' :
      fn_frame fn -> guard pos r fn c = Ok (len, val, c') -> frame c c'.
    Proof.
      intros Hf H. unfold guard in H. destruct (lr_find _ _); [inv H; apply frame_refl|].
      binv H. apply Hf in Hm. inv H. eapply frame_trans; [|eapply frame_trans; [exact Hm|]]; fpure.
    Qed.
    Lemma frame_grow fuel : forall E r d body cycle pos len val c len' val' c',
      lr_grow fuel E rec r d body cycle pos len val c = Ok (len', val', c') -> frame c c'.
    Proof.
      induction fuel as [|fuel IH]; intros E r d body cycle pos len val c len' val' c' H;
        cbn [lr_grow] in H; [discriminate|]. cbv zeta in H.
      binv H. apply frame_do_parse in Hm.
      assert (Hk : frame c k).
      { eapply frame_trans; [apply frame_clear|]. eapply frame_trans; [|exact Hm]. fpure. }
      destruct r0 as [n|]; [|inv H; assumption].
      destruct (n <=? len); [inv H; assumption|].
      apply IH in H. eapply frame_trans; [exact Hk|]. eapply frame_trans; [|exact H]. fpure.
    Qed.
    Lemma frame_lr fuel E r d body pos c len val c' :
      parse_lr fuel E rec r d body pos c = Ok (len, val, c') -> frame c c'.
    Proof.
      unfold parse_lr. cbv zeta. intros H. destruct (lr_find _ _) as [[[|] ?]|].
      - inv H. fpure.
      - inv H. fpure.
      - binv H. apply frame_do_parse in Hm.
        assert (Hk : frame c k) by (eapply frame_trans; [|exact Hm]; fpure).
        destruct r0 as [n|].
        + binv H. apply frame_grow in Hm0. inv H.
          eapply frame_trans; [exact Hk|]. eapply frame_trans; [|eapply frame_trans; [exact Hm0|]].
          * fpure.
          * eapply frame_trans; [apply frame_write|fpure].
        + inv H. eapply frame_trans; [exact Hk|fpure].
    Qed.
    Lemma frame_hld fuel E r pos vs c len vs' c' :
      parse_hld fuel E rec r pos vs c = Ok (len, vs', c') -> frame c c'.
    Proof.
      unfold parse_hld. intros H. binv H. destruct (r_body a) as [body|]; [|discriminate].
      destruct (r_is_macro a).
      { destruct (r_lr a); [discriminate|]. binv H. apply Hrec in Hm0. inv H.
        destruct Hm0. csimpl. constructor; csimpl; auto. now rewrite f_rstk0. }
      destruct (_ && _).
      { destruct (e_packrat E).
        - destruct (e_slot E r).
          + cbv zeta in H. destruct (_ <? _); [|discriminate].
            destruct (nfind _ _); [inv H; apply frame_refl|].
            binv H. apply frame_body in Hm0. inv H.
            assert (frame c k) by (eapply frame_trans; [|exact Hm0]; fpure).
            destruct len; [|assumption]. eapply frame_trans; [eassumption|apply frame_write].
          + destruct (nfind _ _).
            * destruct (_ =? _); [inv H; apply frame_refl|].
              binv H. apply frame_body in Hm0. inv H.
              eapply frame_trans; [|eapply frame_trans; [exact Hm0|]]; fpure.
            * binv H. apply frame_body in Hm0. inv H.
              eapply frame_trans; [|eapply frame_trans; [exact Hm0|]]; fpure.
        - destruct (lr_find _ _); [inv H; apply frame_refl|].
          binv H. apply frame_body in Hm0. inv H.
          eapply frame_trans; [|eapply frame_trans; [exact Hm0|]]; fpure. }
      binv H.
      assert (frame c k).
      { destruct (r_lr a); [eapply frame_lr; eauto|].
        destruct (e_packrat E); [eapply frame_packrat | eapply frame_guard]; try exact Hm0;
          intros ? ? ? ?; apply frame_do_parse. }
      destruct r0; inv H; assumption.
    Qed.

    Lemma frame_dispatch E rl iarg args pos vs c len vs' c' :
      parse_dispatch E rec rl iarg args pos vs c = Ok (len, vs', c') -> frame c c'.
    Proof.
      unfold parse_dispatch. intros H. destruct rl as [r|].
      - binv H. destruct (r_is_macro a).
        + destruct (c_rstk c) eqn:Hs; [discriminate|]. binv H. binv H.
          destruct (r_lr a); [discriminate|]. binv H. apply Hrec in Hm2. inv H.
          destruct Hm2. csimpl. constructor; csimpl; auto. now rewrite f_args0.
        + destruct (_ && _); [eapply Hrec; eauto|].
          binv H. apply Hrec in Hm0. inv H. destruct Hm0. csimpl. constructor; csimpl; auto.
          now rewrite f_args0.
      - destruct (nth_error _ _); [eapply Hrec; eauto|discriminate].
    Qed.
    Lemma frame_ref E rl iarg args pos vs c len vs' c' :
      parse_ref E rec rl iarg args pos vs c = Ok (len, vs', c') -> frame c c'.
    Proof.
      unfold parse_ref. destruct (e_tracer E); [|apply frame_dispatch].
      intros H. cbv zeta in H. binv H. apply frame_dispatch in Hm. inv H.
      set (b := match rl with Some _ => _ | None => _ end) in *.
      destruct b; destruct Hm; csimpl; constructor; csimpl; auto.
    Qed.

    Lemma frame_push_prec c br c' :
      frame (set_prec ((br, []) :: c_prec c) c) c' -> frame c (set_prec (tl (c_prec c')) c').
    Proof.
      intros []. csimpl. constructor; csimpl; auto.
      destruct (c_prec c') as [|x t]; cbn [map tl] in *; [discriminate|]. now inv f_prec0.
    Qed.
    Lemma frame_prec_loop fuel : forall E atom binop info rl mp pos i vs c r vs' c',
      prec_loop fuel E rec atom binop info rl mp pos i vs c = Ok (r, vs', c') -> frame c c'.
    Proof.
      induction fuel as [|fuel IH]; intros E atom binop info rl mp pos i vs c r vs' c' H;
        cbn [prec_loop] in H; destruct (_ <? _); try discriminate; try (inv H; apply frame_refl).
      binv H. apply Hrec in Hm. destruct r0 as [chlen|]; [|inv H; assumption].
      destruct (binfo_find _ _) as [[level la]|]; [|inv H; assumption].
      destruct (level <? mp); [inv H; assumption|].
      destruct (v_vals v) as [|opv ?]; [discriminate|]. cbv zeta in H.
      binv H.
      assert (Hk0 : frame c k0).
      { binv Hm0. apply Hrec in Hm1. destruct r1 as [n|].
        - binv Hm0. binv Hm0. apply IH in Hm3. inv Hm0.
          eapply frame_trans; [exact Hm|]. eapply frame_trans; [exact Hm1|].
          eapply frame_push_prec; eassumption.
        - inv Hm0. eapply frame_trans; eauto. }
      destruct r0 as [l2|]; [|inv H; assumption].
      destruct (v_vals v0) as [|rv ?]; [discriminate|].
      match type of H with match ?x with _ => _ end = _ =>
        assert (Hx : frame k0 (snd x)); [|destruct x as [[val vs3] c3]] end.
      { destruct (has_action _ _ _); [|apply frame_refl].
        match goal with |- context [run_action ?a ?b ?c ?d ?e] =>
          destruct (run_action a b c d e) as [v1 c1] eqn:Hr; cbn [snd];
          rewrite <- (f_equal snd Hr : snd (run_action a b c d e) = c1) end.
        apply frame_action. }
      cbn [snd] in Hx. apply IH in H.
      eapply frame_trans; [exact Hk0|]. eapply frame_trans; eauto.
    Qed.
    Lemma frame_prec fuel E atom binop info rl pos vs c r vs' c' :
      parse_prec fuel E rec atom binop info rl pos vs c = Ok (r, vs', c') -> frame c c'.
    Proof.
      unfold parse_prec. intros H. binv H. apply Hrec in Hm. destruct r0; [|inv H; assumption].
      binv H. binv H. apply frame_prec_loop in Hm1. inv H.
      eapply frame_trans; [exact Hm|]. eapply frame_push_prec; eassumption.
    Qed.

    Lemma frame_rcv E e pos vs c r vs' c' :
      parse_rcv E rec e pos vs c = Ok (r, vs', c') -> frame c c'.
    Proof.
      unfold parse_rcv. destruct e; try discriminate. intros H. cbv zeta in H. binv H.
      assert (H1 : frame c a).
      { destruct (c_log c); [|inv Hm; apply frame_refl].
        destruct args as [|[] ?]; try discriminate; try (inv Hm; apply frame_refl).
        destruct rule0; [|discriminate]. binv Hm.
        destruct (r_error_message a0); inv Hm; [apply frame_refl | fpure]. }
      clear Hm. binv H. apply Hrec in Hm. binv H. inv H.
      eapply frame_trans; [exact H1|].
      assert (H2 : frame a (set_dt (c_dt a) (set_log (c_log a) k))).
      { destruct Hm. csimpl. constructor; csimpl; auto. }
      eapply frame_trans; [exact H2|]. eapply frame_trans; [|apply frame_cut_top].
      destruct r; [|inv Hm0; apply frame_refl].
      destruct (c_log a); [|inv Hm0; fpure].
      binv Hm0. inv Hm0. fpure.
    Qed.

    Lemma frame_core fuel E o pos vs c r vs' c' :
      parse_core fuel rec E o pos vs c = Ok (r, vs', c') -> frame c c'.
    Proof.
      destruct o; cbn [parse_core]; intros H;
        eauto using frame_seq, frame_cho, frame_rep, frame_and, frame_not, frame_dic, frame_literal,
          frame_cls, frame_chr, frame_dot, frame_csc, frame_cap, frame_tok, frame_ign, frame_usr,
          frame_hld, frame_ref, frame_wsp, frame_bkr, frame_prec, frame_rcv.
      - inv H. apply frame_cut_top.
      - discriminate.
    Qed.
  End Ops.

  Theorem parse_frame fuel : forall E o pos vs c r vs' c',
    parse fuel E o pos vs c = Ok (r, vs', c') -> frame c c'.
  Proof.
    induction fuel as [|fuel IH]; intros E o pos vs c r vs' c' H; cbn [parse] in H; [discriminate|].
    eapply frame_traced; [|exact H]. intros. eapply frame_core; [exact IH|eassumption].
  Qed.
End Frame.
