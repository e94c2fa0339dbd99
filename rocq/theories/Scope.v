(** * Semantic values only grow inside a sub-parse, so a rollback restores them
    (properties C14, C15). *)
From Verif Require Import Base BaseLemmas Utf8 Escape TrieM LineInfo Ope Ctx ErrLog Engine EngineLemmas Frame.

(** No precedence-climbing operator inside the expression or its macro arguments. *)
Fixpoint nopre (o : ope) : bool :=
  match o with
  | Pre _ _ _ _ => false
  | Seq _ l | Cho _ _ l => forallb nopre l
  | Ref _ _ _ _ args => forallb nopre args
  | Rep e _ _ _ | And e | Not e | Csc e | Cap _ e | Tok e | Ign e | Wsp e | Rcv e => nopre e
  | _ => true
  end.

Section Ope_ind.
  Variable P : ope -> Prop.
  Hypothesis H_seq : forall kg l, Forall P l -> P (Seq kg l).
  Hypothesis H_cho : forall fl fs l, Forall P l -> P (Cho fl fs l).
  Hypothesis H_rep : forall e mn mx sp, P e -> P (Rep e mn mx sp).
  Hypothesis H_and : forall e, P e -> P (And e).
  Hypothesis H_not : forall e, P e -> P (Not e).
  Hypothesis H_dic : forall t, P (Dic t).
  Hypothesis H_lit : forall s ic, P (Lit s ic).
  Hypothesis H_cls : forall rs neg ic, P (Cls rs neg ic).
  Hypothesis H_chr : forall cp, P (Chr cp).
  Hypothesis H_dot : P Dot.
  Hypothesis H_csc : forall e, P e -> P (Csc e).
  Hypothesis H_cap : forall n e, P e -> P (Cap n e).
  Hypothesis H_tok : forall e, P e -> P (Tok e).
  Hypothesis H_ign : forall e, P e -> P (Ign e).
  Hypothesis H_usr : forall id, P (Usr id).
  Hypothesis H_wkh : forall r, P (Wkh r).
  Hypothesis H_hld : forall r, P (Hld r).
  Hypothesis H_ref : forall n rl ia m args, Forall P args -> P (Ref n rl ia m args).
  Hypothesis H_wsp : forall e, P e -> P (Wsp e).
  Hypothesis H_bkr : forall n, P (Bkr n).
  Hypothesis H_pre : forall a b i r, P a -> P b -> P (Pre a b i r).
  Hypothesis H_rcv : forall e, P e -> P (Rcv e).
  Hypothesis H_cut : P Cut.
  Hypothesis H_nul : P Nul.
  Fixpoint ope_ind' (o : ope) : P o :=
    let fix all (l : list ope) : Forall P l :=
      match l with [] => Forall_nil P | x :: l' => Forall_cons x (ope_ind' x) (all l') end in
    match o with
    | Seq kg l => H_seq kg l (all l)
    | Cho fl fs l => H_cho fl fs l (all l)
    | Rep e mn mx sp => H_rep e mn mx sp (ope_ind' e)
    | And e => H_and e (ope_ind' e)
    | Not e => H_not e (ope_ind' e)
    | Dic t => H_dic t
    | Lit s ic => H_lit s ic
    | Cls rs neg ic => H_cls rs neg ic
    | Chr cp => H_chr cp
    | Dot => H_dot
    | Csc e => H_csc e (ope_ind' e)
    | Cap n e => H_cap n e (ope_ind' e)
    | Tok e => H_tok e (ope_ind' e)
    | Ign e => H_ign e (ope_ind' e)
    | Usr id => H_usr id
    | Wkh r => H_wkh r
    | Hld r => H_hld r
    | Ref n rl ia m args => H_ref n rl ia m args (all args)
    | Wsp e => H_wsp e (ope_ind' e)
    | Bkr n => H_bkr n
    | Pre a b i r => H_pre a b i r (ope_ind' a) (ope_ind' b)
    | Rcv e => H_rcv e (ope_ind' e)
    | Cut => H_cut
    | Nul => H_nul
    end.
End Ope_ind.

(** The list recursion inside [find_reference]. *)
Fixpoint find_references (params : list bytes) (args : list ope) (l : list ope) : outcome (list ope) :=
  match l with
  | [] => Ok []
  | x :: l' => let* x' := find_reference params args x in
               let* r := find_references params args l' in Ok (x' :: r)
  end.
Lemma find_reference_seq params args kg l :
  find_reference params args (Seq kg l) = let* l' := find_references params args l in Ok (Seq None l').
Proof.
  cbn [find_reference]. f_equal.
  induction l as [|x l IH]; [reflexivity|]. cbn [find_references]. now rewrite IH.
Qed.
Lemma find_reference_cho params args fl fs l :
  find_reference params args (Cho fl fs l) = let* l' := find_references params args l in Ok (Cho false [] l').
Proof.
  cbn [find_reference]. f_equal.
  induction l as [|x l IH]; [reflexivity|]. cbn [find_references]. now rewrite IH.
Qed.
Lemma find_param_in params args name a :
  find_param params args name = Ok (Some a) -> In a args.
Proof.
  revert params. induction args as [|x args IH]; intros [|p params] H; cbn in H; try discriminate.
  destruct (bytes_eqb _ _).
  - inv H. now left.
  - right. eauto.
Qed.

Lemma nopre_find_reference params args o : forall o',
  forallb nopre args = true -> find_reference params args o = Ok o' -> nopre o = true -> nopre o' = true.
Proof.
  intros o' Ha. rewrite forallb_forall in Ha.
  revert o'. induction o using ope_ind'; intros o' Hf Hn;
    try (cbn in Hf; binv Hf; inv Hf; cbn; eauto; fail);
    try (cbn in Hf; inv Hf; cbn in *; auto; fail).
  - rewrite find_reference_seq in Hf. binv Hf. inv Hf. cbn [nopre] in *.
    revert a Hm. induction l as [|x l IHl]; intros a Hm; cbn [find_references] in Hm.
    + inv Hm. reflexivity.
    + binv Hm. binv Hm. inv Hm. cbn [forallb] in *. apply andb_prop in Hn as [Hn1 Hn2].
      inv H. rewrite (H2 _ Hm0 Hn1). cbn. apply IHl; auto.
  - rewrite find_reference_cho in Hf. binv Hf. inv Hf. cbn [nopre] in *.
    revert a Hm. induction l as [|x l IHl]; intros a Hm; cbn [find_references] in Hm.
    + inv Hm. reflexivity.
    + binv Hm. binv Hm. inv Hm. cbn [forallb] in *. apply andb_prop in Hn as [Hn1 Hn2].
      inv H. rewrite (H2 _ Hm0 Hn1). cbn. apply IHl; auto.
  - cbn [find_reference] in Hf. binv Hf. destruct a.
    + inv Hf. apply Ha. eapply find_param_in; eauto.
    + inv Hf. assumption.
  - discriminate.
Qed.
Lemma nopre_subst_args params top l : forall l',
  forallb nopre top = true -> subst_args params top l = Ok l' -> forallb nopre l = true -> forallb nopre l' = true.
Proof.
  induction l as [|x l IH]; intros l' Ht H Hn; cbn [subst_args] in H.
  - inv H. reflexivity.
  - binv H. binv H. inv H. cbn [forallb] in *. apply andb_prop in Hn as [H1 H2].
    rewrite (nopre_find_reference _ _ _ _ Ht Hm H1). cbn. eauto.
Qed.

Section Scope.
  Context {V U : Type}.
  Notation env := (env V U).
  Notation ctx := (ctx V U).
  Notation sv := (sv V).
  Implicit Types (E : env) (c : ctx) (vs : sv).

  (** [vs'] is [vs] with more values, tags and tokens at the end; the choice
      fields may differ. *)
  Record ext (vs vs' : sv) : Prop := {
    x_vals : prefix (v_vals vs) (v_vals vs');
    x_tags : prefix (v_tags vs) (v_tags vs');
    x_toks : prefix (v_toks vs) (v_toks vs');
    x_sv : v_sv vs' = v_sv vs;
    x_name : v_name vs' = v_name vs
  }.
  Lemma ext_refl vs : ext vs vs.
  Proof. constructor; auto using prefix_refl. Qed.
  Lemma ext_trans (x y z : sv) : ext x y -> ext y z -> ext x z.
  Proof. intros [] []. constructor; try congruence; eapply prefix_trans; eauto. Qed.
  Lemma rollback_ext vs vs' : ext vs vs' -> rollback_vs vs vs' = vs.
  Proof.
    intros []. unfold rollback_vs. rewrite !resize_prefix by assumption. rewrite x_name0.
    destruct vs; reflexivity.
  Qed.
  Lemma ext_rollback vs vs' : ext vs vs' -> ext vs (rollback_vs vs vs').
  Proof. intros H. rewrite rollback_ext by assumption. apply ext_refl. Qed.
  Lemma ext_choice vs vs' cc ch : ext vs vs' -> ext vs (set_choice cc ch vs').
  Proof. intros []. constructor; auto. Qed.
  Lemma ext_push_tok vs vs' t : ext vs vs' -> ext vs (push_tok t vs').
  Proof. intros []. constructor; csimpl; auto. eapply prefix_trans; eauto. apply prefix_app. Qed.
  Lemma ext_push_val vs vs' x t : ext vs vs' -> ext vs (push_val x t vs').
  Proof. intros []. constructor; csimpl; auto; eapply prefix_trans; eauto; apply prefix_app. Qed.

  (** What the theorems assume of the grammar and the callbacks: a precedence
      rule is a rule of its own (not a macro, and not run by the recognizer),
      and custom parsers only append to the semantic values. *)
  Record scoped E : Prop := {
    sc_user : forall id pos vs u r vs' u', e_user E id (e_input E) pos vs u = (r, vs', u') -> ext vs vs';
    sc_rule : forall r d body, nth_error (e_g E) r = Some d -> r_body d = Some body ->
              r_is_macro d = true \/ e_recog E = true -> nopre body = true;
    sc_ws : forall w, e_ws E = Some w -> nopre w = true
  }.
  Definition okargs c : Prop := forallb (forallb nopre) (c_args c) = true.

  Definition rec_ext (rec : rec_t) : Prop :=
    forall E o pos vs c r vs' c', scoped E -> okargs c -> nopre o = true ->
    rec E o pos vs c = Ok (r, vs', c') -> ext vs vs'.

  Lemma okargs_frame c c' : frame c c' -> okargs c -> okargs c'.
  Proof. intros [] H. unfold okargs. now rewrite f_args. Qed.
  Lemma okargs_top c : okargs c -> forallb nopre (top_args c) = true.
  Proof.
    unfold okargs, top_args. destruct (c_args c); [reflexivity|]. cbn. now intros [? ?]%andb_prop.
  Qed.

  Section Ops.
    Variable rec : @rec_t V U.
    Hypothesis Hrec : rec_ext rec.
    Hypothesis Hfr : rec_frame rec.

    Lemma ext_skip E pos vs c r vs' c' : scoped E -> okargs c ->
      skip_whitespace E rec pos vs c = Ok (r, vs', c') -> ext vs vs'.
    Proof.
      intros HE Hc. unfold skip_whitespace. destruct (e_ws E) eqn:Hw; intros H.
      - destruct (0 <? c_tb c); [inv H; apply ext_refl|].
        binv H. apply Hrec in Hm; auto. inv H. assumption. eapply sc_ws; eauto.
      - inv H. apply ext_refl.
    Qed.
    Lemma ext_then_skip E pos len vs c r vs' c' : scoped E -> okargs c ->
      then_skip E rec pos len vs c = Ok (r, vs', c') -> ext vs vs'.
    Proof. intros HE Hc. unfold then_skip. intros H. binv H. apply ext_skip in Hm; auto. inv H. assumption. Qed.
    Lemma ext_literal E lit ic pos vs c r vs' c' : scoped E -> okargs c ->
      parse_literal E rec lit ic pos vs c = Ok (r, vs', c') -> ext vs vs'.
    Proof.
      intros HE Hc. unfold parse_literal. intros H. binv H. destruct a.
      - binv H. destruct a; [eapply ext_then_skip; eauto|]. inv H. apply ext_refl.
      - inv H. apply ext_refl.
    Qed.
    Lemma ext_dic E t pos vs c r vs' c' : scoped E -> okargs c ->
      parse_dic E rec t pos vs c = Ok (r, vs', c') -> ext vs vs'.
    Proof.
      intros HE Hc. unfold parse_dic, fail_at. intros H. destruct (trie_match _ _) as [i id].
      destruct (i =? 0); [inv H; apply ext_refl|]. cbv zeta in H.
      binv H. destruct a.
      - apply ext_then_skip in H; auto. eapply ext_trans; [|exact H]. apply ext_choice, ext_refl.
      - inv H. apply ext_choice, ext_refl.
    Qed.
    Lemma ext_kg E kw pos vs c r vs' c' : scoped E -> okargs c ->
      parse_keyword_guarded E rec kw pos vs c = Ok (Some (r, vs', c')) -> ext vs vs'.
    Proof.
      intros HE Hc. unfold parse_keyword_guarded. cbv zeta. intros H.
      destruct (_ <? 1); [inv H; apply ext_refl|].
      binv H. destruct (btest _ _); [|inv H; apply ext_refl]. binv H.
      assert (Hgo : forall x,
        (let* r := then_skip E rec pos (S a0) (if e_recog E then vs else push_tok (pos, S a0) vs) c in
         Ok (Some r)) = Ok (Some x) -> ext vs (snd (fst x))).
      { intros [[r1 v1] c1] Hx. binv Hx. apply ext_then_skip in Hm1; auto. inv Hx. cbn [fst snd].
        eapply ext_trans; [|exact Hm1]. destruct (e_recog E); [apply ext_refl|]. apply ext_push_tok, ext_refl. }
      destruct (_ && _).
      - destruct (existsb _ _); [inv H; apply ext_refl|].
        destruct (existsb _ _); [discriminate|]. apply Hgo in H. assumption.
      - apply Hgo in H. assumption.
    Qed.
    Lemma ext_seq_loop E l : scoped E -> forallb nopre l = true -> forall pos i vs c r vs' c', okargs c ->
      seq_loop E rec l pos i vs c = Ok (r, vs', c') -> ext vs vs'.
    Proof.
      intros HE. induction l as [|o l IH]; cbn [seq_loop forallb]; intros Hn pos i vs c r vs' c' Hc H.
      - inv H. apply ext_refl.
      - apply andb_prop in Hn as [Ho Hl]. binv H. pose proof (Hfr _ _ _ _ _ _ _ _ Hm) as Hf.
        apply Hrec in Hm; auto. destruct r0.
        + apply IH in H; eauto using okargs_frame. eapply ext_trans; eauto.
        + inv H. assumption.
    Qed.
    Lemma ext_seq E kg l pos vs c r vs' c' : scoped E -> okargs c -> forallb nopre l = true ->
      parse_seq E rec kg l pos vs c = Ok (r, vs', c') -> ext vs vs'.
    Proof.
      intros HE Hc Hn. unfold parse_seq. destruct kg; intros H.
      - binv H. destruct a as [[[r1 v1] c1]|].
        + inv H. eapply ext_kg; eauto.
        + eapply ext_seq_loop; eauto.
      - eapply ext_seq_loop; eauto.
    Qed.
    Lemma ext_cho_loop E fs total l : scoped E -> forallb nopre l = true ->
      forall id pos vs c r vs' c', okargs c ->
      cho_loop E rec fs total l id pos vs c = Ok (r, vs', c') -> ext vs vs'.
    Proof.
      intros HE. induction l as [|o l IH]; cbn [cho_loop forallb]; intros Hn id pos vs c r vs' c' Hc H.
      - inv H. apply ext_refl.
      - apply andb_prop in Hn as [Ho Hl]. binv H. destruct a.
        + apply IH in H; auto. eapply okargs_frame; [apply frame_fs_error|assumption].
        + cbv zeta in H. binv H.
          set (c2 := set_err _ _) in *.
          assert (Hc2 : okargs c2).
          { unfold c2, okargs. csimpl. destruct (e_has_cut E); [|exact Hc].
            unfold set_cut_top. destruct (c_cut c); exact Hc. }
          pose proof (Hfr _ _ _ _ _ _ _ _ Hm0) as Hf.
          apply Hrec in Hm0; auto. destruct r0.
          * inv H. now apply ext_choice.
          * rewrite (rollback_ext _ _ Hm0) in H. destruct (_ && _).
            -- inv H. apply ext_refl.
            -- eapply (IH Hl) in H; [exact H|]. exact (okargs_frame _ _ Hf Hc2).
    Qed.
    Lemma ext_cho E fl fs l pos vs c r vs' c' : scoped E -> okargs c -> forallb nopre l = true ->
      parse_cho E rec fl fs l pos vs c = Ok (r, vs', c') -> ext vs vs'.
    Proof.
      intros HE Hc Hn. unfold parse_cho. cbv zeta. intros H. binv H. apply ext_cho_loop in Hm; auto.
      - inv H. assumption.
      - destruct (_ && _); exact Hc.
    Qed.
    Lemma ext_rep_min E e m : scoped E -> nopre e = true -> forall pos i vs c r vs' c', okargs c ->
      rep_min E rec e m pos i vs c = Ok (r, vs', c') -> ext vs vs'.
    Proof.
      intros HE He. induction m as [|m IH]; cbn [rep_min]; intros pos i vs c r vs' c' Hc H.
      - inv H. apply ext_refl.
      - binv H. pose proof (Hfr _ _ _ _ _ _ _ _ Hm) as Hf. apply Hrec in Hm; auto. destruct r0.
        + apply IH in H; eauto using okargs_frame. eapply ext_trans; eauto.
        + inv H. assumption.
    Qed.
    Lemma ext_rep_more E e fuel : scoped E -> nopre e = true -> forall room pos i vs c r vs' c', okargs c ->
      rep_more fuel E rec e room pos i vs c = Ok (r, vs', c') -> ext vs vs'.
    Proof.
      intros HE He. induction fuel as [|fuel IH]; cbn [rep_more]; intros room pos i vs c r vs' c' Hc H.
      - destruct room as [[|n]|]; try discriminate. inv H. apply ext_refl.
      - assert (Hx : (let* (r, vs', c') := rec E e (pos + i) vs c in
                match r with
                | Some len => rep_more fuel E rec e (option_map Nat.pred room) pos (i + len) vs' c'
                | None => Ok (Some i, rollback_vs vs vs', rollback_c c c')
                end) = Ok (r, vs', c') -> ext vs vs').
        { clear H. intros H. binv H. pose proof (Hfr _ _ _ _ _ _ _ _ Hm) as Hf.
          apply Hrec in Hm; auto. destruct r0.
          - apply IH in H; eauto using okargs_frame. eapply ext_trans; eauto.
          - inv H. now apply ext_rollback. }
        destruct room as [[|n]|]; auto. inv H. apply ext_refl.
    Qed.
    Lemma ext_rep fuel E e mn mx span pos vs c r vs' c' : scoped E -> okargs c -> nopre e = true ->
      parse_rep fuel E rec e mn mx span pos vs c = Ok (r, vs', c') -> ext vs vs'.
    Proof.
      intros HE Hc He. unfold parse_rep. destruct span; cbv zeta; intros H.
      - binv H. destruct (_ <? _); inv H; apply ext_refl.
      - binv H. assert (Hf : frame c k) by (eapply frame_rep_min; eauto).
        apply ext_rep_min in Hm; auto. assert (Hk : okargs k) by (eapply okargs_frame; eauto). destruct r0.
        + destruct mx as [m|].
          * destruct (mn <? m).
            -- apply ext_rep_more in H; auto. eapply ext_trans; eauto.
            -- inv H. assumption.
          * apply ext_rep_more in H; auto. eapply ext_trans; eauto.
        + inv H. assumption.
    Qed.
    Lemma ext_tok E e pos vs c r vs' c' : scoped E -> okargs c -> nopre e = true ->
      parse_tok E rec e pos vs c = Ok (r, vs', c') -> ext vs vs'.
    Proof.
      intros HE Hc He. unfold parse_tok. cbv zeta. intros H. binv H.
      pose proof (Hfr _ _ _ _ _ _ _ _ Hm) as Hf. apply Hrec in Hm; auto.
      destruct r0.
      - binv H. apply ext_then_skip in Hm0; auto.
        + inv H. eapply ext_trans; [|exact Hm0]. destruct (e_recog E); [assumption|]. now apply ext_push_tok.
        + eapply okargs_frame in Hf; [exact Hf|exact Hc].
      - inv H. assumption.
    Qed.
    Lemma ext_body E r d body pos vs c len vs' c' : scoped E -> okargs c -> nopre body = true ->
      parse_ope_body E rec r d body pos vs c = Ok (len, vs', c') -> ext vs vs'.
    Proof.
      intros HE Hc Hb. unfold parse_ope_body. cbv zeta. intros H. binv H. inv H.
      assert (Hc1 : okargs (if e_need_rules E || r_macro_ref d then set_rstk (r :: c_rstk c) c else c))
        by (destruct (_ || _); exact Hc).
      destruct (r_no_whitespace d); [|eapply Hrec; eauto].
      binv Hm. pose proof (Hfr _ _ _ _ _ _ _ _ Hm0) as Hf. apply Hrec in Hm0; auto. destruct r0.
      - apply ext_then_skip in Hm; auto; [eapply ext_trans; eauto|]. eapply okargs_frame in Hf; [exact Hf|exact Hc1].
      - inv Hm. assumption.
    Qed.
    Lemma ext_hld fuel E r pos vs c len vs' c' : scoped E -> okargs c ->
      parse_hld fuel E rec r pos vs c = Ok (len, vs', c') -> ext vs vs'.
    Proof.
      intros HE Hc. unfold parse_hld. intros H. binv H. unfold get_rule in Hm.
      destruct (nth_error (e_g E) r) as [d|] eqn:Hd; [|discriminate]. inv Hm.
      destruct (r_body a) as [body|] eqn:Hb; [|discriminate].
      destruct (r_is_macro a) eqn:Hmac.
      { destruct (r_lr a); [discriminate|]. binv H. apply Hrec in Hm; auto.
        inv H. assumption. eapply sc_rule; eauto. }
      destruct (e_recog E && negb (r_lr a)) eqn:Hq.
      { apply andb_prop in Hq as [Hq _]. assert (Hnb : nopre body = true) by (eapply sc_rule; eauto).
        destruct (e_packrat E).
        - destruct (e_slot E r).
          + cbv zeta in H. destruct (_ <? _); [|discriminate].
            destruct (nfind _ _); [inv H; apply ext_refl|].
            binv H. apply ext_body in Hm; auto. inv H. assumption.
          + destruct (nfind _ _).
            * destruct (_ =? _); [inv H; apply ext_refl|].
              binv H. apply ext_body in Hm; auto. inv H. assumption.
            * binv H. apply ext_body in Hm; auto. inv H. assumption.
        - destruct (lr_find _ _); [inv H; apply ext_refl|].
          binv H. apply ext_body in Hm; auto. inv H. assumption. }
      binv H. destruct r0; inv H; [|apply ext_refl].
      destruct (negb (r_ignore a) && _); [apply ext_push_val|]; apply ext_refl.
    Qed.
    Lemma ext_dispatch E rl iarg args pos vs c len vs' c' : scoped E -> okargs c -> forallb nopre args = true ->
      parse_dispatch E rec rl iarg args pos vs c = Ok (len, vs', c') -> ext vs vs'.
    Proof.
      intros HE Hc Ha. unfold parse_dispatch. intros H. destruct rl as [r|].
      - binv H. destruct (r_is_macro a).
        + destruct (c_rstk c) eqn:Hs; [discriminate|]. binv H. binv H.
          destruct (r_lr a); [discriminate|]. binv H. inv H. apply Hrec in Hm2; auto.
          unfold okargs. csimpl. cbn [forallb]. rewrite (nopre_subst_args _ _ _ _ (okargs_top _ Hc) Hm1 Ha).
          exact Hc.
        + destruct (_ && _); [eapply Hrec; eauto; reflexivity|].
          binv H. apply Hrec in Hm0; auto. inv H. assumption.
      - destruct (nth_error _ _) eqn:Hn; [|discriminate]. eapply Hrec; eauto.
        apply nth_error_In in Hn. pose proof (okargs_top _ Hc) as Ht. rewrite forallb_forall in Ht. auto.
    Qed.
    Lemma ext_ref E rl iarg args pos vs c len vs' c' : scoped E -> okargs c -> forallb nopre args = true ->
      parse_ref E rec rl iarg args pos vs c = Ok (len, vs', c') -> ext vs vs'.
    Proof.
      intros HE Hc Ha. unfold parse_ref. destruct (e_tracer E); [|now apply ext_dispatch].
      intros H. cbv zeta in H. binv H. apply ext_dispatch in Hm; auto.
      - inv H. assumption.
      - match goal with |- okargs (if ?b then _ else _) => destruct b end; exact Hc.
    Qed.

    Lemma ext_core fuel E o pos vs c r vs' c' : scoped E -> okargs c -> nopre o = true ->
      parse_core fuel rec E o pos vs c = Ok (r, vs', c') -> ext vs vs'.
    Proof.
      intros HE Hc. destruct o; cbn [parse_core nopre]; intros Hn H;
        eauto 3 using ext_seq, ext_cho, ext_rep, ext_dic, ext_literal, ext_tok, ext_hld, ext_ref.
      - unfold parse_and in H. binv H. apply Hrec in Hm; auto. inv H. now apply ext_rollback.
      - unfold parse_not in H. binv H. apply Hrec in Hm; auto. cbv zeta in H.
        destruct r0; inv H; now apply ext_rollback.
      - unfold parse_cls, fail_at in H. destruct (_ =? 0); [inv H; apply ext_refl|].
        binv H. binv H. destruct (xorb _ _); inv H; apply ext_refl.
      - unfold parse_chr, fail_at in H. destruct (_ =? 0); [inv H; apply ext_refl|].
        binv H. destruct (_ =? _)%N; inv H; apply ext_refl.
      - unfold parse_dot, fail_at in H. binv H. destruct (_ <? _); inv H; apply ext_refl.
      - unfold parse_csc in H. binv H. apply Hrec in Hm; auto. inv H. assumption.
      - unfold parse_cap in H. binv H. apply Hrec in Hm; auto. destruct r0; inv H; assumption.
      - unfold parse_ign in H. binv H. inv H. apply ext_refl.
      - unfold parse_usr in H. destruct (e_user _ _ _ _ _ _) as [[? ?] ?] eqn:Hu. inv H.
        eapply sc_user; eauto.
      - eapply Hrec in H; auto.
      - unfold parse_wsp in H. destruct (c_inws c); [inv H; apply ext_refl|].
        binv H. apply Hrec in Hm; auto. inv H. assumption.
      - unfold parse_bkr in H. destruct (last_capture _ _).
        + eapply ext_literal; eauto.
        + inv H. apply ext_refl.
      - discriminate.
      - unfold parse_rcv in H. destruct o; try discriminate. cbv zeta in H. binv H. binv H. binv H. inv H. apply ext_refl.
      - inv H. apply ext_refl.
      - discriminate.
    Qed.
  End Ops.

  Theorem parse_ext fuel : forall E o pos vs c r vs' c',
    scoped E -> okargs c -> nopre o = true ->
    parse fuel E o pos vs c = Ok (r, vs', c') -> ext vs vs'.
  Proof.
    induction fuel as [|fuel IH]; intros E o pos vs c r vs' c' HE Hc Hn H; cbn [parse] in H; [discriminate|].
    unfold traced in H. destruct (is_traceable E o c).
    - binv H. inv H. apply (ext_core (parse fuel) IH (parse_frame fuel)) in Hm; auto.
    - apply (ext_core (parse fuel) IH (parse_frame fuel)) in H; auto.
  Qed.
End Scope.
