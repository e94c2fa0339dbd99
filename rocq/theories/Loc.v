(** * Semantic values stay in input order and inside what their rule matched, and so do
    token texts, whatever the operators, options and callbacks (property C34); what the
    callbacks keep true of the user data stays true. *)
From Verif Require Import Base BaseLemmas Utf8 Escape TrieM LineInfo Ope Ctx ErrLog Engine EngineLemmas Frame Scope Bounds Choice.

Section Loc.
  Context {V U : Type}.
  Notation env := (env V U).
  Notation ctx := (ctx V U).
  Notation sv := (sv V).
  Implicit Types (E : env) (c : ctx) (vs : sv).

  (** [loc a b v]: the value [v] lies in the text between [a] and [b]. *)
  Variable loc : nat -> nat -> V -> Prop.
  Hypothesis loc_wide : forall a b a' b' v, loc a b v -> a' <= a -> b <= b' -> loc a' b' v.
  (** [D]: kept true of the user data. *)
  Variable D : U -> Prop.
  Definition locO (a b : nat) (x : option V) : Prop := match x with Some v => loc a b v | None => True end.
  Fixpoint chain (lo hi : nat) (l : list (option V)) : Prop :=
    match l with
    | [] => lo <= hi
    | x :: l' => exists m, lo <= m /\ locO lo m x /\ chain m hi l'
    end.
  Definition toks_in (lo hi : nat) (l : list (nat * nat)) : Prop := Forall (fun t => lo <= fst t /\ fst t + snd t <= hi) l.
  Definition vok (lo hi : nat) vs : Prop := chain lo hi (v_vals vs) /\ toks_in lo hi (v_toks vs).

  Lemma locO_wide a b a' b' x : locO a b x -> a' <= a -> b <= b' -> locO a' b' x.
  Proof. destruct x; cbn; eauto. Qed.
  Lemma chain_le : forall l lo hi, chain lo hi l -> lo <= hi.
  Proof. induction l as [|x l IH]; cbn; intros lo hi H; [assumption|]. destruct H as (m & H1 & _ & H2). apply IH in H2. lia. Qed.
  Lemma chain_hi : forall l lo hi hi', chain lo hi l -> hi <= hi' -> chain lo hi' l.
  Proof. induction l as [|x l IH]; cbn; intros lo hi hi' H Hh; [lia|]. destruct H as (m & H1 & H2 & H3). exists m. eauto. Qed.
  Lemma chain_lo l lo lo' hi : chain lo hi l -> lo' <= lo -> chain lo' hi l.
  Proof.
    destruct l as [|x l]; cbn; intros H Hl; [lia|]. destruct H as (m & H1 & H2 & H3). exists m.
    split; [lia|]. split; [|assumption]. eapply locO_wide; eauto.
  Qed.
  Lemma chain_snoc x m : forall l lo hi, chain lo hi l -> hi <= m -> locO hi m x -> chain lo m (l ++ [x]).
  Proof.
    induction l as [|y l IH]; cbn; intros lo hi H Hm Hx.
    - exists m. split; [lia|]. split; [eapply locO_wide; eauto|lia].
    - destruct H as (m' & H1 & H2 & H3). exists m'. eauto.
  Qed.
  Lemma chain_front l lo hi : chain lo hi l -> locO lo hi (front l).
  Proof.
    destruct l as [|x l]; cbn; intros H; [exact I|]. destruct H as (m & H1 & H2 & H3). apply chain_le in H3. eapply locO_wide; eauto.
  Qed.
  Lemma toks_hi lo hi hi' l : toks_in lo hi l -> hi <= hi' -> toks_in lo hi' l.
  Proof. intros H Hh. eapply Forall_impl; [|exact H]. cbn. intros; lia. Qed.
  Lemma toks_lo lo lo' hi l : toks_in lo hi l -> lo' <= lo -> toks_in lo' hi l.
  Proof. intros H Hh. eapply Forall_impl; [|exact H]. cbn. intros; lia. Qed.
  Lemma vok_hi lo hi hi' vs : vok lo hi vs -> hi <= hi' -> vok lo hi' vs.
  Proof. intros [A B] H. split; [eapply chain_hi|eapply toks_hi]; eauto. Qed.
  Lemma vok_lo lo lo' hi vs : vok lo hi vs -> lo' <= lo -> vok lo' hi vs.
  Proof. intros [A B] H. split; [eapply chain_lo|eapply toks_lo]; eauto. Qed.
  Lemma vok_new pos : vok pos pos sv_new.
  Proof. split; cbn; [lia|constructor]. Qed.
  Lemma vok_le lo hi vs : vok lo hi vs -> lo <= hi.
  Proof. intros [A _]. eapply chain_le; eauto. Qed.
  Lemma vok_push lo hi n x t vs : vok lo hi vs -> locO hi (hi + n) x -> vok lo (hi + n) (push_val x t vs).
  Proof. intros [A B] H. split; csimpl; [eapply chain_snoc; eauto; lia|eapply toks_hi; eauto; lia]. Qed.
  Lemma vok_tok lo hi p n vs : vok lo hi vs -> lo <= p -> p + n <= hi -> vok lo hi (push_tok (p, n) vs).
  Proof. intros [A B] H1 H2. split; csimpl; [assumption|]. apply Forall_app. split; [assumption|]. constructor; [cbn; lia|constructor]. Qed.
  Lemma vok_same lo hi vs vs' : vok lo hi vs -> v_vals vs' = v_vals vs -> v_toks vs' = v_toks vs -> vok lo hi vs'.
  Proof. intros [A B] H1 H2. split; congruence. Qed.

  (** What the callbacks must respect. *)
  Definition told_of E (r : rid) vs : Prop :=
    forall d, e_recog E = false -> nth_error (e_g E) r = Some d -> told (e_g E) (e_ws E) d (v_cc vs) (v_ch vs).
  Record located E : Prop := {
    lc_action : forall r f vs pos n u pd, e_action E r = Some f -> v_sv vs = (pos, n) -> vok pos (pos + n) vs -> told_of E r vs -> D u ->
                locO pos (pos + n) (fst (f (e_input E) vs u pd)) /\ D (snd (f (e_input E) vs u pd));
    lc_enter : forall r f pos u, e_enter E r = Some f -> D u -> D (f (e_input E) pos u);
    lc_leave : forall r f pos n v u, e_leave E r = Some f -> locO pos (pos + n) v ->
               locO pos (pos + n) (fst (f (e_input E) pos (Some n) v u));
    lc_leave_dt : forall r f pos n v u, e_leave E r = Some f -> D u -> D (snd (f (e_input E) pos n v u));
    lc_user : forall id lo pos vs u n vs' u', vok lo pos vs -> e_user E id (e_input E) pos vs u = (Some n, vs', u') -> vok lo (pos + n) vs';
    lc_user_dt : forall id pos vs u, D u -> D (snd (e_user E id (e_input E) pos vs u));
    lc_u0 : D (e_u0 E);
    lc_slot : e_packrat E = true -> forall r s, e_slot E r = Some s -> s < e_cached E;
    (* a precedence expression is the whole body of a rule *)
    lc_pre : forall r d body, nth_error (e_g E) r = Some d -> r_body d = Some body ->
             nopre body = true \/ (r_is_macro d = false /\ exists a b i, body = Pre a b i r /\ nopre a = true /\ nopre b = true)
  }.
  Record linv E c : Prop := {
    li_lrm : forall r p n v, lr_find (c_lrm c) (r, p) = Some (Some n, v) -> locO p (p + n) v;
    li_pkv : e_packrat E = true -> forall s p n v, s < e_cached E ->
      nfind (c_pkr c) (pk_idx E s p) = Some (Some n) -> nfind (c_pkv c) (pk_idx E s p) = Some v -> loc p (p + n) v;
    li_dt : D (c_dt c)
  }.
  Lemma linv_same E c c' : linv E c -> c_lrm c' = c_lrm c -> c_pkr c' = c_pkr c -> c_pkv c' = c_pkv c -> c_dt c' = c_dt c -> linv E c'.
  Proof. intros [] H1 H2 H3 H4. constructor; rewrite ?H1, ?H2, ?H3, ?H4; assumption. Qed.
  Ltac same := eapply linv_same; [eassumption|reflexivity..].

  Lemma linv_error_pos E E' pos lit c : linv E c -> linv E (set_error_pos E' pos lit c).
  Proof.
    intros H. unfold set_error_pos. destruct (c_log c); [|assumption]. destruct (ole _ _); [|assumption]. cbv zeta.
    repeat match goal with |- context [match ?x with _ => _ end] => destruct x end; same.
  Qed.
  Lemma linv_cut_top E b c : linv E c -> linv E (set_cut_top b c).
  Proof. intros H. unfold set_cut_top. destruct (c_cut c); [assumption|same]. Qed.
  Lemma linv_fs_error E fs id pos c : linv E c -> linv E (fs_error fs id pos c).
  Proof.
    intros H. unfold fs_error.
    repeat match goal with |- context [match ?x with _ => _ end] => destruct x end; try assumption; cbv zeta; same.
  Qed.
  Lemma nfind_erase {A} (m : list (nat * A)) k j x : nfind (nerase k m) j = Some x -> j <> k /\ nfind m j = Some x.
  Proof.
    unfold nfind, nerase. induction m as [|[a b] m IH]; cbn; [discriminate|]. destruct (Nat.eqb_spec a k) as [->|Hn]; cbn [negb].
    - intros H. apply IH in H as [H1 H2]. split; [assumption|]. destruct (Nat.eqb_spec k j); [congruence|assumption].
    - cbn. destruct (Nat.eqb_spec a j) as [->|]; [intros H; now split|exact IH].
  Qed.
  Lemma nfind_set {A} (m : list (nat * A)) k y j x : nfind (nset k y m) j = Some x -> (j = k /\ x = y) \/ (j <> k /\ nfind m j = Some x).
  Proof.
    unfold nset. intros H. destruct (Nat.eq_dec j k) as [->|Hn].
    - left. split; [reflexivity|]. unfold nfind in H. cbn in H. rewrite Nat.eqb_refl in H. now inv H.
    - right. unfold nfind in H. cbn in H. destruct (Nat.eqb_spec k j); [congruence|]. apply nfind_erase in H. assumption.
  Qed.
  Lemma key_eq (a b : lrkey) : key_eqb a b = true <-> a = b.
  Proof. destruct a, b. unfold key_eqb. cbn. rewrite andb_true_iff, !Nat.eqb_eq. split; [intros []; congruence|intros H; now inv H]. Qed.
  Lemma lr_find_filter (f : lrkey * (option nat * option V) -> bool) m k x :
    (forall a y, key_eqb a k = true -> f (a, y) = true) ->
    lr_find (filter f m) k = Some x -> lr_find m k = Some x.
  Proof.
    intros Hf. unfold lr_find. induction m as [|[a b] m IH]; cbn; [discriminate|]. destruct (f (a, b)) eqn:E; cbn.
    - destruct (key_eqb a k); [auto|exact IH].
    - destruct (key_eqb a k) eqn:Ek; [rewrite Hf in E by assumption; discriminate|exact IH].
  Qed.
  Lemma lr_find_filter_key (g : lrkey -> bool) (m : list (lrkey * (option nat * option V))) k x :
    lr_find (filter (fun p => g (fst p)) m) k = Some x -> lr_find m k = Some x.
  Proof.
    unfold lr_find. induction m as [|[a b] m IH]; cbn; [discriminate|]. destruct (key_eqb a k) eqn:Ek.
    - destruct (g a) eqn:Eg; cbn; rewrite ?Ek; [auto|]. apply key_eq in Ek. subst a. intros H. exfalso.
      destruct (find _ _) as [[a' b']|] eqn:Hf; [|discriminate]. apply find_some in Hf as [Hin Hk]. cbn in Hk. apply key_eq in Hk. subst.
      apply filter_In in Hin as [_ Hg]. cbn in Hg. congruence.
    - destruct (g a); cbn; rewrite ?Ek; exact IH.
  Qed.
  Lemma linv_lrm_erase E c k : linv E c -> linv E (set_lrm (lr_erase k (c_lrm c)) c).
  Proof.
    intros []. constructor; csimpl; [|assumption|assumption]. intros r p n v H. unfold lr_erase in H.
    apply (lr_find_filter_key (fun a => negb (key_eqb a k))) in H. eauto.
  Qed.
  Lemma linv_lrm_set E c r p x : linv E c -> (forall n, fst x = Some n -> locO p (p + n) (snd x)) ->
    linv E (set_lrm (lr_set (r, p) x (c_lrm c)) c).
  Proof.
    intros [] Hx. constructor; csimpl; [|assumption|assumption]. intros r' p' n v H. unfold lr_find, lr_set in H. cbn [find fst snd] in H.
    destruct (key_eqb (r, p) (r', p')) eqn:Ek.
    - apply key_eq in Ek. inv Ek. inv H. apply (Hx n). reflexivity.
    - apply (lr_find_filter_key (fun a => negb (key_eqb a (r, p)))) in H. eauto.
  Qed.
  Lemma linv_clear_cycle E pos r cyc c : linv E c -> linv E (clear_cycle pos r cyc c).
  Proof.
    intros []. unfold clear_cycle. constructor; csimpl; [|assumption|assumption]. intros r' p n v H.
    eapply (lr_find_filter_key (fun a => negb ((snd a =? pos) && negb (fst a =? r) && existsb (Nat.eqb (fst a)) cyc && negb (existsb (key_eqb a) (c_acts c))))) in H.
    eauto.
  Qed.
  Lemma linv_pkr_none E c k : linv E c -> linv E (set_pkr (nset k None (c_pkr c)) c).
  Proof.
    intros []. constructor; csimpl; [assumption| |assumption]. intros Hp s p n v Hs H1 H2. apply nfind_set in H1 as [[_ H1]|[_ H1]]; [discriminate|]. eauto.
  Qed.
  Lemma linv_write E pos r len val c : located E -> linv E c -> locO pos (pos + len) val -> linv E (write_packrat_cache E pos r len val c).
  Proof.
    intros HE Hc Hl. unfold write_packrat_cache. destruct (e_packrat E) eqn:Hp; [|assumption].
    destruct (e_slot E r) as [s|] eqn:Hs; [|assumption]. cbv zeta. pose proof (lc_slot _ HE Hp _ _ Hs) as Hsl.
    destruct (_ <? _); [|assumption]. destruct Hc as [H1 H2 H3]. specialize (H2 Hp). destruct (_ <? _)%N.
    - constructor; csimpl; [assumption| |assumption]. intros _ s' p n v Hs' Ha Hb. apply nfind_erase in Ha as [_ Ha]. eauto.
    - destruct val as [x|]; (constructor; csimpl; [assumption| |assumption]); intros _ s' p n v Hs' Ha Hb.
      + apply nfind_set in Ha as [[Hi Ha]|[Hi Ha]].
        * inv Ha. rewrite Hi in Hb. apply nfind_set in Hb as [[_ ->]|[Hb _]]; [|congruence].
          apply (f_equal (fun z => z / e_cached E)) in Hi. rewrite !idx_div in Hi by assumption. subst p. exact Hl.
        * apply nfind_set in Hb as [[Hb _]|[_ Hb]]; [congruence|eauto].
      + apply nfind_erase in Hb as [Hi Hb]. apply nfind_set in Ha as [[Ha _]|[_ Ha]]; [congruence|eauto].
  Qed.
  Lemma linv_clear E pos r c : linv E c -> linv E (clear_packrat_cache E pos r c).
  Proof.
    intros []. unfold clear_packrat_cache. destruct (e_packrat E) eqn:Hp; [|constructor; auto; congruence].
    specialize (li_pkv0 eq_refl). destruct (e_slot E r) as [s|]; [|constructor; auto]. cbv zeta.
    match goal with |- context [if ?b then _ else _] => destruct b end; constructor; csimpl; auto;
      intros _ s' p n v Hs' Ha Hb; apply nfind_erase in Hb as [_ Hb]; try (apply nfind_erase in Ha as [_ Ha]); eauto.
  Qed.
  Lemma linv_action E r vs pd c pos n : located E -> v_sv vs = (pos, n) -> vok pos (pos + n) vs -> told_of E r vs ->
    linv E c -> linv E (snd (run_action E r vs pd c)).
  Proof.
    intros HE Hs Hv Ht H. unfold run_action. cbv zeta. destruct (e_action E r) as [f|] eqn:Ha; [|same].
    pose proof (lc_action _ HE r f vs pos n (c_dt (set_prec (map (fun p : rid * bytes => if fst p =? r then (fst p, sv_token E vs) else p) (c_prec c)) c)) pd Ha Hs Hv Ht (li_dt _ _ H)) as [_ Hl].
    destruct (f _ _ _ _). destruct H. constructor; csimpl; assumption.
  Qed.
  Lemma linv_reduce E r d vs pd c pos n : located E -> v_sv vs = (pos, n) -> vok pos (pos + n) vs -> told_of E r vs ->
    linv E c -> linv E (snd (reduce E r d vs pd c)).
  Proof. intros. unfold reduce. destruct (_ && _); [eapply linv_action; eassumption|assumption]. Qed.
  Lemma loc_action E r vs pd c pos n : located E -> v_sv vs = (pos, n) -> vok pos (pos + n) vs -> told_of E r vs -> linv E c ->
    locO pos (pos + n) (fst (run_action E r vs pd c)).
  Proof.
    intros HE Hs Hv Ht Hi. unfold run_action. cbv zeta. destruct (e_action E r) as [f|] eqn:Ha.
    - pose proof (lc_action _ HE r f vs pos n (c_dt (set_prec (map (fun p : rid * bytes => if fst p =? r then (fst p, sv_token E vs) else p) (c_prec c)) c)) pd Ha Hs Hv Ht (li_dt _ _ Hi)) as [Hl _]. destruct (f _ _ _ _). exact Hl.
    - apply chain_front, Hv.
  Qed.
  Lemma loc_reduce E r d vs pd c pos n : located E -> v_sv vs = (pos, n) -> vok pos (pos + n) vs -> told_of E r vs -> linv E c ->
    locO pos (pos + n) (fst (reduce E r d vs pd c)).
  Proof. intros HE Hs Hv Ht Hi. unfold reduce. destruct (_ && _); [now apply loc_action|apply chain_front, Hv]. Qed.

  (** A precedence expression is only ever parsed into an empty scope. *)
  Definition prerule E q : Prop := forall d, nth_error (e_g E) q = Some d -> exists a b i p, r_body d = Some (Pre a b i p).
  Definition may E o vs : Prop := nopre o = true \/ (vs = sv_new /\ exists a b i q, o = Pre a b i q /\ nopre a = true /\ nopre b = true /\ prerule E q).
  Definition rec_loc (rec : rec_t) : Prop :=
    forall E o lo pos vs c r vs' c', located E -> scoped E -> okargs c -> linv E c -> may E o vs -> vok lo pos vs ->
    rec E o pos vs c = Ok (r, vs', c') -> linv E c' /\ forall n, r = Some n -> vok lo (pos + n) vs'.

  Definition fin E lo pos (r : option nat) vs' c' : Prop := linv E c' /\ forall n, r = Some n -> vok lo (pos + n) vs'.
  Lemma fin_none E lo pos vs c : linv E c -> fin E lo pos None vs c.
  Proof. intros. split; [assumption|discriminate]. Qed.
  Lemma fin_some E lo pos n vs c : linv E c -> vok lo (pos + n) vs -> fin E lo pos (Some n) vs c.
  Proof. intros. split; [assumption|]. intros k Hk. now inv Hk. Qed.

  Section Ops.
    Variable rec : @rec_t V U.
    Hypothesis Hrec : rec_loc rec.
    Hypothesis Hext : rec_ext rec.
    Hypothesis Hfr : rec_frame rec.
    Hypothesis Hkeep : rec_keep rec.
    Hypothesis Hsets : rec_sets rec.

    Lemma l_skip E lo pos vs c r vs' c' : located E -> scoped E -> okargs c -> linv E c -> vok lo pos vs ->
      skip_whitespace E rec pos vs c = Ok (r, vs', c') -> fin E lo pos r vs' c'.
    Proof.
      intros HE HS Hc Hi Hv. unfold skip_whitespace. destruct (e_ws E) eqn:Hw; intros H.
      - destruct (0 <? c_tb c); [inv H; apply fin_some; [assumption|now rewrite Nat.add_0_r]|].
        binv H. eapply Hrec in Hm as [A B]; [inv H; split; [same|exact B]|assumption|assumption|exact Hc|same| |eassumption].
        left. eapply sc_ws; eauto.
      - inv H. apply fin_some; [assumption|now rewrite Nat.add_0_r].
    Qed.
    Lemma l_then_skip E lo pos n vs c r vs' c' : located E -> scoped E -> okargs c -> linv E c -> vok lo (pos + n) vs ->
      then_skip E rec pos n vs c = Ok (r, vs', c') -> fin E lo pos r vs' c'.
    Proof.
      intros HE HS Hc Hi Hv. unfold then_skip. intros H. binv H. eapply l_skip in Hm as [A B]; eauto. inv H. split; [assumption|].
      intros k Hk. destruct r0 as [w|]; inv Hk. rewrite Nat.add_assoc. now apply B.
    Qed.
    Lemma l_literal E lo lit ic pos vs c r vs' c' : located E -> scoped E -> okargs c -> linv E c -> vok lo pos vs ->
      parse_literal E rec lit ic pos vs c = Ok (r, vs', c') -> fin E lo pos r vs' c'.
    Proof.
      intros HE HS Hc Hi Hv. unfold parse_literal. intros H. binv H. destruct a.
      - binv H. destruct a; [eapply l_then_skip in H; eauto; eapply vok_hi; eauto; lia|]. inv H. apply fin_none. now apply linv_error_pos.
      - inv H. apply fin_none. now apply linv_error_pos.
    Qed.
    Lemma l_dic E lo t pos vs c r vs' c' : located E -> scoped E -> okargs c -> linv E c -> vok lo pos vs ->
      parse_dic E rec t pos vs c = Ok (r, vs', c') -> fin E lo pos r vs' c'.
    Proof.
      intros HE HS Hc Hi Hv. unfold parse_dic, fail_at. intros H. destruct (trie_match _ _) as [i id].
      destruct (i =? 0); [inv H; apply fin_none; now apply linv_error_pos|]. cbv zeta in H. binv H. destruct a.
      - eapply l_then_skip in H; eauto. eapply vok_same; [eapply vok_hi; [eassumption|lia]|reflexivity|reflexivity].
      - inv H. apply fin_none. now apply linv_error_pos.
    Qed.
    Lemma l_kg E lo kw pos vs c r vs' c' : located E -> scoped E -> okargs c -> linv E c -> vok lo pos vs ->
      parse_keyword_guarded E rec kw pos vs c = Ok (Some (r, vs', c')) -> fin E lo pos r vs' c'.
    Proof.
      intros HE HS Hc Hi Hv. unfold parse_keyword_guarded. cbv zeta. intros H. pose proof (vok_le _ _ _ Hv) as Hle.
      destruct (_ <? 1); [inv H; apply fin_none; now apply linv_error_pos|].
      binv H. destruct (btest _ _); [|inv H; apply fin_none; now apply linv_error_pos]. binv H.
      assert (Hgo : forall x,
        (let* r := then_skip E rec pos (S a0) (if e_recog E then vs else push_tok (pos, S a0) vs) c in
         Ok (Some r)) = Ok (Some x) -> fin E lo pos (fst (fst x)) (snd (fst x)) (snd x)).
      { intros [[r1 v1] c1] Hx. binv Hx. inv Hx. cbn [fst snd]. eapply l_then_skip in Hm1; eauto.
        assert (vok lo (pos + S a0) vs) by (eapply vok_hi; eauto; lia).
        destruct (e_recog E); [assumption|]. apply vok_tok; auto; lia. }
      destruct (_ && _).
      - destruct (existsb _ _); [inv H; apply fin_none; now apply linv_error_pos|].
        destruct (existsb _ _); [discriminate|]. apply Hgo in H. assumption.
      - apply Hgo in H. assumption.
    Qed.
    Lemma l_seq_loop E lo l : located E -> scoped E -> forallb nopre l = true -> forall pos i vs c r vs' c', okargs c -> linv E c -> vok lo (pos + i) vs ->
      seq_loop E rec l pos i vs c = Ok (r, vs', c') -> fin E lo pos r vs' c'.
    Proof.
      intros HE HS. induction l as [|o l IH]; cbn [seq_loop forallb]; intros Hn pos i vs c r vs' c' Hc Hi Hv H.
      - inv H. now apply fin_some.
      - apply andb_prop in Hn as [Ho Hl]. binv H. pose proof (Hfr _ _ _ _ _ _ _ _ Hm) as Hf.
        eapply Hrec in Hm as [A B]; eauto; [|now left]. destruct r0.
        + eapply IH in H; eauto using okargs_frame. rewrite Nat.add_assoc. now apply B.
        + inv H. now apply fin_none.
    Qed.
    Lemma l_seq E lo kg l pos vs c r vs' c' : located E -> scoped E -> okargs c -> linv E c -> vok lo pos vs -> forallb nopre l = true ->
      parse_seq E rec kg l pos vs c = Ok (r, vs', c') -> fin E lo pos r vs' c'.
    Proof.
      intros HE HS Hc Hi Hv Hn. unfold parse_seq. destruct kg; intros H.
      - binv H. destruct a as [[[r1 v1] c1]|].
        + inv H. eapply l_kg; eauto.
        + eapply l_seq_loop; eauto. now rewrite Nat.add_0_r.
      - eapply l_seq_loop; eauto. now rewrite Nat.add_0_r.
    Qed.
    Lemma l_cho_loop E lo fs total l : located E -> scoped E -> forallb nopre l = true ->
      forall id pos vs c r vs' c', okargs c -> linv E c -> vok lo pos vs ->
      cho_loop E rec fs total l id pos vs c = Ok (r, vs', c') -> fin E lo pos r vs' c'.
    Proof.
      intros HE HS. induction l as [|o l IH]; cbn [cho_loop forallb]; intros Hn id pos vs c r vs' c' Hc Hi Hv H.
      - inv H. now apply fin_none.
      - apply andb_prop in Hn as [Ho Hl]. binv H. destruct a.
        + apply IH in H; auto. eapply okargs_frame; [apply frame_fs_error|assumption]. now apply linv_fs_error.
        + cbv zeta in H. binv H.
          set (c2 := set_err _ _) in *.
          assert (Hc2 : okargs c2).
          { unfold c2, okargs. csimpl. destruct (e_has_cut E); [|exact Hc].
            unfold set_cut_top. destruct (c_cut c); exact Hc. }
          assert (Hi2 : linv E c2).
          { unfold c2. apply linv_same with (c := if e_has_cut E then set_cut_top false c else c); [|reflexivity..]. destruct (e_has_cut E); [now apply linv_cut_top|assumption]. }
          pose proof (Hfr _ _ _ _ _ _ _ _ Hm0) as Hf. pose proof (Hext _ _ _ _ _ _ _ _ HS Hc2 Ho Hm0) as Hx.
          eapply Hrec in Hm0 as [A B]; eauto; [|now left]. destruct r0.
          * inv H. apply fin_some; [eapply linv_same; [exact A|reflexivity..]|]. eapply vok_same; [now apply B|reflexivity|reflexivity].
          * rewrite (rollback_ext _ _ Hx) in H. destruct (_ && _).
            -- inv H. apply fin_none. same.
            -- eapply (IH Hl) in H; [exact H| | |exact Hv]; [exact (okargs_frame _ _ Hf Hc2)|same].
    Qed.
    Lemma l_cho E lo fl fs l pos vs c r vs' c' : located E -> scoped E -> okargs c -> linv E c -> vok lo pos vs -> forallb nopre l = true ->
      parse_cho E rec fl fs l pos vs c = Ok (r, vs', c') -> fin E lo pos r vs' c'.
    Proof.
      intros HE HS Hc Hi Hv Hn. unfold parse_cho. cbv zeta. intros H. binv H. eapply l_cho_loop in Hm as [A B]; eauto.
      - inv H. split; [|exact B]. eapply linv_same; [exact A|destruct (_ && _); reflexivity..].
      - destruct (_ && _); exact Hc.
      - destruct (_ && _); same.
    Qed.
    Lemma l_rep_min E lo e m : located E -> scoped E -> nopre e = true -> forall pos i vs c r vs' c', okargs c -> linv E c -> vok lo (pos + i) vs ->
      rep_min E rec e m pos i vs c = Ok (r, vs', c') -> fin E lo pos r vs' c'.
    Proof.
      intros HE HS He. induction m as [|m IH]; cbn [rep_min]; intros pos i vs c r vs' c' Hc Hi Hv H.
      - inv H. now apply fin_some.
      - binv H. pose proof (Hfr _ _ _ _ _ _ _ _ Hm) as Hf. eapply Hrec in Hm as [A B]; eauto; [|now left]. destruct r0.
        + eapply IH in H; eauto using okargs_frame. rewrite Nat.add_assoc. now apply B.
        + inv H. now apply fin_none.
    Qed.
    Lemma l_rep_more E lo e fuel : located E -> scoped E -> nopre e = true -> forall room pos i vs c r vs' c', okargs c -> linv E c -> vok lo (pos + i) vs ->
      rep_more fuel E rec e room pos i vs c = Ok (r, vs', c') -> fin E lo pos r vs' c'.
    Proof.
      intros HE HS He. induction fuel as [|fuel IH]; cbn [rep_more]; intros room pos i vs c r vs' c' Hc Hi Hv H.
      - destruct room as [[|n]|]; try discriminate. inv H. now apply fin_some.
      - assert (Hx : (let* (r, vs', c') := rec E e (pos + i) vs c in
                match r with
                | Some len => rep_more fuel E rec e (option_map Nat.pred room) pos (i + len) vs' c'
                | None => Ok (Some i, rollback_vs vs vs', rollback_c c c')
                end) = Ok (r, vs', c') -> fin E lo pos r vs' c').
        { clear H. intros H. binv H. pose proof (Hfr _ _ _ _ _ _ _ _ Hm) as Hf. pose proof (Hext _ _ _ _ _ _ _ _ HS Hc He Hm) as Hx.
          eapply Hrec in Hm as [A B]; eauto; [|now left]. destruct r0.
          - eapply IH in H; eauto using okargs_frame. rewrite Nat.add_assoc. now apply B.
          - inv H. rewrite (rollback_ext _ _ Hx). apply fin_some; [same|assumption]. }
        destruct room as [[|n]|]; auto. inv H. now apply fin_some.
    Qed.
    Lemma l_rep fuel E lo e mn mx span pos vs c r vs' c' : located E -> scoped E -> okargs c -> linv E c -> vok lo pos vs -> nopre e = true ->
      parse_rep fuel E rec e mn mx span pos vs c = Ok (r, vs', c') -> fin E lo pos r vs' c'.
    Proof.
      intros HE HS Hc Hi Hv He. unfold parse_rep. destruct span; cbv zeta; intros H.
      - binv H. destruct (_ <? _); inv H.
        + apply fin_none. now apply linv_error_pos.
        + apply fin_some; [|eapply vok_hi; eauto; lia].
          repeat match goal with |- context [if ?b then _ else _] => destruct b end; try assumption; now apply linv_error_pos.
      - binv H. assert (Hf : frame c k) by (eapply frame_rep_min; eauto).
        assert (Hv0 : vok lo (pos + 0) vs) by (now rewrite Nat.add_0_r).
        destruct (l_rep_min E lo e mn HE HS He _ _ _ _ _ _ _ Hc Hi Hv0 Hm) as [A B]. assert (Hk : okargs k) by (eapply okargs_frame; eauto). destruct r0.
        + specialize (B _ eq_refl). destruct mx as [m|].
          * destruct (mn <? m).
            -- eapply l_rep_more in H; eauto.
            -- inv H. now apply fin_some.
          * eapply l_rep_more in H; eauto.
        + inv H. now apply fin_none.
    Qed.
    Lemma l_tok E lo e pos vs c r vs' c' : located E -> scoped E -> okargs c -> linv E c -> vok lo pos vs -> nopre e = true ->
      parse_tok E rec e pos vs c = Ok (r, vs', c') -> fin E lo pos r vs' c'.
    Proof.
      intros HE HS Hc Hi Hv He. unfold parse_tok. cbv zeta. intros H. binv H. pose proof (vok_le _ _ _ Hv) as Hle.
      pose proof (Hfr _ _ _ _ _ _ _ _ Hm) as Hf. eapply Hrec in Hm as [A B]; [|assumption|assumption|exact Hc|same|now left|exact Hv].
      destruct r0.
      - specialize (B _ eq_refl). binv H. inv H. eapply (l_then_skip E lo) in Hm as [A2 B2]; [split; [same|exact B2]|assumption|assumption| | |].
        + eapply okargs_frame in Hf; [exact Hf|exact Hc].
        + same.
        + destruct (e_recog E); [assumption|]. apply vok_tok; auto.
      - inv H. apply fin_none. same.
    Qed.
    Lemma l_body E lo r d body pos vs c len vs' c' : located E -> scoped E -> okargs c -> linv E c -> vok lo pos vs -> may E body vs ->
      parse_ope_body E rec r d body pos vs c = Ok (len, vs', c') -> fin E lo pos len vs' c'.
    Proof.
      intros HE HS Hc Hi Hv Hb. unfold parse_ope_body. cbv zeta. intros H. binv H. inv H.
      set (c1 := if e_need_rules E || r_macro_ref d then set_rstk (r :: c_rstk c) c else c) in *.
      assert (Hc1 : okargs c1) by (unfold c1; destruct (_ || _); exact Hc).
      assert (Hi1 : linv E c1) by (unfold c1; destruct (_ || _); [same|assumption]).
      assert (Hx : fin E lo pos len vs' k).
      { destruct (r_no_whitespace d); [|eapply Hrec; eauto].
        binv Hm. pose proof (Hfr _ _ _ _ _ _ _ _ Hm0) as Hf. eapply Hrec in Hm0 as [A B]; [|assumption|assumption|exact Hc1|same|exact Hb|exact Hv].
        destruct r0.
        - eapply l_then_skip in Hm; eauto. eapply okargs_frame in Hf; [exact Hf|exact Hc1]. same.
        - inv Hm. apply fin_none. same. }
      destruct Hx as [A B]. split; [|exact B]. destruct (_ || _); [same|assumption].
    Qed.
    (** A rule: its value lies in what it matched. *)
    Definition rfin E pos (len : option nat) (val : option V) c' : Prop := linv E c' /\ forall n, len = Some n -> locO pos (pos + n) val.
    Lemma l_do_parse E r d body pos c len val c' : located E -> scoped E -> okargs c -> linv E c -> may E body sv_new ->
      nth_error (e_g E) r = Some d -> r_body d = Some body ->
      do_parse E rec r d body pos c = Ok (len, val, c') -> rfin E pos len val c'.
    Proof.
      intros HE HS Hc Hi Hb Hnd Hbd H. unfold do_parse in H. cbv zeta in H.
      set (c1 := match e_enter E r with Some f => _ | None => c end) in *.
      assert (Hc1 : okargs c1) by (unfold c1; destruct (e_enter E r); exact Hc).
      assert (Hi1 : linv E c1).
      { unfold c1. destruct (e_enter E r) as [f|] eqn:He; [|assumption]. pose proof (lc_enter _ HE r f pos (c_dt c) He (li_dt _ _ Hi)). destruct Hi. constructor; csimpl; assumption. }
      binv H. pose proof Hm as Hm'. eapply (l_body E pos) in Hm as [A B]; eauto using vok_new.
      match type of H with match ?m with (_, _) => _ end = _ => destruct m as [[len' val'] c3] eqn:Hmid end.
      assert (Hx : rfin E pos len' val' c3).
      { destruct r0 as [n|].
        2: { inv Hmid. split; [|discriminate]. destruct (_ && _); [same|assumption]. }
        set (vs2 := if is_choice_like _ then _ else _) in Hmid.
        assert (Hvs : v_sv vs2 = (pos, n) /\ vok pos (pos + n) vs2).
        { specialize (B _ eq_refl). unfold vs2. destruct (is_choice_like _); (split; [reflexivity|]); (eapply vok_same; [exact B|reflexivity..]). }
        destruct Hvs as [Hs Hv].
        assert (Htold : told_of E r vs2).
        { intros d' Hrg Hd'. rewrite Hnd in Hd'. injection Hd' as <-. exact (body_told rec E r d body pos _ n v _ (pos, n) Hkeep Hsets Hrg Hbd Hm'). }
        assert (Hred : forall pd len'' v c'', (if c_rcv k then (Some n, None, k) else let (v, c') := reduce E r d vs2 pd k in (Some n, v, c')) = (len'', v, c'') -> rfin E pos len'' v c'').
        { intros pd len'' v' c'' Hr. destruct (c_rcv k); [inv Hr; split; [assumption|intros; exact I]|].
          pose proof (loc_reduce E r d vs2 pd k pos n HE Hs Hv Htold A) as Hl. pose proof (linv_reduce E r d vs2 pd k pos n HE Hs Hv Htold A) as Hlc.
          destruct (reduce E r d vs2 pd k) as [v'' c'3]. inv Hr. split; [exact Hlc|]. intros m Hm. inv Hm. exact Hl. }
        destruct (e_pred E r) as [p|]; [|now apply Hred in Hmid].
        destruct (p _ _ _) as [[[] msg] pd]; [now apply Hred in Hmid|]. inv Hmid. split; [|discriminate]. destruct (_ && _); [same|assumption]. }
      destruct Hx as [A' B']. destruct (e_leave E r) as [f|] eqn:Hlv.
      - destruct (f _ _ _ _ _) as [v'' dt] eqn:Hf. inv H. pose proof (lc_leave_dt _ HE r f pos len val' (c_dt c3) Hlv (li_dt _ _ A')) as Hdt. rewrite Hf in Hdt. split; [destruct A'; constructor; csimpl; assumption|]. intros n ->. 
        pose proof (lc_leave _ HE r f pos n val' (c_dt c3) Hlv (B' _ eq_refl)) as Hl. now rewrite Hf in Hl.
      - inv H. now split.
    Qed.
    Definition fn_loc E pos (fn : ctx -> outcome (option nat * option V * ctx)) : Prop :=
      forall c len val c', okargs c -> linv E c -> fn c = Ok (len, val, c') -> rfin E pos len val c'.
    Lemma l_packrat E pos r fn c len val c' : located E -> e_packrat E = true -> okargs c -> linv E c -> fn_loc E pos fn ->
      packrat E pos r fn c = Ok (len, val, c') -> rfin E pos len val c'.
    Proof.
      intros HE Hp Hc Hi Hfn. unfold packrat. destruct (e_slot E r) as [s|] eqn:Hs; cbv zeta.
      - destruct (_ <? _); [|discriminate]. pose proof (lc_slot _ HE Hp _ _ Hs) as Hsl. destruct (nfind (c_pkr c) _) as [[n|]|] eqn:Hn; intros H.
        + inv H. split; [assumption|]. intros m Hm. inv Hm. destruct (nfind (c_pkv c') _) eqn:Hv; [|exact I]. cbn. eapply li_pkv; eauto.
        + inv H. split; [assumption|discriminate].
        + binv H. inv H. apply Hfn in Hm as [A B]; [|exact Hc|now apply linv_pkr_none]. split; [|exact B]. destruct len; [|assumption]. apply linv_write; auto.
      - intros H. destruct (nfind _ _).
        + destruct (_ =? _); [inv H; split; [assumption|discriminate]|]. binv H. inv H. apply Hfn in Hm as [A B]; [|exact Hc|same]. split; [same|exact B].
        + binv H. inv H. apply Hfn in Hm as [A B]; [|exact Hc|same]. split; [same|exact B].
    Qed.
    Lemma l_guard E pos r fn c len val c' : located E -> okargs c -> linv E c -> fn_loc E pos fn ->
      guard pos r fn c = Ok (len, val, c') -> rfin E pos len val c'.
    Proof.
      intros HE Hc Hi Hfn. unfold guard. intros H. destruct (lr_find _ _); [inv H; split; [assumption|discriminate]|].
      binv H. inv H. apply Hfn in Hm as [A B]; [|exact Hc|apply linv_lrm_set; [assumption|discriminate]].
      split; [now apply linv_lrm_erase|exact B].
    Qed.
    Lemma okargs_clear E pos r c : okargs c -> okargs (clear_packrat_cache E pos r c).
    Proof. intros H. exact (okargs_frame _ _ (frame_clear E pos r c) H). Qed.
    Lemma l_grow E r d body cycle pos : located E -> scoped E -> may E body sv_new -> nth_error (e_g E) r = Some d -> r_body d = Some body -> forall fuel len val c len' val' c',
      okargs c -> linv E c -> locO pos (pos + len) val ->
      lr_grow fuel E rec r d body cycle pos len val c = Ok (len', val', c') -> linv E c' /\ locO pos (pos + len') val'.
    Proof.
      intros HE HS Hb Hnd Hbd. induction fuel as [|fuel IH]; intros len val c len' val' c' Hc Hi Hv H; cbn [lr_grow] in H; [discriminate|]. cbv zeta in H.
      binv H. assert (Hc2 : okargs (clear_cycle pos r cycle (clear_packrat_cache E pos r c))) by exact (okargs_clear E pos r c Hc).
      pose proof (frame_do_parse rec Hfr _ _ _ _ _ _ _ _ _ Hm) as Hf.
      eapply l_do_parse in Hm as [A B]; eauto; [|now apply linv_clear_cycle, linv_clear]. destruct r0 as [n|].
      - specialize (B _ eq_refl). destruct (_ <=? _); [inv H; split; assumption|].
        eapply IH in H; eauto; [exact (okargs_frame _ _ Hf Hc2)|]. apply linv_lrm_set; [assumption|]. intros m Hm. cbn in Hm. inv Hm. assumption.
      - inv H. split; assumption.
    Qed.
    Lemma l_lr fuel E r d body pos c len val c' : located E -> scoped E -> okargs c -> linv E c -> may E body sv_new -> nth_error (e_g E) r = Some d -> r_body d = Some body ->
      parse_lr fuel E rec r d body pos c = Ok (len, val, c') -> rfin E pos len val c'.
    Proof.
      intros HE HS Hc Hi Hb Hnd Hbd. unfold parse_lr. cbv zeta. destruct (lr_find _ _) as [[[n|] v]|] eqn:Hl; intros H.
      - inv H. split; [same|]. intros m Hm. inv Hm. eapply li_lrm; eauto.
      - inv H. split; [same|discriminate].
      - binv H. set (c1 := set_hits [] _) in *.
        assert (Hi1 : linv E c1). { unfold c1. eapply linv_same; [|reflexivity..]. eapply linv_same; [apply linv_lrm_set; [eassumption|]|reflexivity..]. discriminate. }
        assert (Hc1 : okargs c1) by exact Hc.
        pose proof (frame_do_parse rec Hfr _ _ _ _ _ _ _ _ _ Hm) as Hf.
        eapply l_do_parse in Hm as [A B]; eauto. destruct r0 as [n0|].
        + specialize (B _ eq_refl). binv H. inv H. eapply l_grow in Hm as [A' B']; eauto.
          * split; [eapply linv_same; [apply linv_write; eassumption|reflexivity..]|]. intros m Hm'. inv Hm'. assumption.
          * exact (okargs_frame _ _ Hf Hc1).
          * eapply linv_lrm_set; [same|]. intros m Hm'. cbn in Hm'. inv Hm'. assumption.
        + inv H. split; [same|discriminate].
    Qed.
    Lemma l_hld fuel E lo r pos vs c len vs' c' : located E -> scoped E -> okargs c -> linv E c -> vok lo pos vs ->
      parse_hld fuel E rec r pos vs c = Ok (len, vs', c') -> fin E lo pos len vs' c'.
    Proof.
      intros HE HS Hc Hi Hv. unfold parse_hld. intros H. binv H. unfold get_rule in Hm.
      destruct (nth_error (e_g E) r) as [d|] eqn:Hd; [|discriminate]. inv Hm.
      destruct (r_body a) as [body|] eqn:Hb; [|discriminate].
      destruct (r_is_macro a) eqn:Hmac.
      { destruct (r_lr a); [discriminate|]. binv H. eapply Hrec in Hm as [A B]; [|assumption|assumption|exact Hc|same| |exact Hv].
        - inv H. split; [same|exact B].
        - left. eapply sc_rule; eauto. }
      destruct (e_recog E && negb (r_lr a)) eqn:Hq.
      { apply andb_prop in Hq as [Hq _]. assert (Hnb : may E body vs) by (left; eapply sc_rule; eauto).
        destruct (e_packrat E).
        - destruct (e_slot E r).
          + cbv zeta in H. destruct (_ <? _); [|discriminate].
            destruct (nfind _ _) as [o|]; [inv H; split; [assumption|]; intros m Hm; eapply vok_hi; [exact Hv|lia]|].
            binv H. inv H. eapply l_body in Hm as [A B]; eauto; [|now apply linv_pkr_none]. split; [|exact B]. destruct len; [|assumption]. apply linv_write; auto. exact I.
          + destruct (nfind _ _).
            * destruct (_ =? _); [inv H; now apply fin_none|].
              binv H. inv H. eapply l_body in Hm as [A B]; [|assumption|assumption|exact Hc|same|exact Hv|exact Hnb]. split; [same|exact B].
            * binv H. inv H. eapply l_body in Hm as [A B]; [|assumption|assumption|exact Hc|same|exact Hv|exact Hnb]. split; [same|exact B].
        - destruct (lr_find _ _); [inv H; now apply fin_none|].
          binv H. inv H. eapply l_body in Hm as [A B]; [|assumption|assumption|exact Hc| |exact Hv|exact Hnb].
          + split; [now apply linv_lrm_erase|exact B].
          + apply linv_lrm_set; [assumption|discriminate]. }
      assert (Hnb : may E body sv_new).
      { destruct (lc_pre _ HE r a body Hd Hb) as [Hn|(_ & p1 & p2 & p3 & -> & Hn1 & Hn2)]; [now left|right; split; [reflexivity|]]. exists p1, p2, p3, r. split; [reflexivity|]. split; [assumption|]. split; [assumption|].
        intros d' Hd'. rewrite Hd in Hd'. injection Hd' as <-. eauto. }
      binv H.
      assert (Hx : rfin E pos r0 v k).
      { destruct (r_lr a); [eapply l_lr; eauto|]. destruct (e_packrat E) eqn:Hp; [eapply l_packrat; eauto|eapply l_guard; eauto];
          intros c0 l0 v0 c0' Hc0 Hi0 Hdp; eapply l_do_parse; eauto. }
      destruct Hx as [A B]. destruct r0 as [n|]; inv H; [|now apply fin_none]. apply fin_some; [assumption|].
      destruct (negb (r_ignore a) && _); [apply vok_push; auto|eapply vok_hi; eauto; lia].
    Qed.
    Lemma l_dispatch E lo rl iarg args pos vs c len vs' c' : located E -> scoped E -> okargs c -> linv E c -> vok lo pos vs -> forallb nopre args = true ->
      parse_dispatch E rec rl iarg args pos vs c = Ok (len, vs', c') -> fin E lo pos len vs' c'.
    Proof.
      intros HE HS Hc Hi Hv Ha. unfold parse_dispatch. intros H. destruct rl as [r|].
      - binv H. destruct (r_is_macro a).
        + destruct (c_rstk c) eqn:Hs; [discriminate|]. binv H. binv H.
          destruct (r_lr a); [discriminate|]. binv H. inv H. eapply Hrec in Hm2 as [A B]; [|assumption|assumption| |same|now left|exact Hv].
          * split; [same|exact B].
          * unfold okargs. csimpl. cbn [forallb]. rewrite (nopre_subst_args _ _ _ _ (okargs_top _ Hc) Hm1 Ha). exact Hc.
        + destruct (_ && _); [eapply Hrec; eauto; now left|].
          binv H. inv H. eapply Hrec in Hm0 as [A B]; [|assumption|assumption|exact Hc|same|now left|exact Hv]. split; [same|exact B].
      - destruct (nth_error _ _) eqn:Hn; [|discriminate]. eapply Hrec; eauto. left.
        apply nth_error_In in Hn. pose proof (okargs_top _ Hc) as Ht. rewrite forallb_forall in Ht. auto.
    Qed.
    Lemma l_ref E lo rl iarg args pos vs c len vs' c' : located E -> scoped E -> okargs c -> linv E c -> vok lo pos vs -> forallb nopre args = true ->
      parse_ref E rec rl iarg args pos vs c = Ok (len, vs', c') -> fin E lo pos len vs' c'.
    Proof.
      intros HE HS Hc Hi Hv Ha. unfold parse_ref. destruct (e_tracer E); [|now apply l_dispatch].
      intros H. cbv zeta in H. binv H. inv H. eapply l_dispatch in Hm as [A B]; eauto.
      - split; [same|exact B].
      - match goal with |- okargs (if ?b then _ else _) => destruct b end; exact Hc.
      - match goal with |- linv _ (if ?b then _ else _) => destruct b end; [same|assumption].
    Qed.
    Lemma l_prec_loop E atom binop info rl : located E -> scoped E -> nopre atom = true -> nopre binop = true -> prerule E rl ->
      forall fuel mp pos i vs c r vs' c', okargs c -> linv E c -> vok pos (pos + i) vs ->
      prec_loop fuel E rec atom binop info rl mp pos i vs c = Ok (r, vs', c') -> fin E pos pos r vs' c'.
    Proof.
      intros HE HS Hna Hnb Hpr. induction fuel as [|fuel IH]; intros mp pos i vs c r vs' c' Hc Hi Hv H; cbn [prec_loop] in H.
      { destruct (_ <? _); [discriminate|]. inv H. now apply fin_some. }
      destruct (_ <? _); [|inv H; now apply fin_some].
      binv H. pose proof (Hfr _ _ _ _ _ _ _ _ Hm) as Hf. pose proof (okargs_frame _ _ Hf Hc) as Hk.
      eapply (Hrec E binop (pos + i)) in Hm as [A B]; eauto using vok_new; [|now left].
      destruct r0 as [chlen|]; [|inv H; now apply fin_some]. cbv zeta in H.
      destruct (binfo_find _ _) as [[level la]|]; [|inv H; now apply fin_some].
      destruct (level <? mp); [inv H; now apply fin_some|].
      destruct (v_vals v) as [|opv vrest] eqn:Hvv; [discriminate|].
      specialize (B _ eq_refl). destruct B as [Bc Bt]. rewrite Hvv in Bc. pose proof (chain_front _ _ _ Bc) as Bo. cbn [front] in Bo.
      binv H.
      assert (Hrhs : linv E k0 /\ okargs k0 /\ forall n, r0 = Some n -> vok (pos + (i + chlen)) (pos + (i + chlen) + n) v0).
      { binv Hm. pose proof (Hfr _ _ _ _ _ _ _ _ Hm0) as Hf0. pose proof (okargs_frame _ _ Hf0 Hk) as Hk0.
        eapply (Hrec E atom (pos + (i + chlen))) in Hm0 as [A0 B0]; eauto using vok_new; [|now left].
        destruct r1 as [n1|]; [|inv Hm; split; [assumption|split; [assumption|discriminate]]].
        binv Hm. binv Hm. inv Hm. match goal with Hq : prec_loop _ _ _ _ _ _ _ _ _ _ _ _ = _ |- _ => rename Hq into Hq' end.
        pose proof (frame_prec_loop rec Hfr _ _ _ _ _ _ _ _ _ _ _ _ _ _ Hq') as Hf2.
        eapply IH in Hq' as [A2 B2]; [| |same|now apply B0]; [|exact Hk0].
        split; [same|]. split; [exact (okargs_frame _ _ Hf2 Hk0)|exact B2]. }
      destruct Hrhs as (A1 & Hk1 & B1). destruct r0 as [l2|]; [|inv H; now apply fin_none].
      specialize (B1 _ eq_refl). destruct (v_vals v0) as [|rv rrest] eqn:Hv0; [discriminate|].
      destruct B1 as [B1c B1t]. rewrite Hv0 in B1c. pose proof (chain_front _ _ _ B1c) as Br. cbn [front] in Br.
      set (vs2 := set_vals (v_vals (set_vals (v_vals vs ++ [opv]) vs) ++ [rv]) (set_vals (v_vals vs ++ [opv]) vs)) in *.
      assert (Hv2 : vok pos (pos + (i + chlen + l2)) vs2).
      { destruct Hv as [Vc Vt]. split; cbn.
        - eapply chain_snoc; [eapply chain_snoc; [exact Vc| |exact Bo]| |]; [lia|lia|].
          eapply locO_wide; [exact Br|lia|lia].
        - eapply toks_hi; [exact Vt|lia]. }
      match type of H with match ?m with (_, _) => _ end = _ => destruct m as [[val vs3] c3] eqn:Hmid end.
      assert (Hx : linv E c3 /\ okargs c3 /\ locO pos (pos + (i + chlen + l2)) val /\ v_toks vs3 = v_toks vs2).
      { destruct (has_action E k0 rl).
        - set (vsx := set_span (pos, i + chlen + l2) vs2) in *.
          assert (Htl : told_of E rl vsx). { intros d _ Hd. destruct (Hpr d Hd) as (p1 & p2 & p3 & p4 & Hp). unfold told. now rewrite Hp. }
          pose proof (loc_action E rl vsx None k0 pos (i + chlen + l2) HE eq_refl Hv2 Htl A1) as Hl. pose proof (linv_action E rl vsx None k0 pos (i + chlen + l2) HE eq_refl Hv2 Htl A1) as Hla.
          pose proof (frame_action E rl vsx None k0) as Hfa.
          destruct (run_action E rl vsx None k0) as [v' cx]. inv Hmid. split; [exact Hla|]. split; [exact (okargs_frame _ _ Hfa Hk1)|]. now split.
        - inv Hmid. split; [assumption|]. split; [assumption|]. split; [exact (chain_front _ _ _ (proj1 Hv2))|reflexivity]. }
      destruct Hx as (A3 & Hk3 & Hl & Ht).
      eapply IH in H; eauto. split; cbn.
      - exists (pos + (i + chlen + l2)). split; [lia|]. split; [assumption|lia].
      - rewrite Ht. apply Hv2.
    Qed.
    Lemma l_prec E lo atom binop info rl fuel pos c r vs' c' : located E -> scoped E -> okargs c -> linv E c -> lo <= pos -> nopre atom = true -> nopre binop = true -> prerule E rl ->
      parse_prec fuel E rec atom binop info rl pos sv_new c = Ok (r, vs', c') -> fin E lo pos r vs' c'.
    Proof.
      intros HE HS Hc Hi Hlo Ha Hb Hpr. unfold parse_prec. intros H. binv H. pose proof (Hfr _ _ _ _ _ _ _ _ Hm) as Hf.
      eapply (Hrec E atom pos) in Hm as [A B]; eauto using vok_new; [|now left]. destruct r0 as [la|]; [|inv H; now apply fin_none].
      binv H. binv H. inv H. eapply l_prec_loop in Hm0 as [A2 B2]; eauto.
      - split; [same|]. intros n Hn. eapply vok_lo; [now apply B2|assumption].
      - exact (okargs_frame _ _ Hf Hc).
      - same.
    Qed.

    Lemma l_core fuel E lo o pos vs c r vs' c' : located E -> scoped E -> okargs c -> linv E c -> may E o vs -> vok lo pos vs ->
      parse_core fuel rec E o pos vs c = Ok (r, vs', c') -> fin E lo pos r vs' c'.
    Proof.
      intros HE HS Hc Hi Hmay Hv H.
      destruct Hmay as [Hn|(-> & a & b & i & q & -> & Ha & Hb & Hpr)]; [|exact (l_prec E lo a b i q fuel pos c r vs' c' HE HS Hc Hi (vok_le _ _ _ Hv) Ha Hb Hpr H)].
      assert (Hrec' : forall o' p' vs0 c0 r0 vs1 c1, nopre o' = true -> okargs c0 -> linv E c0 -> vok lo p' vs0 ->
        rec E o' p' vs0 c0 = Ok (r0, vs1, c1) -> fin E lo p' r0 vs1 c1).
      { intros. eapply Hrec; eauto. now left. }
      destruct o; cbn [parse_core nopre] in *; try discriminate H;
        eauto 3 using l_seq, l_cho, l_rep, l_dic, l_literal, l_tok, l_hld, l_ref.
      - unfold parse_and in H. binv H. pose proof (Hext _ _ _ _ _ _ _ _ HS Hc Hn Hm) as Hx. eapply Hrec' in Hm as [A B]; eauto. inv H.
        rewrite (rollback_ext _ _ Hx). split; [same|]. intros n0 Hn0. eapply vok_hi; eauto. lia.
      - unfold parse_not in H. cbv zeta in H. binv H.
        match type of Hm with rec _ _ _ _ ?c0 = _ => assert (Hc0 : okargs c0) by exact Hc; assert (Hi0 : linv E c0) by (first [assumption|same]) end.
        pose proof (Hext _ _ _ _ _ _ _ _ HS Hc0 Hn Hm) as Hx. eapply Hrec' in Hm as [A B]; eauto.
        destruct r0; inv H; rewrite (rollback_ext _ _ Hx).
        + apply fin_none. eapply linv_error_pos. same.
        + apply fin_some; [same|]. now rewrite Nat.add_0_r.
      - unfold parse_cls, fail_at in H. destruct (_ =? 0); [inv H; apply fin_none; now apply linv_error_pos|].
        binv H. binv H. destruct (xorb _ _); inv H; [apply fin_some; [assumption|eapply vok_hi; eauto; lia]|apply fin_none; now apply linv_error_pos].
      - unfold parse_chr, fail_at in H. destruct (_ =? 0); [inv H; apply fin_none; now apply linv_error_pos|].
        binv H. destruct (_ =? _)%N; inv H; [apply fin_some; [assumption|eapply vok_hi; eauto; lia]|apply fin_none; now apply linv_error_pos].
      - unfold parse_dot, fail_at in H. binv H. destruct (_ <? _); inv H; [apply fin_none; now apply linv_error_pos|apply fin_some; [assumption|eapply vok_hi; eauto; lia]].
      - unfold parse_csc in H. binv H. eapply Hrec' in Hm as [A B]; eauto. inv H. split; [same|exact B].
      - unfold parse_cap in H. binv H. eapply Hrec' in Hm as [A B]; eauto. destruct r0; inv H; (split; [first [assumption|same]|exact B]).
      - unfold parse_ign in H. binv H. inv H. eapply (Hrec E o pos) in Hm as [A B]; eauto using vok_new; [|now left]. split; [assumption|].
        intros m Hm. eapply vok_hi; eauto. lia.
      - unfold parse_usr in H. destruct (e_user _ _ _ _ _ _) as [[? ?] ?] eqn:Hu. inv H. pose proof (lc_user_dt _ HE id pos vs (c_dt c) (li_dt _ _ Hi)) as Hdt. rewrite Hu in Hdt. split; [destruct Hi; constructor; csimpl; assumption|].
        intros n ->. eapply lc_user; eauto.
      - eapply Hrec'; eauto. reflexivity.
      - unfold parse_wsp in H. destruct (c_inws c); [inv H; apply fin_some; [assumption|now rewrite Nat.add_0_r]|].
        binv H. eapply Hrec' in Hm as [A B]; [|assumption|exact Hc|same|exact Hv]. inv H. split; [same|exact B].
      - unfold parse_bkr in H. destruct (last_capture _ _).
        + eapply l_literal; eauto.
        + inv H. apply fin_none. repeat match goal with |- context [if ?b then _ else _] => destruct b end; first [assumption|same].
      - discriminate.
      - unfold parse_rcv in H. destruct o; try discriminate. cbv zeta in H. binv H. binv H. binv H. inv H.
        assert (Ha : linv E a /\ okargs a).
        { destruct (c_log c); [|inv Hm; now split]. destruct args as [|[]]; try discriminate; try (inv Hm; now split).
          match type of Hm with match ?x with _ => _ end = _ => destruct x end; [|discriminate]. binv Hm. destruct (r_error_message _); inv Hm; (split; [first [assumption|same]|exact Hc]). }
        destruct Ha as [Hia Hca].
        eapply (Hrec E _ pos) in Hm0 as [A B]; [|assumption|assumption|exact Hca|destruct Hia; constructor; csimpl; [assumption..|apply lc_u0; assumption]|now left|apply vok_new].
        assert (Hia0 : linv E a0).
        { pose proof (li_dt _ _ Hia) as Hda. destruct A. destruct r; [|inv Hm1; constructor; csimpl; assumption]. destruct (c_log a); [|inv Hm1; constructor; csimpl; assumption].
          binv Hm1. inv Hm1. constructor; csimpl; assumption. }
        split; [now apply linv_cut_top|]. intros n Hn'. eapply vok_hi; eauto. lia.
      - inv H. apply fin_some; [now apply linv_cut_top|now rewrite Nat.add_0_r].
    Qed.
  End Ops.

  Theorem parse_loc fuel : forall E o lo pos vs c r vs' c',
    located E -> scoped E -> okargs c -> linv E c -> may E o vs -> vok lo pos vs ->
    parse fuel E o pos vs c = Ok (r, vs', c') -> linv E c' /\ forall n, r = Some n -> vok lo (pos + n) vs'.
  Proof.
    induction fuel as [|fuel IH]; intros E o lo pos vs c r vs' c' HE HS Hc Hi Hmay Hv H; cbn [parse] in H; [discriminate|].
    pose proof (l_core (parse fuel) IH (parse_ext fuel) (parse_frame fuel) (parse_keep fuel) (parse_sets fuel)) as Hcore.
    unfold traced in H. destruct (is_traceable E o c).
    - binv H. inv H. eapply Hcore in Hm as [A B]; [|assumption|assumption|exact Hc|same|exact Hmay|exact Hv]. split; [same|exact B].
    - eapply Hcore in H; eauto.
  Qed.
End Loc.
