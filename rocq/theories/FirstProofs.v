(** * ComputeFirstSet is sound: what it returns covers everything the expression can
    start with. *)
From Verif Require Import Base BaseLemmas Utf8 Escape TrieM Ope Ctx ErrLog Engine EngineLemmas Scope Refine FirstSetM FirstSpec FirstSem.

Section Sized.
  Variable g : grammar.
  Notation may_be_empty := (may_be_empty g).
  Notation starts := (starts g).
  Notation rule_body := (rule_body g).

  (** [starts] with the height of the derivation. *)
  Inductive startsN : nat -> ope -> sym -> Prop :=
  | sn_seq n kg l1 o l2 c : Forall may_be_empty l1 -> startsN n o c -> startsN (S n) (Seq kg (l1 ++ o :: l2)) c
  | sn_cho n fl fs l o c : In o l -> startsN n o c -> startsN (S n) (Cho fl fs l) c
  | sn_rep n e mn mx sp c : startsN n e c -> startsN (S n) (Rep e mn mx sp) c
  | sn_csc n e c : startsN n e c -> startsN (S n) (Csc e) c
  | sn_cap n nm e c : startsN n e c -> startsN (S n) (Cap nm e) c
  | sn_tok n e c : startsN n e c -> startsN (S n) (Tok e) c
  | sn_ign n e c : startsN n e c -> startsN (S n) (Ign e) c
  | sn_wsp n e c : startsN n e c -> startsN (S n) (Wsp e) c
  | sn_rcv n e c : startsN n e c -> startsN (S n) (Rcv e) c
  | sn_pre n a b i r c : startsN n a c -> startsN (S n) (Pre a b i r) c
  | sn_lit s ic b0 b : same_char ic b0 b -> startsN 0 (Lit (b0 :: s) ic) (SByte b)
  | sn_dic t b0 k i b : In (b0 :: k, i) (t_dic t) -> same_char (t_ignore_case t) b0 b -> startsN 0 (Dic t) (SByte b)
  | sn_cls rs lo hi ic b0 b : ascii_ranges rs = true -> In (lo, hi) rs -> (lo <= bN b0 <= hi)%N -> same_char ic b0 b ->
      startsN 0 (Cls rs false ic) (SByte b)
  | sn_cls_wide rs neg ic : neg = true \/ ascii_ranges rs = false -> startsN 0 (Cls rs neg ic) SAny
  | sn_chr b : (bN b <= 0x7F)%N -> startsN 0 (Chr (bN b)) (SByte b)
  | sn_chr_wide cp : (0x7F < cp)%N -> startsN 0 (Chr cp) SAny
  | sn_dot : startsN 0 Dot SAny
  | sn_usr id : startsN 0 (Usr id) SAny
  | sn_bkr nm : startsN 0 (Bkr nm) SAny
  | sn_param nm ia m args : startsN 0 (Ref nm None ia m args) SAny
  | sn_call nm r ia m args : startsN 0 (Ref nm (Some r) ia m args) (SCall r)
  | sn_ref n nm r ia m args d b c : rule_body r d b -> startsN n b c -> startsN (S n) (Ref nm (Some r) ia m args) c
  | sn_wkh n r d b c : rule_body r d b -> startsN n b c -> startsN (S n) (Wkh r) c
  | sn_hld n r d b c : rule_body r d b -> startsN n b c -> startsN (S n) (Hld r) c
  
  | sn_tok_gap e : may_be_empty e -> startsN 0 (Tok e) (SOdd Gap)
  | sn_lit_gap ic : startsN 0 (Lit [] ic) (SOdd Gap)
  | sn_wsp_gap e : startsN 0 (Wsp e) (SOdd Nested)
  | sn_pre_gap a b i r : may_be_empty a -> startsN 0 (Pre a b i r) (SOdd Operand)
  | sn_ref_gap nm r ia m args d b : rule_body r d b -> r_no_whitespace d = true -> may_be_empty b ->
      startsN 0 (Ref nm (Some r) ia m args) (SOdd Gap)
  | sn_wkh_gap r d b : rule_body r d b -> r_no_whitespace d = true -> may_be_empty b -> startsN 0 (Wkh r) (SOdd Gap)
  | sn_hld_gap r d b : rule_body r d b -> r_no_whitespace d = true -> may_be_empty b -> startsN 0 (Hld r) (SOdd Gap)
  | sn_cls_nul rs lo hi ic : In (lo, hi) rs -> lo = 0%N -> startsN 0 (Cls rs false ic) (SOdd NulByte)
  | sn_chr_nul : startsN 0 (Chr 0) (SOdd NulByte)
  | sn_cls_case rs b : in_ranges true rs (bN b) = Ok true ->
      (forall lo hi b0, In (lo, hi) rs -> (lo <= bN b0 <= hi)%N -> tolower b0 <> tolower b) ->
      startsN 0 (Cls rs false true) (SOdd Case).
  Lemma starts_sized o c : starts o c -> exists n, startsN n o c.
  Proof.
    induction 1; try (destruct IHstarts as [n IHs]; exists (S n); econstructor; eassumption); exists 0; econstructor; eassumption.
  Qed.
  Lemma sized_starts n o c : startsN n o c -> starts o c.
  Proof. induction 1; econstructor; eassumption. Qed.
End Sized.

(** ** Byte sets *)
Lemma btest_badd b s x : btest (badd b s) x = beq b x || btest s x.
Proof.
  unfold btest, badd, bset. rewrite N.setbit_eqb.
  destruct (beq b x) eqn:H.
  - apply Byte.byte_dec_bl in H as ->. now rewrite N.eqb_refl.
  - destruct (bN b =? bN x)%N eqn:He; [|reflexivity]. exfalso. apply N.eqb_eq in He.
    assert (b = x) as -> by (rewrite <- (byteN_bN b), <- (byteN_bN x); congruence).
    rewrite Byte.byte_dec_lb in H; congruence.
Qed.
Lemma btest_lor a b x : btest (N.lor a b) x = btest a x || btest b x.
Proof. apply N.lor_spec. Qed.
Lemma beq_refl b : beq b b = true.
Proof. now apply Byte.byte_dec_lb. Qed.
Lemma case_members b0 b : tolower b = tolower b0 -> b = b0 \/ b = toupper b0 \/ b = tolower b0.
Proof.
  intros H.
  assert (X : (negb (beq (tolower b) (tolower b0)) || (beq b b0 || (beq b (toupper b0) || beq b (tolower b0)))) = true).
  { clear H. revert b. revert b0.
    assert (Y : forall b0, forallb (fun b => negb (beq (tolower b) (tolower b0)) || (beq b b0 || (beq b (toupper b0) || beq b (tolower b0)))) (map byteN (map N.of_nat (seq 0 256))) = true).
    { apply all_bytes. vm_compute. reflexivity. }
    intros b0. apply all_bytes. apply Y. }
  rewrite H, beq_refl in X. cbn [negb orb] in X. apply orb_prop in X as [X|X]; [now apply Byte.byte_dec_bl in X; left|].
  apply orb_prop in X as [X|X]; apply Byte.byte_dec_bl in X; auto.
Qed.
Lemma btest_badd_ci ic b0 s b : same_char ic b0 b -> btest (badd_ci ic b0 s) b = true.
Proof.
  unfold same_char, badd_ci. destruct ic.
  - intros H. apply case_members in H as [->|[->| ->]]; rewrite !btest_badd, !beq_refl; now rewrite ?orb_true_r.
  - intros ->. now rewrite btest_badd, beq_refl.
Qed.
Lemma btest_badd_ci_old ic b0 s b : btest s b = true -> btest (badd_ci ic b0 s) b = true.
Proof. intros H. unfold badd_ci. destruct ic; rewrite !btest_badd, H, !orb_true_r; reflexivity. Qed.
Lemma badd_range_old ic lo hi s b : btest s b = true -> btest (badd_range ic lo hi s) b = true.
Proof.
  unfold badd_range. generalize (seq (N.to_nat lo) (S (N.to_nat hi) - N.to_nat lo)). intros l. revert s.
  induction l as [|n l IH]; intros s H; [exact H|]. cbn [fold_left]. apply IH. now apply btest_badd_ci_old.
Qed.
Lemma badd_range_new ic lo hi s b0 b : (lo <= bN b0 <= hi)%N -> same_char ic b0 b -> btest (badd_range ic lo hi s) b = true.
Proof.
  intros Hr Hc. unfold badd_range.
  assert (Hin : In (N.to_nat (bN b0)) (seq (N.to_nat lo) (S (N.to_nat hi) - N.to_nat lo))) by (apply in_seq; lia).
  revert Hin. generalize (seq (N.to_nat lo) (S (N.to_nat hi) - N.to_nat lo)). intros l. revert s.
  induction l as [|n l IH]; intros s Hin; [destruct Hin|]. cbn [fold_left]. destruct Hin as [->|Hin]; [|now apply IH].
  rewrite N2Nat.id, byteN_bN. clear IH.
  assert (H : btest (badd_ci ic b0 s) b = true) by now apply btest_badd_ci.
  revert H. generalize (badd_ci ic b0 s). induction l as [|n l IH]; intros s' H; [exact H|]. cbn [fold_left]. apply IH. now apply btest_badd_ci_old.
Qed.

Definition cov (f : first_set) (c : sym) : Prop :=
  match c with
  | SByte b => btest (fs_chars f) b = true
  | SAny => fs_any_char f = true
  | SOdd _ | SCall _ => True
  end.

Lemma fs_cls_loop_wide ic rs : forall s, snd (fs_cls_loop ic rs s) = negb (ascii_ranges rs).
Proof.
  induction rs as [|[lo hi] rs IH]; intros s; [reflexivity|]. cbn [fs_cls_loop ascii_ranges forallb fst snd].
  rewrite !N.ltb_antisym. unfold ascii_ranges in IH. destruct (lo <=? 127)%N, (hi <=? 127)%N; cbn; auto.
Qed.
Lemma fs_cls_loop_old ic rs b : forall s, btest s b = true -> btest (fst (fs_cls_loop ic rs s)) b = true.
Proof.
  induction rs as [|[lo hi] rs IH]; intros s H; [exact H|]. cbn [fs_cls_loop].
  destruct (_ || _); [exact H|]. apply IH. now apply badd_range_old.
Qed.
Lemma fs_cls_loop_new ic rs lo hi b0 b : ascii_ranges rs = true -> In (lo, hi) rs -> (lo <= bN b0 <= hi)%N -> same_char ic b0 b ->
  forall s, btest (fst (fs_cls_loop ic rs s)) b = true.
Proof.
  intros Ha Hin Hr Hc. induction rs as [|[lo' hi'] rs IH]; intros s; [destruct Hin|]. cbn [fs_cls_loop].
  cbn [ascii_ranges forallb fst snd] in Ha. apply andb_prop in Ha as [H1 H2]. rewrite !N.ltb_antisym.
  apply andb_prop in H1 as [H1 H3]. rewrite H1, H3. cbn [negb orb].
  destruct Hin as [[= -> ->]|Hin].
  - apply fs_cls_loop_old. eapply badd_range_new; eauto.
  - apply IH; auto.
Qed.
Lemma fs_dic_cov t b0 k i b : In (b0 :: k, i) (t_dic t) -> same_char (t_ignore_case t) b0 b -> btest (fs_chars (fs_dic t)) b = true.
Proof.
  intros Hin Hc. unfold fs_dic. cbn. generalize 0%N. induction (t_dic t) as [|[key v] d IH]; intros s; [destruct Hin|].
  cbn [fold_left fst]. destruct Hin as [[= -> ->]|Hin]; [|now apply IH]. clear IH.
  assert (H : btest (badd_ci (t_ignore_case t) b0 s) b = true) by now apply btest_badd_ci.
  revert H. generalize (badd_ci (t_ignore_case t) b0 s). induction d as [|[key2 v2] d IH]; intros s' H; [exact H|].
  cbn [fold_left fst]. apply IH. destruct key2; [exact H|now apply btest_badd_ci_old].
Qed.

(** ** The algorithm *)
Section Algo.
  Variable g : grammar.
  Hypothesis Hne : no_empty_recursion g.
  Notation me := (may_be_empty g).
  Notation rb := (rule_body g).

  Lemma rb_fun r d b d' b' : rb r d b -> rb r d' b' -> d = d' /\ b = b'.
  Proof. intros [A B] [C D]. split; congruence. Qed.

  Definition good (f : first_set) (o : ope) : Prop :=
    (fs_can_be_empty f = true <-> me o) /\ forall c, starts g o c -> cov f c.
  Definition good_cache (l : list (rid * first_set)) : Prop :=
    forall r f, In (r, f) l -> exists d b, rb r d b /\ good f b.
  Definition Rinv (R : list rid) (o : ope) : Prop :=
    forall q d b, In q R -> rb q d b -> forall c, starts g o c -> starts g b c.
  Definition cut (R : list rid) (n : nat) (c : sym) : Prop :=
    exists q d b n', In q R /\ rb q d b /\ n' < n /\ startsN g n' b c.
  Definition post (R : list rid) (st : fst_st) (o : ope) (f : first_set) (st' : fst_st) : Prop :=
    good_cache (s_cache st') /\ s_cycles st <= s_cycles st' /\ (fs_can_be_empty f = true <-> me o)
    /\ forall n c, startsN g n o c -> cov f c \/ (s_cycles st < s_cycles st' /\ cut R n c).
  Lemma cut_le R n n' c : n <= n' -> cut R n c -> cut R n' c.
  Proof. intros H (q & d & b & k & A & B & C & D). exists q, d, b, k. split; [exact A|]. split; [exact B|]. split; [lia|exact D]. Qed.

  Definition visit_ok (R : list rid) (visit : fst_st -> ope -> outcome (first_set * fst_st)) (o : ope) : Prop :=
    forall st f st', good_cache (s_cache st) -> Rinv R o -> visit st o = Ok (f, st') -> post R st o f st'.

  Lemma fs_seq_post R visit kg l : Forall (visit_ok R visit) l ->
    forall l0 acc st f st', Forall me l0 -> good_cache (s_cache st) -> Rinv R (Seq kg (l0 ++ l)) ->
    fs_can_be_empty acc = false ->
    fs_seq visit l acc st = Ok (f, st') ->
    good_cache (s_cache st') /\ s_cycles st <= s_cycles st' /\ (fs_can_be_empty f = true <-> Forall me l)
    /\ (forall c, cov acc c -> cov f c)
    /\ forall l1 o l2 n c, l = l1 ++ o :: l2 -> Forall me l1 -> startsN g n o c -> cov f c \/ (s_cycles st < s_cycles st' /\ cut R n c).
  Proof.
    induction 1 as [|o l Ho Hl IH]; intros l0 acc st f st' H0 Hc HR Ha H; cbn [fs_seq] in H.
    - inv H. split; [exact Hc|]. split; [lia|]. split; [cbn; split; auto|]. split; [intros [] X; exact X|].
      intros l1 o l2 n c X. destruct l1; discriminate.
    - binv H. rename r into e, v into st1.
      assert (HRo : Rinv R o).
      { intros q d b Hq Hb c Hs. eapply HR; eauto. now apply st_seq. }
      destruct (Ho _ _ _ Hc HRo Hm) as (Hc1 & Hcy & Hem & Hcov).
      match type of H with (if _ then fs_seq _ _ ?a _ else _) = _ => set (acc' := a) in * end.
      assert (Hacc : forall c, cov acc c -> cov acc' c).
      { intros [b| |w|r]; cbn; auto; [rewrite btest_lor|]; intros ->; reflexivity. }
      assert (Hacce : forall c, cov e c -> cov acc' c).
      { intros [b| |w|r]; cbn; auto; [rewrite btest_lor|]; intros ->; now rewrite orb_true_r. }
      destruct (fs_can_be_empty e) eqn:He.
      + assert (Hme : me o) by now apply Hem.
        destruct (IH (l0 ++ [o]) acc' st1 f st') as (A & B & C & D & F); auto.
        * apply Forall_app. auto.
        * rewrite <- app_assoc. exact HR.
        * split; [exact A|]. split; [lia|]. split; [rewrite C; split; [auto|intros X; now inv X]|]. split; [auto|].
          intros l1 o' l2 n c Heq H1 Hs. destruct l1 as [|x l1]; cbn in Heq.
          -- inv Heq. destruct (Hcov n c Hs) as [X|[X Y]]; [left; auto|right]. split; [lia|exact Y].
          -- inv Heq. inv H1. destruct (F l1 o' l2 n c eq_refl) as [X|[X Y]]; auto. right. split; [lia|exact Y].
      + inv H. split; [exact Hc1|]. split; [lia|]. split.
        { cbn. rewrite Ha. split; [discriminate|]. intros X. inv X. match goal with Y : me o |- _ => apply Hem in Y end. congruence. }
        split; [exact Hacc|].
        intros l1 o' l2 n c Heq H1 Hs. destruct l1 as [|x l1]; cbn in Heq.
        * inv Heq. destruct (Hcov n c Hs) as [X|X]; auto.
        * inv Heq. inv H1. match goal with Y : me x |- _ => apply Hem in Y end. congruence.
  Qed.
  Lemma fs_cho_post R visit fl fs l : Forall (visit_ok R visit) l ->
    forall l0 acc st f st', good_cache (s_cache st) -> Rinv R (Cho fl fs (l0 ++ l)) ->
    fs_cho visit l acc st = Ok (f, st') ->
    good_cache (s_cache st') /\ s_cycles st <= s_cycles st'
    /\ (fs_can_be_empty f = true <-> fs_can_be_empty acc = true \/ exists o, In o l /\ me o)
    /\ (forall c, cov acc c -> cov f c)
    /\ forall o n c, In o l -> startsN g n o c -> cov f c \/ (s_cycles st < s_cycles st' /\ cut R n c).
  Proof.
    induction 1 as [|o l Ho Hl IH]; intros l0 acc st f st' Hc HR H; cbn [fs_cho] in H.
    - inv H. split; [exact Hc|]. split; [lia|]. split; [split; [auto|intros [X|(o & [] & _)]; exact X]|]. split; [auto|]. intros o n c [].
    - binv H. rename r into e, v into st1.
      assert (HRo : Rinv R o).
      { intros q d b Hq Hb c Hs. eapply HR; eauto. eapply st_cho; [|exact Hs]. apply in_or_app. right. now left. }
      destruct (Ho _ _ _ Hc HRo Hm) as (Hc1 & Hcy & Hem & Hcov).
      assert (Hacc : forall c, cov acc c -> cov (fs_merge acc e) c).
      { intros [b| |w|r]; cbn; auto; [rewrite btest_lor|]; intros ->; reflexivity. }
      assert (Hacce : forall c, cov e c -> cov (fs_merge acc e) c).
      { intros [b| |w|r]; cbn; auto; [rewrite btest_lor|]; intros ->; now rewrite orb_true_r. }
      destruct (IH (l0 ++ [o]) (fs_merge acc e) st1 f st') as (A & B & C & D & F); auto.
      { rewrite <- app_assoc. exact HR. }
      split; [exact A|]. split; [lia|]. split.
      { rewrite C. cbn. rewrite orb_true_iff. split.
        - intros [[X|X]|(o' & X & Y)]; [now left| |]; right; [exists o|exists o']; (split; [now (left + right)|]); tauto.
        - intros [X|(o' & [->|X] & Y)]; [tauto|left; right; tauto|right; exists o'; auto]. }
      split; [auto|].
      intros o' n c [->|Hin] Hs.
      + destruct (Hcov n c Hs) as [X|[X Y]]; [left; auto|right]. split; [lia|exact Y].
      + destruct (F o' n c Hin Hs) as [X|[X Y]]; [now left|right]. split; [lia|exact Y].
  Qed.
  Definition body_ok (body : list rid -> fst_st -> rid -> outcome (first_set * fst_st)) : Prop :=
    forall R st r f st', good_cache (s_cache st) -> (forall d b, rb r d b -> Rinv R b) ->
    body R st r = Ok (f, st') -> exists d b, rb r d b /\ post R st b f st'.

  Lemma post_map R st o o' f st' : (me o <-> me o') ->
    (forall n c, startsN g n o' c -> cov f c \/ exists n', n' < n /\ startsN g n' o c) ->
    post R st o f st' -> post R st o' f st'.
  Proof.
    intros Hm Hs (A & B & C & D). split; [exact A|]. split; [exact B|]. split; [now rewrite C|].
    intros n c X. destruct (Hs n c X) as [Y|(n' & Hn & Y)]; [now left|]. destruct (D n' c Y) as [Z|[Z W]]; [now left|right].
    split; [exact Z|]. eapply cut_le; [|exact W]. lia.
  Qed.
  Lemma post_pure R st o f : good_cache (s_cache st) -> (fs_can_be_empty f = true <-> me o) ->
    (forall n c, startsN g n o c -> cov f c) -> post R st o f st.
  Proof. intros A B C. split; [exact A|]. split; [lia|]. split; [exact B|]. intros n c X. left. eauto. Qed.

  Lemma cfind_In r l f : cfind r l = Some f -> In (r, f) l.
  Proof.
    unfold cfind. destruct (find (fun e => fst e =? r) l) as [[r' f']|] eqn:H; [|discriminate]. intros [= <-].
    apply find_some in H as [H1 H2]. cbn in H2. apply Nat.eqb_eq in H2 as ->. exact H1.
  Qed.
  Lemma good_finish f f' : fs_chars f' = fs_chars f -> fs_can_be_empty f' = fs_can_be_empty f -> fs_any_char f' = fs_any_char f ->
    forall c, cov f c -> cov f' c.
  Proof. intros A B C [b| |w|r]; cbn; congruence. Qed.

  Lemma fs_ref_post body R st nm r ia m args f st' : body_ok body -> good_cache (s_cache st) ->
    Rinv R (Ref nm (Some r) ia m args) ->
    fs_ref g body R st r = Ok (f, st') -> post R st (Ref nm (Some r) ia m args) f st'.
  Proof.
    intros Hbody Hc HR H. unfold fs_ref in H.
    assert (Hdef : (exists d b, rb r d b) \/ forall d b, ~ rb r d b).
    { unfold FirstSpec.rule_body. destruct (nth_error g r) as [d|] eqn:Hd; [|right; intros ? ? []; discriminate].
      destruct (r_body d) as [b|] eqn:Hb; [left; eauto|right]. intros d' b' []. congruence. }
    destruct Hdef as [(d & b & Hrb)|Hno].
    2:{ destruct (cfind r (s_cache st)) as [rfs|] eqn:Hf.
        - apply cfind_In in Hf. destruct (Hc _ _ Hf) as (d & b & X & _). destruct (Hno _ _ X).
        - destruct (existsb (Nat.eqb r) R).
          + inv H. split; [exact Hc|]. split; [cbn; lia|]. split.
            * cbn. split; [discriminate|]. intros X. inv X. match goal with Y : rb r _ _ |- _ => destruct (Hno _ _ Y) end.
            * intros n c X. left. inv X; try exact I; match goal with Y : rb r _ _ |- _ => destruct (Hno _ _ Y) end.
          + binv H. destruct (Hbody (r :: R) st r r0 v Hc) as (d & b & X & _); [|exact Hm|destruct (Hno _ _ X)].
            intros d b X. destruct (Hno _ _ X). }
    assert (Hme : me b <-> me (Ref nm (Some r) ia m args)).
    { split; [intros; eapply me_ref; eauto|]. intros X. inv X.
      match goal with Y : rb r _ _ |- _ => destruct (rb_fun _ _ _ _ _ Hrb Y) as [<- <-] end. assumption. }
    assert (Hst : forall n c, startsN g n (Ref nm (Some r) ia m args) c ->
       (forall f, cov f c) \/ exists n', n' < n /\ startsN g n' b c).
    { intros n c X. inv X; try (left; intros; exact I).
      match goal with Y : rb r _ _ |- _ => destruct (rb_fun _ _ _ _ _ Hrb Y) as [<- <-] end. right. eexists. split; [|eassumption]. lia. }
    destruct (cfind r (s_cache st)) as [rfs|] eqn:Hf.
    - inv H. apply cfind_In in Hf. destruct (Hc _ _ Hf) as (d' & b' & Hrb' & G1 & G2).
      destruct (rb_fun _ _ _ _ _ Hrb Hrb') as [<- <-]. apply post_pure; [exact Hc| |].
      + cbn. now rewrite G1.
      + intros n c X. destruct (Hst n c X) as [Y|(n' & _ & Y)]; [apply Y|].
        apply (good_finish rfs); auto. apply G2. eapply sized_starts; eauto.
    - destruct (existsb (Nat.eqb r) R) eqn:Hin.
      + inv H. apply existsb_exists in Hin as (q & Hq & Heq). apply Nat.eqb_eq in Heq as <-.
        split; [exact Hc|]. split; [cbn; lia|]. split.
        * cbn. split; [discriminate|]. intros X. exfalso. apply Hme in X.
          apply (Hne r d b Hrb); [|exact X]. apply (HR r d b Hq Hrb). apply st_call.
        * intros n c X. destruct (Hst n c X) as [Y|(n' & Hn & Y)]; [left; apply Y|right]. split; [cbn; lia|].
          exists r, d, b, n'. auto.
      + binv H. rename r0 into cf, v into st1.
        assert (HR' : forall d' b', rb r d' b' -> Rinv (r :: R) b').
        { intros d' b' Hrb'. destruct (rb_fun _ _ _ _ _ Hrb Hrb') as [<- <-]. intros q dq bq [<-|Hq] Hbq c X.
          - destruct (rb_fun _ _ _ _ _ Hrb Hbq) as [<- <-]. exact X.
          - eapply HR; eauto. eapply st_ref; eauto. }
        destruct (Hbody _ _ _ _ _ Hc HR' Hm) as (d' & b' & Hrb' & A & B & C & D).
        destruct (rb_fun _ _ _ _ _ Hrb Hrb') as [<- <-].
        (* the rule's own recursion adds nothing *)
        assert (Hself : forall n c, startsN g n b c -> cov cf c \/ (s_cycles st < s_cycles st1 /\ cut R n c)).
        { intros n. induction n as [n IHn] using lt_wf_ind. intros c X.
          destruct (D n c X) as [Y|[Hlt (q & dq & bq & n' & [<-|Hq] & Hbq & Hn & Y)]]; [now left| |].
          - destruct (rb_fun _ _ _ _ _ Hrb Hbq) as [<- <-]. destruct (IHn n' Hn c Y) as [Z|[Z W]]; [now left|right].
            split; [exact Z|]. eapply cut_le; [|exact W]. lia.
          - right. split; [exact Hlt|]. exists q, dq, bq, n'. auto. }
        destruct (s_cycles st1 =? s_cycles st) eqn:Hcy; inv H.
        * apply Nat.eqb_eq in Hcy. split; [|split; [cbn; lia|split; [cbn; now rewrite C|]]].
          -- intros r' f' [[= <- <-]|Hin']; [|eapply A; eauto].
             exists d, b. split; [exact Hrb|]. split; [exact C|]. intros c X.
             destruct (starts_sized _ _ _ X) as [n X']. destruct (Hself n c X') as [Y|[Y _]]; [exact Y|lia].
          -- intros n c X. left. destruct (Hst n c X) as [Y|(n' & _ & Y)]; [apply Y|].
             apply (good_finish cf); auto. destruct (Hself n' c Y) as [Z|[Z _]]; [exact Z|lia].
        * split; [exact A|]. split; [exact B|]. split; [cbn; now rewrite C|].
          intros n c X. destruct (Hst n c X) as [Y|(n' & Hn & Y)]; [left; apply Y|].
          destruct (Hself n' c Y) as [Z|[Z W]]; [left|right].
          -- apply (good_finish cf); auto.
          -- split; [exact Z|]. eapply cut_le; [|exact W]. lia.
  Qed.

  Lemma cfs_post body : body_ok body -> forall o R, visit_ok R (cfs g body R) o.
  Proof.
    intros Hbody.
    assert (Hwrap : forall (w : ope -> ope) R e,
      (me e <-> me (w e)) -> (forall n c, startsN g n (w e) c -> (forall f, cov f c) \/ exists n', n' < n /\ startsN g n' e c) ->
      (forall c, starts g e c -> starts g (w e) c) ->
      visit_ok R (cfs g body R) e -> (forall st, cfs g body R st (w e) = cfs g body R st e) -> visit_ok R (cfs g body R) (w e)).
    { intros w R e H1 H2 H3 Hv Heq st f st' Hc HR H. rewrite Heq in H. eapply post_map; [exact H1| |eapply Hv; eauto].
      - intros n c X. destruct (H2 n c X) as [Y|Y]; [left; apply Y|right; exact Y].
      - intros q d b Hq Hb c X. eapply HR; eauto. }
    induction o using ope_ind'; intros R.
    - intros st f st' Hc HR H1. cbn [cfs] in H1.
      destruct (fs_seq_post R (cfs g body R) kg l) with (l0 := @nil ope) (acc := fs_empty) (st := st) (f := f) (st' := st') as (A & B & C & D & F); auto.
      { rewrite Forall_forall in *. intros o Ho. apply H. exact Ho. }
      split; [exact A|]. split; [exact B|]. split; [rewrite C; split; [apply me_seq|intros X; now inv X]|].
      intros n c X. inv X. destruct (F l1 o l2 n0 c eq_refl) as [Y|[Y Z]]; auto. right. split; [exact Y|]. eapply cut_le; [|exact Z]. lia.
    - intros st f st' Hc HR H1. cbn [cfs] in H1.
      destruct (fs_cho_post R (cfs g body R) fl fs l) with (l0 := @nil ope) (acc := fs_empty) (st := st) (f := f) (st' := st') as (A & B & C & D & F); auto.
      { rewrite Forall_forall in *. intros o Ho. apply H. exact Ho. }
      split; [exact A|]. split; [exact B|]. split.
      { rewrite C. split; [intros [X|(o & X & Y)]; [discriminate|eapply me_cho; eauto]|]. intros X. inv X. right. eauto. }
      intros n c X. inv X. match goal with Y : In o l |- _ => destruct (F o n0 c Y) as [W|[W Z]] end; auto. right. split; [exact W|]. eapply cut_le; [|exact Z]. lia.
    - intros st f st' Hc HR H. cbn [cfs] in H. binv H. rename r into e, v into st1.
      assert (HRo : Rinv R o) by (intros q d b Hq Hb c X; eapply HR; eauto; now apply st_rep).
      destruct (IHo R _ _ _ Hc HRo Hm) as (A & B & C & D). inv H.
      split; [exact A|]. split; [exact B|]. split.
      + destruct (mn =? 0) eqn:Hmn.
        * apply Nat.eqb_eq in Hmn as ->. cbn. split; [intros _; apply me_rep0|auto].
        * apply Nat.eqb_neq in Hmn. rewrite C. split; [apply me_rep|]. intros X. inv X; [congruence|assumption].
      + intros n c X. inv X. match goal with Y : startsN g _ o c |- _ => destruct (D _ _ Y) as [W|[W Z]] end.
        * left. destruct (mn =? 0); destruct c; exact W.
        * right. split; [exact W|]. eapply cut_le; [|exact Z]. lia.
    - intros st f st' Hc HR H. inv H. apply post_pure; [exact Hc|split; [intros _; apply me_and|auto]|]. intros n c X. inv X.
    - intros st f st' Hc HR H. inv H. apply post_pure; [exact Hc|split; [intros _; apply me_not|auto]|]. intros n c X. inv X.
    - intros st f st' Hc HR H. inv H. apply post_pure; [exact Hc|split; [discriminate|intros X; inv X]|]. intros n c X. inv X.
      eapply fs_dic_cov; eauto.
    - intros st f st' Hc HR H. cbn [cfs] in H. inv H. destruct s as [|b0 s].
      + apply post_pure; [exact Hc|split; [intros _; apply me_lit|reflexivity]|]. intros n c X. inv X. exact I.
      + apply post_pure; [exact Hc|split; [discriminate|intros X; inv X]|]. intros n c X. inv X. cbn. now apply btest_badd_ci.
    - intros st f st' Hc HR H. cbn [cfs] in H. inv H.
      assert (Hfe : fs_can_be_empty (fs_cls rs neg ic) = false) by (unfold fs_cls; destruct (fs_cls_loop ic rs 0%N); reflexivity).
      apply post_pure; [exact Hc|rewrite Hfe; split; [discriminate|intros X; inv X]|]. intros n c X. unfold fs_cls.
      pose proof (fs_cls_loop_wide ic rs 0%N) as Hw. destruct (fs_cls_loop ic rs 0%N) as [s w] eqn:Hl. cbn [snd] in Hw. subst w.
      inv X; try exact I; cbn.
      + match goal with A : ascii_ranges rs = true, B : In _ rs, C : (_ <= _ <= _)%N, D : same_char _ _ _ |- _ =>
          pose proof (fs_cls_loop_new ic rs _ _ _ _ A B C D 0%N) as Y end. rewrite Hl in Y. exact Y.
      + match goal with A : neg = true \/ _ |- _ => destruct A as [->|A]; [apply orb_true_r|rewrite A; reflexivity] end.
    - intros st f st' Hc HR H. cbn [cfs] in H. inv H. unfold fs_chr. destruct (0x7F <? cp)%N eqn:Hcp.
      + apply post_pure; [exact Hc|split; [discriminate|intros X; inv X]|]. intros n c X. inv X; try exact I; try reflexivity.
        cbn. apply N.ltb_lt in Hcp. lia.
      + apply post_pure; [exact Hc|split; [discriminate|intros X; inv X]|]. intros n c X. inv X; try exact I.
        * cbn. rewrite byteN_bN, btest_badd, beq_refl. reflexivity.
        * cbn. apply N.ltb_ge in Hcp. lia.
    - intros st f st' Hc HR H. inv H. apply post_pure; [exact Hc|split; [discriminate|intros X; inv X]|]. intros n c X. inv X. reflexivity.
    - apply Hwrap; auto.
      + split; [apply me_csc|intros X; now inv X].
      + intros n c X. inv X. right. eexists. split; [|eassumption]. lia.
      + apply st_csc.
    - apply (Hwrap (Cap n)); auto.
      + split; [apply me_cap|intros X; now inv X].
      + intros n0 c X. inv X. right. eexists. split; [|eassumption]. lia.
      + apply st_cap.
    - apply Hwrap; auto.
      + split; [apply me_tok|intros X; now inv X].
      + intros n c X. inv X; [|left; intros; exact I]. right. eexists. split; [|eassumption]. lia.
      + apply st_tok.
    - apply Hwrap; auto.
      + split; [apply me_ign|intros X; now inv X].
      + intros n c X. inv X. right. eexists. split; [|eassumption]. lia.
      + apply st_ign.
    - intros st f st' Hc HR H. inv H. apply post_pure; [exact Hc|split; [discriminate|intros X; inv X]|]. intros n c X. inv X. reflexivity.
    - intros st f st' Hc HR H. cbn [cfs] in H.
      assert (HRb : forall d b, rb r d b -> Rinv R b).
      { intros d b Hb q dq bq Hq Hbq c X. eapply HR; eauto. eapply st_wkh; eauto. }
      destruct (Hbody _ _ _ _ _ Hc HRb H) as (d & b & Hb & Hpost).
      eapply post_map; [| |exact Hpost].
      + split; [intros; eapply me_wkh; eauto|]. intros X. inv X.
        match goal with Y : rb r _ _ |- _ => destruct (rb_fun _ _ _ _ _ Hb Y) as [<- <-] end. assumption.
      + intros n c X. inv X; [right|left; exact I].
        match goal with Y : rb r _ _ |- _ => destruct (rb_fun _ _ _ _ _ Hb Y) as [<- <-] end. eexists. split; [|eassumption]. lia.
    - intros st f st' Hc HR H. cbn [cfs] in H.
      assert (HRb : forall d b, rb r d b -> Rinv R b).
      { intros d b Hb q dq bq Hq Hbq c X. eapply HR; eauto. eapply st_hld; eauto. }
      destruct (Hbody _ _ _ _ _ Hc HRb H) as (d & b & Hb & Hpost).
      eapply post_map; [| |exact Hpost].
      + split; [intros; eapply me_hld; eauto|]. intros X. inv X.
        match goal with Y : rb r _ _ |- _ => destruct (rb_fun _ _ _ _ _ Hb Y) as [<- <-] end. assumption.
      + intros n c X. inv X; [right|left; exact I].
        match goal with Y : rb r _ _ |- _ => destruct (rb_fun _ _ _ _ _ Hb Y) as [<- <-] end. eexists. split; [|eassumption]. lia.
    - intros st f st' Hc HR H0. cbn [cfs] in H0. destruct rl as [r|].
      + eapply fs_ref_post; eauto.
      + inv H0. apply post_pure; [exact Hc|split; [discriminate|intros X; inv X]|]. intros n0 c X. inv X. reflexivity.
    - apply Hwrap; auto.
      + split; [apply me_wsp|intros X; now inv X].
      + intros n c X. inv X; [|left; intros; exact I]. right. eexists. split; [|eassumption]. lia.
      + apply st_wsp.
    - intros st f st' Hc HR H. inv H. apply post_pure; [exact Hc|split; [discriminate|intros X; inv X]|]. intros k c X. inv X. reflexivity.
    - apply (Hwrap (fun a => Pre a o2 i r)); auto.
      + split; [apply me_pre|intros X; now inv X].
      + intros n c X. inv X; [|left; intros; exact I]. right. eexists. split; [|eassumption]. lia.
      + intros c. apply st_pre.
    - apply Hwrap; auto.
      + split; [apply me_rcv|intros X; now inv X].
      + intros n c X. inv X. right. eexists. split; [|eassumption]. lia.
      + apply st_rcv.
    - intros st f st' Hc HR H. inv H. apply post_pure; [exact Hc|split; [intros _; apply me_cut|auto]|]. intros n c X. inv X.
    - intros st f st' Hc HR H. discriminate.
  Qed.
  Lemma cfs_rule_ok n : body_ok (cfs_rule g n).
  Proof.
    induction n as [|n IH]; intros R st r f st' Hc HR H; [discriminate|]. cbn [cfs_rule] in H.
    destruct (nth_error g r) as [d|] eqn:Hd; [|discriminate]. destruct (r_body d) as [b|] eqn:Hb; [|discriminate].
    exists d, b. assert (Hrb : rb r d b) by (split; assumption). split; [exact Hrb|].
    eapply cfs_post; eauto.
  Qed.
  (** A visit from outside covers everything. *)
  Lemma cfs_good n cache o f st : good_cache cache ->
    cfs g (cfs_rule g n) [] {| s_cache := cache; s_cycles := 0 |} o = Ok (f, st) ->
    good f o /\ good_cache (s_cache st).
  Proof.
    intros Hc H. assert (HR : Rinv [] o) by (intros q d b []). destruct (cfs_post _ (cfs_rule_ok n) o [] {| s_cache := cache; s_cycles := 0 |} _ _ Hc HR H) as (A & B & C & D).
    split; [|exact A]. split; [exact C|]. intros c X. destruct (starts_sized _ _ _ X) as [k Y].
    destruct (D k c Y) as [Z|[_ (q & d & b & n' & [] & _)]]. exact Z.
  Qed.
  Lemma fs_alts_good n : forall l cache fs cache', good_cache cache -> fs_alts g n l cache = Ok (fs, cache') ->
    Forall2 good fs l /\ good_cache cache'.
  Proof.
    induction l as [|o l IH]; intros cache fs cache' Hc H; cbn [fs_alts] in H; [inv H; split; [constructor|exact Hc]|].
    binv H. binv H. inv H. destruct (cfs_good _ _ _ _ _ Hc Hm) as [G1 G2].
    destruct (IH _ _ _ G2 Hm0) as [G3 G4]. split; [now constructor|exact G4].
  Qed.
End Algo.
