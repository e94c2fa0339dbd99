(** * SetupFirstSets annotates soundly. *)
From Verif Require Import Base BaseLemmas Utf8 Escape TrieM Ope Ctx ErrLog Engine EngineLemmas Scope RefSem RefMono Refine RefineOps GrammarCond Top FirstSetM FirstSpec FirstSem FirstProofs.

Lemma nth_error_ext {A} (l1 l2 : list A) : (forall i, nth_error l1 i = nth_error l2 i) -> l1 = l2.
Proof.
  revert l2. induction l1 as [|x l1 IH]; intros [|y l2] H; [reflexivity|specialize (H 0); discriminate|specialize (H 0); discriminate|].
  pose proof (H 0) as H0. inv H0. f_equal. apply IH. intros i. apply (H (S i)).
Qed.

(** Without annotations. *)
Fixpoint strip (o : ope) : ope :=
  match o with
  | Seq _ l => Seq None (map strip l)
  | Cho fl _ l => Cho fl [] (map strip l)
  | Rep e mn mx _ => Rep (strip e) mn mx None
  | And e => And (strip e)
  | Not e => Not (strip e)
  | Csc e => Csc (strip e)
  | Cap n e => Cap n (strip e)
  | Tok e => Tok (strip e)
  | Ign e => Ign (strip e)
  | Wsp e => Wsp (strip e)
  | Rcv e => Rcv (strip e)
  | Pre a b i r => Pre (strip a) (strip b) i r
  | Ref n rl ia m args => Ref n rl ia m (map strip args)
  | _ => o
  end.
Definition strip_rule (d : rule) : rule := with_body d (option_map strip (r_body d)).
Definition strip_grammar (g : grammar) : grammar := map strip_rule g.

Lemma map_id_in {A} (f : A -> A) l : (forall x, In x l -> f x = x) -> map f l = l.
Proof. induction l as [|x l IH]; intros H; [reflexivity|]. cbn. rewrite (H x (or_introl eq_refl)). f_equal. apply IH. intros; apply H; now right. Qed.
Lemma bare_strip o : bare o = true -> strip o = o.
Proof.
  induction o using ope_ind'; cbn [bare strip]; intros Hb; try reflexivity; try (f_equal; now apply IHo).
  - destruct kg; [discriminate|]. f_equal. apply map_id_in. rewrite forallb_forall in Hb. rewrite Forall_forall in H. auto.
  - destruct fs; [|discriminate]. f_equal. apply map_id_in. rewrite forallb_forall in Hb. rewrite Forall_forall in H. auto.
  - destruct sp; [discriminate|]. f_equal. now apply IHo.
  - f_equal. apply map_id_in. rewrite forallb_forall in Hb. rewrite Forall_forall in H. auto.
  - apply andb_prop in Hb as [H1 H2]. f_equal; auto.
Qed.
Lemma strip_bare o : bare (strip o) = true.
Proof.
  induction o using ope_ind'; cbn [bare strip]; try reflexivity; auto.
  - apply forallb_forall. intros x Hx. apply in_map_iff in Hx as (y & <- & Hy). rewrite Forall_forall in H. auto.
  - apply forallb_forall. intros x Hx. apply in_map_iff in Hx as (y & <- & Hy). rewrite Forall_forall in H. auto.
  - apply forallb_forall. intros x Hx. apply in_map_iff in Hx as (y & <- & Hy). rewrite Forall_forall in H. auto.
  - now rewrite IHo1, IHo2.
Qed.
Lemma strip_body g r d b : rule_body g r d b -> rule_body (strip_grammar g) r (strip_rule d) (strip b).
Proof.
  intros [A B]. split; [unfold strip_grammar; now rewrite nth_error_map, A|]. cbn. now rewrite B.
Qed.
Lemma strip_empty g : forall o, may_be_empty g o -> may_be_empty (strip_grammar g) (strip o).
Proof.
  fix IH 2. intros o H. destruct H; cbn [strip].
  - apply me_seq. induction H; cbn; constructor; auto.
  - eapply me_cho; [apply in_map; eassumption|]. now apply IH.
  - apply me_rep0.
  - apply me_rep. now apply IH.
  - apply me_and.
  - apply me_not.
  - apply me_cut.
  - apply me_lit.
  - apply me_csc; now apply IH.
  - apply me_cap; now apply IH.
  - apply me_tok; now apply IH.
  - apply me_ign; now apply IH.
  - apply me_wsp; now apply IH.
  - apply me_rcv; now apply IH.
  - apply me_pre; now apply IH.
  - eapply me_wkh; [apply strip_body; eassumption|]. now apply IH.
  - eapply me_hld; [apply strip_body; eassumption|]. now apply IH.
  - eapply me_ref; [apply strip_body; eassumption|]. now apply IH.
Qed.
Lemma strip_starts g o c : starts g o c -> starts (strip_grammar g) (strip o) c.
Proof.
  induction 1; cbn [strip].
  1:{ rewrite map_app. cbn [map]. apply st_seq; [|exact IHstarts]. clear -H. induction H; cbn; constructor; auto. now apply strip_empty. }
  1:{ eapply st_cho; [apply in_map; eassumption|exact IHstarts]. }
  all: try (constructor; first [assumption|now apply strip_empty]).
  - eapply st_dic; eauto.
  - eapply st_cls; eauto.
  - eapply st_ref; [apply strip_body; eassumption|assumption].
  - eapply st_wkh; [apply strip_body; eassumption|assumption].
  - eapply st_hld; [apply strip_body; eassumption|assumption].
  - eapply st_ref_gap; [apply strip_body; eassumption|assumption|now apply strip_empty].
  - eapply st_wkh_gap; [apply strip_body; eassumption|assumption|now apply strip_empty].
  - eapply st_hld_gap; [apply strip_body; eassumption|assumption|now apply strip_empty].
  - eapply st_cls_nul; eauto.
  - eapply st_cls_case; eauto.
Qed.

(** ** What SetupFirstSets leaves behind *)
Section Setup.
  Variable g : grammar.
  Hypothesis Hne : no_empty_recursion g.
  Hypothesis Hbare : bare_grammar g = true.

  Fixpoint good_ann (o : ope) : Prop :=
    let fix all l := match l with [] => True | a :: l' => good_ann a /\ all l' end in
    match o with
    | Seq kg l => (kg = None \/ kg = kw_guard_of g (map strip l)) /\ all l
    | Cho _ fs l => (fs = [] \/ Forall2 (good g) fs (map strip l)) /\ all l
    | Rep e _ _ sp => (sp = None \/ exists rs neg ic, e = Cls rs neg ic /\ sp = ascii_bitset rs neg ic) /\ good_ann e
    | And e | Not e | Csc e | Cap _ e | Ign e | Tok e | Wsp e | Rcv e | Pre e _ _ _ => good_ann e
    | Ref _ _ _ _ args => forallb bare args = true
    | _ => True
    end.
  Lemma good_ann_all l : (fix all l := match l with [] => True | a :: l' => good_ann a /\ all l' end) l <-> Forall good_ann l.
  Proof.
    induction l as [|a l IH]; split; intros H; [constructor|exact I| |].
    - destruct H as [A B]. constructor; [exact A|]. now apply IH.
    - inversion H; subst. split; [assumption|]. now apply IH.
  Qed.
  Lemma bare_good_ann o : bare o = true -> good_ann o.
  Proof.
    induction o using ope_ind'; cbn [bare good_ann]; intros Hb; try exact I; try (now apply IHo); auto.
    - destruct kg; [discriminate|]. split; [now left|]. apply good_ann_all. rewrite forallb_forall in Hb. rewrite Forall_forall in *. auto.
    - destruct fs; [|discriminate]. split; [now left|]. apply good_ann_all. rewrite forallb_forall in Hb. rewrite Forall_forall in *. auto.
    - destruct sp; [discriminate|]. split; [now left|]. now apply IHo.
    - apply andb_prop in Hb as [H1 H2]. auto.
  Qed.

  Definition done_ok (st : setup_st) : Prop :=
    good_cache g (u_cache st)
    /\ forall r b', In (r, b') (u_done st) -> exists d b, rule_body g r d b /\ strip b' = b /\ good_ann b'.
  Definition rule_ok (rule : setup_st -> rid -> outcome setup_st) : Prop :=
    forall st r st', done_ok st -> rule st r = Ok st' -> done_ok st'.
  Definition visit_good (visit : setup_st -> ope -> outcome (ope * setup_st)) (o : ope) : Prop :=
    forall st o' st', bare o = true -> done_ok st -> visit st o = Ok (o', st') -> strip o' = o /\ good_ann o' /\ done_ok st'.
  Lemma setup_list_good visit l : Forall (visit_good visit) l -> forall st l' st', forallb bare l = true -> done_ok st ->
    setup_list visit st l = Ok (l', st') -> map strip l' = l /\ Forall good_ann l' /\ done_ok st'.
  Proof.
    induction 1 as [|o l Ho Hl IH]; intros st l' st' Hb Hd H; cbn [setup_list] in H.
    - inv H. auto.
    - cbn in Hb. apply andb_prop in Hb as [H1 H2]. binv H. binv H. inv H.
      destruct (Ho _ _ _ H1 Hd Hm) as (A & B & C). destruct (IH _ _ _ H2 C Hm0) as (D & F & G).
      cbn. rewrite A, D. auto.
  Qed.
  Lemma setup_ope_good n rule : rule_ok rule -> forall o, visit_good (setup_ope g n rule) o.
  Proof.
    intros Hrule. induction o using ope_ind'; intros st o' st' Hb Hd Hs; cbn [setup_ope] in Hs; cbn [bare] in Hb.
    - destruct kg; [discriminate|]. binv Hs. inv Hs.
      destruct (setup_list_good (setup_ope g n rule) l H _ _ _ Hb Hd Hm) as (A & B & C).
      cbn. rewrite A. split; [reflexivity|]. split; [|exact C]. split; [now right|]. now apply good_ann_all.
    - destruct fs; [|discriminate]. binv Hs. binv Hs. inv Hs.
      destruct (fs_alts_good g Hne n l _ _ _ (proj1 Hd) Hm) as [G1 G2].
      assert (Hd' : done_ok (with_cache st v)) by (split; [exact G2|exact (proj2 Hd)]).
      destruct (setup_list_good (setup_ope g n rule) l H _ _ _ Hb Hd' Hm0) as (A & B & C).
      cbn. rewrite A. split; [reflexivity|]. split; [|exact C]. split; [now right|]. now apply good_ann_all.
    - destruct sp; [discriminate|]. binv Hs. inv Hs. destruct (IHo _ _ _ Hb Hd Hm) as (A & B & C).
      cbn. rewrite A. split; [reflexivity|]. split; [|exact C]. split; [|exact B].
      destruct o; try now left. right. cbn in A. destruct r; try discriminate.
      exists rs, neg, ic. split; [exact A|]. destruct (ascii_bitset rs neg ic); reflexivity.
    - binv Hs. inv Hs. destruct (IHo _ _ _ Hb Hd Hm) as (A & B & C). cbn. rewrite A. auto.
    - binv Hs. inv Hs. destruct (IHo _ _ _ Hb Hd Hm) as (A & B & C). cbn. rewrite A. auto.
    - inv Hs. cbn. auto.
    - inv Hs. cbn. auto.
    - inv Hs. cbn. auto.
    - inv Hs. cbn. auto.
    - inv Hs. cbn. auto.
    - binv Hs. inv Hs. destruct (IHo _ _ _ Hb Hd Hm) as (A & B & C). cbn. rewrite A. auto.
    - binv Hs. inv Hs. destruct (IHo _ _ _ Hb Hd Hm) as (A & B & C). cbn. rewrite A. auto.
    - binv Hs. inv Hs. destruct (IHo _ _ _ Hb Hd Hm) as (A & B & C). cbn. rewrite A. auto.
    - binv Hs. inv Hs. destruct (IHo _ _ _ Hb Hd Hm) as (A & B & C). cbn. rewrite A. auto.
    - inv Hs. cbn. auto.
    - binv Hs. inv Hs. cbn. eauto.
    - binv Hs. inv Hs. cbn. eauto.
    - assert (Hst : strip (Ref n0 rl ia m args) = Ref n0 rl ia m args) by (apply bare_strip; exact Hb).
      destruct rl as [r|]; [binv Hs|]; inv Hs; (split; [exact Hst|split; [exact Hb|eauto]]).
    - binv Hs. inv Hs. destruct (IHo _ _ _ Hb Hd Hm) as (A & B & C). cbn. rewrite A. auto.
    - inv Hs. cbn. auto.
    - apply andb_prop in Hb as [H1 H2]. binv Hs. inv Hs. destruct (IHo1 _ _ _ H1 Hd Hm) as (A & B & C). cbn.
      rewrite A, (bare_strip _ H2). auto.
    - binv Hs. inv Hs. destruct (IHo _ _ _ Hb Hd Hm) as (A & B & C). cbn. rewrite A. auto.
    - inv Hs. cbn. auto.
    - discriminate.
  Qed.
  Lemma bare_rule r d b : rule_body g r d b -> bare b = true.
  Proof.
    intros [A B]. unfold bare_grammar in Hbare. rewrite forallb_forall in Hbare. specialize (Hbare d (nth_error_In _ _ A)).
    now rewrite B in Hbare.
  Qed.
  Lemma setup_rule_ok n k : rule_ok (setup_rule g k n).
  Proof.
    induction k as [|k IH]; intros st r st' Hd H; cbn [setup_rule] in H.
    - destruct (existsb _ _); [inv H; exact Hd|discriminate].
    - destruct (existsb _ _); [inv H; exact Hd|].
      destruct (nth_error g r) as [d|] eqn:Hr; [|discriminate]. destruct (r_body d) as [b|] eqn:Hb; [|discriminate].
      assert (Hrb : rule_body g r d b) by (split; assumption).
      binv H. inv H. assert (Hd0 : done_ok {| u_cache := u_cache st; u_seen := r :: u_seen st; u_done := u_done st |}) by exact Hd.
      destruct (setup_ope_good n _ IH b _ _ _ (bare_rule _ _ _ Hrb) Hd0 Hm) as (A & B & C).
      split; [exact (proj1 C)|]. cbn [u_done]. intros r' b' [[= <- <-]|Hin]; [|now apply (proj2 C)].
      exists d, b. auto.
  Qed.
  Lemma setup_all_ok k n order : forall st st', done_ok st -> setup_all g k n order st = Ok st' -> done_ok st'.
  Proof.
    induction order as [|r order IH]; intros st st' Hd H; cbn [setup_all] in H; [inv H; exact Hd|].
    binv H. eapply IH; [|exact H]. eapply setup_rule_ok; eauto.
  Qed.
  Lemma apply_done_nth dn r : nth_error (apply_done dn g) r =
    option_map (fun d => match find (fun e => fst e =? r) dn with Some e => with_body d (Some (snd e)) | None => d end) (nth_error g r).
  Proof.
    unfold apply_done.
    assert (H : forall k (g : grammar) r, nth_error (map (fun p => match find (fun e => fst e =? fst p) dn with
                | Some e => with_body (snd p) (Some (snd e)) | None => snd p end) (combine (seq k (List.length g)) g)) r
      = option_map (fun d => match find (fun e => fst e =? k + r) dn with Some e => with_body d (Some (snd e)) | None => d end) (nth_error g r)).
    { intros k g0. revert k. induction g0 as [|x g0 IH]; intros k [|r0]; cbn [List.length seq combine map nth_error option_map]; try reflexivity.
      - cbn [fst snd]. rewrite Nat.add_0_r. reflexivity.
      - rewrite IH. replace (S k + r0) with (k + S r0) by lia. reflexivity. }
    rewrite H. reflexivity.
  Qed.
  Lemma with_body_id d : with_body d (r_body d) = d.
  Proof. destruct d; reflexivity. Qed.

  Theorem setup_good k n order g' : setup_first_sets k n order g = Ok g' ->
    strip_grammar g' = g /\ forall r d b, rule_body g' r d b -> good_ann b.
  Proof.
    intros H. unfold setup_first_sets in H. binv H. inv H.
    assert (Hd : done_ok a).
    { eapply setup_all_ok; [|exact Hm]. split; [intros r f []|intros r b' []]. }
    destruct Hd as [_ Hd].
    assert (Hrule : forall r d, nth_error g r = Some d -> exists d', nth_error (apply_done (u_done a) g) r = Some d' /\ strip_rule d' = d
              /\ forall b', r_body d' = Some b' -> good_ann b').
    { intros r d Hr. rewrite apply_done_nth, Hr. cbn [option_map]. eexists. split; [reflexivity|].
      destruct (find (fun e => fst e =? r) (u_done a)) as [[r' b']|] eqn:Hf.
      - apply find_some in Hf as [Hin He]. cbn in He. apply Nat.eqb_eq in He as ->. destruct (Hd _ _ Hin) as (d0 & b & [A B] & C & D).
        rewrite Hr in A. inv A. split.
        + unfold strip_rule. cbn. rewrite <- B. destruct d0; reflexivity.
        + cbn. intros b0 [= <-]. exact D.
      - split.
        + unfold strip_rule. destruct (r_body d) as [b|] eqn:Hb; cbn [option_map].
          * rewrite (bare_strip b) by (eapply bare_rule; split; eassumption). rewrite <- Hb. apply with_body_id.
          * rewrite <- Hb. apply with_body_id.
        + intros b' Hb. apply bare_good_ann. eapply bare_rule. split; eassumption. }
    split.
    - apply nth_error_ext. intros r. unfold strip_grammar. rewrite nth_error_map.
      destruct (nth_error g r) as [d|] eqn:Hr.
      + destruct (Hrule r d Hr) as (d' & A & B & _). rewrite A. cbn. now rewrite B.
      + rewrite apply_done_nth, Hr. reflexivity.
    - intros r d' b' [A B]. rewrite apply_done_nth in A. destruct (nth_error g r) as [d|] eqn:Hr; [|discriminate].
      destruct (Hrule r d Hr) as (d'' & A' & _ & C). rewrite apply_done_nth, Hr in A'. rewrite A in A'. inv A'. now apply C.
  Qed.
End Setup.

(** ** The bytes of an ASCII class *)
Lemma badd_ci_inv ic b0 s b : btest (badd_ci ic b0 s) b = true -> same_char ic b0 b \/ btest s b = true.
Proof.
  unfold badd_ci, same_char. destruct ic; rewrite !btest_badd, ?orb_true_iff.
  - intros [H|[H|[H|H]]]; [| | |now right]; left; apply Byte.byte_dec_bl in H as <-.
    + apply tolower_idem.
    + assert (X : beq (tolower (toupper b0)) (tolower b0) = true) by (revert b0; apply all_bytes; vm_compute; reflexivity).
      now apply Byte.byte_dec_bl in X.
    + reflexivity.
  - intros [H|H]; [left|now right]. apply Byte.byte_dec_bl in H. auto.
Qed.
Lemma badd_range_inv ic lo hi s b : (hi <= 0x7F)%N -> btest (badd_range ic lo hi s) b = true ->
  (exists b0, (lo <= bN b0 <= hi)%N /\ same_char ic b0 b) \/ btest s b = true.
Proof.
  intros Hh. unfold badd_range.
  assert (Hl : forall n, In n (seq (N.to_nat lo) (S (N.to_nat hi) - N.to_nat lo)) -> (lo <= N.of_nat n <= hi)%N).
  { intros n Hn. apply in_seq in Hn. lia. }
  revert Hl. generalize (seq (N.to_nat lo) (S (N.to_nat hi) - N.to_nat lo)). intros l. revert s.
  induction l as [|n l IH]; intros s Hl H; [now right|]. cbn [fold_left] in H.
  destruct (IH _ (fun m Hm => Hl m (or_intror Hm)) H) as [X|X]; [now left|].
  destruct (badd_ci_inv _ _ _ _ X) as [Y|Y]; [left|now right].
  exists (byteN (N.of_nat n)). split; [|exact Y]. specialize (Hl n (or_introl eq_refl)). rewrite bN_byteN by lia. exact Hl.
Qed.
Lemma ascii_bitset_spec rs ic s b : ascii_bitset rs false ic = Some s ->
  ascii_ranges rs = true /\ (btest s b = true <-> exists lo hi b0, In (lo, hi) rs /\ (lo <= bN b0 <= hi)%N /\ same_char ic b0 b).
Proof.
  unfold ascii_bitset. destruct (ascii_ranges rs) eqn:Ha; [|discriminate]. intros [= <-]. split; [reflexivity|].
  assert (Hgen : forall s0, ascii_ranges rs = true ->
    (btest (fold_left (fun s r => badd_range ic (fst r) (snd r) s) rs s0) b = true <->
     btest s0 b = true \/ exists lo hi b0, In (lo, hi) rs /\ (lo <= bN b0 <= hi)%N /\ same_char ic b0 b)).
  { clear Ha. induction rs as [|[lo hi] rs IH]; intros s0 Ha; cbn [fold_left].
    - split; [auto|]. intros [X|(? & ? & ? & [] & _)]. exact X.
    - cbn [ascii_ranges forallb fst snd] in Ha. apply andb_prop in Ha as [H1 H2]. apply andb_prop in H1 as [H1 H3]. apply N.leb_le in H1, H3.
      rewrite (IH _ H2). cbn [fst snd]. split.
      + intros [X|(lo' & hi' & b0 & A & B & C)].
        * apply badd_range_inv in X as [(b0 & A & B)|X]; [right|now left|exact H3]. exists lo, hi, b0. split; [now left|auto].
        * right. exists lo', hi', b0. split; [now right|auto].
      + intros [X|(lo' & hi' & b0 & [[= <- <-]|A] & B & C)].
        * left. now apply badd_range_old.
        * left. eapply badd_range_new; eauto.
        * right. exists lo', hi', b0. auto. }
  rewrite (Hgen 0%N Ha). split; [|auto]. intros [X|X]; [|exact X]. unfold btest in X. rewrite N.bits_0 in X. discriminate.
Qed.
