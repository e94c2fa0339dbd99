(** * What initialize_definition_ids collects: a set of rules closed under
    "mentions" that contains the start rule, %whitespace and %word. *)
From Verif Require Import Base BaseLemmas Utf8 Escape TrieM LineInfo Ope Ctx ErrLog Engine EngineLemmas Scope Top.

(** [o] only mentions rules of [L]; a cut or recovery operator in it is recorded in
    [cut], a user-defined parser or precedence operator in [opq]. *)
Section Cov.
  Variables (L : rid -> Prop) (cut opq : Prop).
  Fixpoint cov (o : ope) : Prop :=
    match o with
    | Seq _ l | Cho _ _ l => fold_right (fun x p => cov x /\ p) True l
    | Rep e _ _ _ | And e | Not e | Csc e | Cap _ e | Tok e | Ign e | Wsp e => cov e
    | Rcv e => cut /\ cov e
    | Cut => cut
    | Usr _ => opq
    | Pre a b _ _ => opq /\ cov a /\ cov b
    | Wkh r | Hld r => L r
    | Ref _ (Some r) _ _ args => L r /\ fold_right (fun x p => cov x /\ p) True args
    | _ => True
    end.
End Cov.
Lemma cov_mono (L L' : rid -> Prop) (c c' q q' : Prop) o : (forall r, L r -> L' r) -> (c -> c') -> (q -> q') ->
  cov L c q o -> cov L' c' q' o.
Proof.
  intros HL Hc Hq. induction o using ope_ind'; cbn [cov]; auto; try (intuition; fail).
  - induction H; cbn; intuition.
  - induction H; cbn; intuition.
  - destruct rl; [|auto]. intros [H1 H2]. split; [auto|]. clear H1. induction H; cbn in *; intuition.
Qed.
Definition covers (st : ids_st) : ope -> Prop :=
  cov (fun r => In r (id_list st)) (id_cut st = true) (id_opaque st = true).
Record grows (st st' : ids_st) : Prop := {
  gr_list : forall r, In r (id_list st) -> In r (id_list st');
  gr_cut : id_cut st = true -> id_cut st' = true;
  gr_opq : id_opaque st = true -> id_opaque st' = true
}.
Lemma grows_refl st : grows st st. Proof. constructor; auto. Qed.
Lemma grows_trans a b c : grows a b -> grows b c -> grows a c. Proof. intros [] []. constructor; auto. Qed.
Lemma covers_grows st st' o : grows st st' -> covers st o -> covers st' o.
Proof. intros []. apply cov_mono; auto. Qed.
Lemma fold_covers_grows st st' l : grows st st' ->
  fold_right (fun x p => covers st x /\ p) True l -> fold_right (fun x p => covers st' x /\ p) True l.
Proof. intros Hg. induction l; cbn; [auto|]. intros [H1 H2]. split; [eapply covers_grows; eauto|auto]. Qed.
Definition closed_at (g : grammar) (st : ids_st) (r : rid) : Prop :=
  forall d b, nth_error g r = Some d -> r_body d = Some b -> covers st b.
Lemma closed_grows g st st' r : grows st st' -> closed_at g st r -> closed_at g st' r.
Proof. intros Hg H d b Hd Hb. eapply covers_grows; eauto. Qed.

(** Rules not yet entered. *)
Definition unvisited (g : grammar) (st : ids_st) : nat :=
  List.length (filter (fun r => negb (mem_rid r (id_list st))) (seq 0 (List.length g))).
Lemma mem_rid_in r l : mem_rid r l = true <-> In r l.
Proof.
  unfold mem_rid. rewrite existsb_exists. split.
  - intros (x & Hx & He). apply Nat.eqb_eq in He. now subst.
  - intros H. exists r. split; [assumption|apply Nat.eqb_refl].
Qed.
Lemma filter_le {A} (f f' : A -> bool) l : (forall x, f' x = true -> f x = true) ->
  List.length (filter f' l) <= List.length (filter f l).
Proof.
  intros H. induction l as [|a l IH]; cbn; [lia|]. destruct (f' a) eqn:Hf; [rewrite (H _ Hf); cbn; lia|].
  destruct (f a); cbn; lia.
Qed.
Lemma filter_lt {A} (f f' : A -> bool) l x : (forall x, f' x = true -> f x = true) -> In x l -> f x = true -> f' x = false ->
  List.length (filter f' l) < List.length (filter f l).
Proof.
  intros H. induction l as [|a l IH]; cbn; [contradiction|]. intros [-> | Hx] H1 H2.
  - rewrite H1, H2. cbn. pose proof (filter_le f f' l H). lia.
  - specialize (IH Hx H1 H2). destruct (f' a) eqn:Hf; [rewrite (H _ Hf); cbn; lia|]. destruct (f a); cbn; lia.
Qed.
Lemma unvisited_grows g st st' : grows st st' -> unvisited g st' <= unvisited g st.
Proof.
  intros []. apply filter_le. intros x Hx. apply negb_true_iff in Hx. apply negb_true_iff.
  apply not_true_iff_false. intros Hy. apply not_true_iff_false in Hx. apply Hx. apply mem_rid_in. apply gr_list0. now apply mem_rid_in.
Qed.
Lemma unvisited_all g st : unvisited g st <= List.length g.
Proof.
  unfold unvisited. etransitivity; [apply (filter_le (fun _ => true)); auto|].
  replace (filter (fun _ => true) _) with (seq 0 (List.length g)); [now rewrite seq_length|].
  generalize (seq 0 (List.length g)). intros l. induction l as [|x l IH]; [reflexivity|]. cbn [filter]. now rewrite <- IH.
Qed.

Lemma ids_ope_seq en kg l st : ids_ope en (Seq kg l) st = fold_left (fun s x => ids_ope en x s) l st.
Proof. cbn [ids_ope]. revert st. induction l; intros; cbn; auto. Qed.
Lemma ids_ope_cho en fl fs l st : ids_ope en (Cho fl fs l) st = fold_left (fun s x => ids_ope en x s) l st.
Proof. cbn [ids_ope]. revert st. induction l; intros; cbn; auto. Qed.
Lemma ids_ope_ref en n r ia mc args st :
  ids_ope en (Ref n (Some r) ia mc args) st = en r (fold_left (fun s x => ids_ope en x s) args st).
Proof. reflexivity. Qed.

Section Spec.
  Variable g : grammar.
  Definition good_step (st st' : ids_st) : Prop :=
    grows st st' /\ forall x, In x (id_list st') -> In x (id_list st) \/ closed_at g st' x.
  Lemma good_refl st : good_step st st.
  Proof. split; [apply grows_refl|auto]. Qed.
  Lemma good_trans a b c : good_step a b -> good_step b c -> good_step a c.
  Proof.
    intros [G1 H1] [G2 H2]. split; [eapply grows_trans; eauto|]. intros x Hx.
    destruct (H2 x Hx) as [Hb|]; [|auto]. destruct (H1 x Hb); [auto|]. right. eapply closed_grows; eauto.
  Qed.
  Definition good_enter (k : nat) (en : rid -> ids_st -> ids_st) : Prop :=
    forall r st, unvisited g st < k -> good_step st (en r st) /\ In r (id_list (en r st)).
  Lemma ids_ope_spec k en : good_enter k en -> forall o st, unvisited g st < k ->
    good_step st (ids_ope en o st) /\ covers (ids_ope en o st) o.
  Proof.
    intros He.
    assert (Hl : forall l, Forall (fun o => forall st, unvisited g st < k -> good_step st (ids_ope en o st) /\ covers (ids_ope en o st) o) l ->
      forall st, unvisited g st < k -> let st' := fold_left (fun s x => ids_ope en x s) l st in
        good_step st st' /\ fold_right (fun x p => covers st' x /\ p) True l).
    { induction 1 as [|o l Ho Hl IH]; intros st Hu; cbn; [split; [apply good_refl|exact Logic.I]|].
      destruct (Ho st Hu) as [H1 H2]. pose proof (unvisited_grows g _ _ (proj1 H1)).
      destruct (IH (ids_ope en o st)) as [H3 H4]; [lia|]. split; [eapply good_trans; eauto|]. split; [|assumption].
      eapply covers_grows; [apply H3|assumption]. }
    assert (Hsub : forall st, good_step st (ids_cut st)).
    { intros st. split; [constructor; cbn; auto|]. cbn. auto. }
    assert (Hopq : forall st, good_step st (ids_opaque st)).
    { intros st. split; [constructor; cbn; auto|]. cbn. auto. }
    assert (Hin : forall st st', good_step st st' -> unvisited g st < k -> unvisited g st' < k).
    { intros st st' [Hg _] Hu. pose proof (unvisited_grows g _ _ Hg). lia. }
    induction o using ope_ind'; intros st Hu;
      try (split; [apply good_refl|exact Logic.I]);
      try (cbn [ids_ope]; destruct (IHo st Hu); split; assumption).
    - rewrite ids_ope_seq. destruct (Hl _ H st Hu) as [H1 H2]. split; assumption.
    - rewrite ids_ope_cho. destruct (Hl _ H st Hu) as [H1 H2]. split; assumption.
    - cbn [ids_ope]. split; [apply Hopq|]. reflexivity.
    - cbn [ids_ope]. destruct (He r st Hu). split; assumption.
    - cbn [ids_ope]. destruct (He r st Hu). split; assumption.
    - destruct rl as [r|]; [|split; [apply good_refl|exact Logic.I]].
      rewrite ids_ope_ref. destruct (Hl _ H st Hu) as [H1 H2].
      destruct (He r (fold_left (fun s x => ids_ope en x s) args st)) as [H3 H4]; [now apply (Hin _ _ H1)|].
      split; [eapply good_trans; eauto|]. split; [assumption|].
      change (fold_right (fun x p => covers (en r (fold_left (fun s x => ids_ope en x s) args st)) x /\ p) True args).
      eapply fold_covers_grows; [apply H3|exact H2].
    - cbn [ids_ope]. pose proof (Hopq st) as H0. pose proof (Hin _ _ H0 Hu) as U0.
      destruct (IHo1 _ U0) as [H1 H2]. pose proof (Hin _ _ H1 U0) as U1.
      destruct (IHo2 _ U1) as [H3 H4]. split; [eapply good_trans; [|eassumption]; eapply good_trans; eauto|].
      split; [|split; [eapply covers_grows; [apply H3|assumption]|assumption]].
      apply (gr_opq _ _ (proj1 H3)), (gr_opq _ _ (proj1 H1)). reflexivity.
    - cbn [ids_ope]. pose proof (Hsub st) as H0. pose proof (Hin _ _ H0 Hu) as U0.
      destruct (IHo _ U0) as [H1 H2]. split; [eapply good_trans; eauto|]. split; [|assumption].
      apply (gr_cut _ _ (proj1 H1)). reflexivity.
    - cbn [ids_ope]. split; [apply Hsub|]. reflexivity.
  Qed.

  Lemma ids_enter_spec fuel : good_enter fuel (ids_enter fuel g).
  Proof.
    induction fuel as [|k IH]; intros r st Hu; [lia|]. cbn [ids_enter].
    destruct (mem_rid r (id_list st)) eqn:Hm; [apply mem_rid_in in Hm; split; [apply good_refl|assumption]|].
    set (st1 := {| id_list := id_list st ++ [r]; id_cut := id_cut st; id_opaque := id_opaque st |}).
    assert (Hg1 : grows st st1) by (constructor; cbn; auto; intros x Hx; apply in_or_app; auto).
    assert (Hr1 : In r (id_list st1)) by (cbn; apply in_or_app; cbn; auto).
    assert (Hin1 : forall x, In x (id_list st1) -> In x (id_list st) \/ x = r).
    { cbn. intros x Hx. apply in_app_or in Hx. cbn in Hx. intuition. }
    destruct (nth_error g r) as [d|] eqn:Hd.
    2:{ split; [split; [assumption|]|assumption]. intros x Hx. destruct (Hin1 x Hx) as [|Hx']; [auto|]. right. subst x.
        intros d' b Hd'. congruence. }
    destruct (r_body d) as [b|] eqn:Hb.
    2:{ split; [split; [assumption|]|assumption]. intros x Hx. destruct (Hin1 x Hx) as [|Hx']; [auto|]. right. subst x.
        intros d' b Hd'. congruence. }
    assert (Hu1 : unvisited g st1 < k).
    { assert (unvisited g st1 < unvisited g st); [|lia]. apply (filter_lt _ _ _ r).
      - intros x Hx. apply negb_true_iff in Hx. apply negb_true_iff. apply not_true_iff_false. intros Hy.
        apply not_true_iff_false in Hx. apply Hx. apply mem_rid_in, Hg1. now apply mem_rid_in.
      - apply in_seq. split; [lia|]. cbn. apply nth_error_Some. congruence.
      - now rewrite Hm.
      - apply negb_false_iff. now apply mem_rid_in. }
    destruct (ids_ope_spec k _ IH b st1 Hu1) as [[H1 H2] H3].
    split; [split|].
    - eapply grows_trans; eauto.
    - intros x Hx. destruct (H2 x Hx) as [Hx1|]; [|auto]. destruct (Hin1 x Hx1) as [|Hx']; [auto|].
      right. subst x. intros d' b' Hd' Hb'. assert (b' = b) by congruence. now subst b'.
    - apply (gr_list _ _ H1), Hr1.
  Qed.

  Lemma definition_ids_spec start ws word : let ids := definition_ids g start ws word in
    In start (id_list ids) /\ (forall r, In r (id_list ids) -> closed_at g ids r)
    /\ (forall w, ws = Some w -> covers ids w) /\ (forall w, word = Some w -> covers ids w).
  Proof.
    unfold definition_ids. set (en := ids_enter _ g). set (s0 := Build_ids_st _ _ _).
    pose proof (ids_enter_spec (S (List.length g))) as He. fold en in He.
    assert (Hu : forall st, unvisited g st < S (List.length g)) by (intros st; pose proof (unvisited_all g st); lia).
    pose proof (ids_ope_spec _ _ He) as Ho.
    destruct (He start s0 (Hu _)) as [H1 H1'].
    set (s1 := en start s0) in *.
    assert (H2 : let s2 := match ws with Some e => ids_ope en e s1 | None => s1 end in
      good_step s1 s2 /\ (forall w, ws = Some w -> covers s2 w)).
    { destruct ws as [w|]; cbn.
      - destruct (Ho w s1 (Hu _)). split; [assumption|]. intros w' Hw. now injection Hw as <-.
      - split; [apply good_refl|discriminate]. }
    cbn zeta in H2. set (s2 := match ws with Some e => ids_ope en e s1 | None => s1 end) in *. destruct H2 as [H2 H2'].
    assert (H3 : let s3 := match word with Some e => ids_ope en e s2 | None => s2 end in
      good_step s2 s3 /\ (forall w, word = Some w -> covers s3 w)).
    { destruct word as [w|]; cbn.
      - destruct (Ho w s2 (Hu _)). split; [assumption|]. intros w' Hw. now injection Hw as <-.
      - split; [apply good_refl|discriminate]. }
    cbn zeta in H3 |- *. set (s3 := match word with Some e => ids_ope en e s2 | None => s2 end) in *. destruct H3 as [H3 H3'].
    split; [apply H3, H2, H1'|]. split; [|split].
    - intros r Hr. pose proof (good_trans _ _ _ (good_trans _ _ _ H1 H2) H3) as [_ H]. destruct (H r Hr) as [[]|]; assumption.
    - intros w Hw. eapply covers_grows; [apply H3|auto].
    - exact H3'.
  Qed.
End Spec.

(** Two grammars that agree on the rules met from the start rule give the same
    scan. *)
Section Agree.
  Variables (g1 g2 : grammar).
  Definition same_body (r : rid) : Prop :=
    (match nth_error g1 r with Some d => r_body d | None => None end)
    = (match nth_error g2 r with Some d => r_body d | None => None end).
  Definition agree_enter (en1 en2 : rid -> ids_st -> ids_st) (k1 k2 : nat) : Prop :=
    forall r st, unvisited g1 st < k1 -> unvisited g2 st < k2 ->
      (forall x, In x (id_list (en1 r st)) -> same_body x) -> en2 r st = en1 r st.
  Lemma ids_ope_agree en1 en2 k1 k2 :
    good_enter g1 k1 en1 -> good_enter g2 k2 en2 -> agree_enter en1 en2 k1 k2 ->
    forall o st, unvisited g1 st < k1 -> unvisited g2 st < k2 ->
      (forall x, In x (id_list (ids_ope en1 o st)) -> same_body x) -> ids_ope en2 o st = ids_ope en1 o st.
  Proof.
    intros G1 G2 Ha.
    assert (S1 : forall o st, unvisited g1 st < k1 -> grows st (ids_ope en1 o st)) by
      (intros o st Hu; apply (ids_ope_spec g1 k1 en1 G1 o st Hu)).
    assert (Sl : forall l st, unvisited g1 st < k1 -> grows st (fold_left (fun s x => ids_ope en1 x s) l st)).
    { induction l as [|a l IH]; intros st Hu; cbn; [apply grows_refl|]. pose proof (S1 a st Hu) as Hg.
      eapply grows_trans; [exact Hg|]. apply IH. pose proof (unvisited_grows g1 _ _ Hg). lia. }
    assert (Hl : forall l, Forall (fun o => forall st, unvisited g1 st < k1 -> unvisited g2 st < k2 ->
        (forall x, In x (id_list (ids_ope en1 o st)) -> same_body x) -> ids_ope en2 o st = ids_ope en1 o st) l ->
      forall st, unvisited g1 st < k1 -> unvisited g2 st < k2 ->
        (forall x, In x (id_list (fold_left (fun s x => ids_ope en1 x s) l st)) -> same_body x) ->
        fold_left (fun s x => ids_ope en2 x s) l st = fold_left (fun s x => ids_ope en1 x s) l st).
    { induction 1 as [|o l Ho Hl IH]; intros st Hu1 Hu2 Hx; cbn; [reflexivity|]. cbn in Hx.
      pose proof (S1 o st Hu1) as Hg. pose proof (unvisited_grows g1 _ _ Hg). pose proof (unvisited_grows g2 _ _ Hg).
      rewrite Ho; [|assumption|assumption|]. 2:{ intros x Hi. apply Hx. apply Sl; [lia|assumption]. }
      apply IH; [lia|lia|assumption]. }
    induction o using ope_ind'; intros st Hu1 Hu2 Hx; try reflexivity;
      try (cbn [ids_ope] in *; apply IHo; assumption).
    - rewrite !ids_ope_seq in *. now apply Hl.
    - rewrite !ids_ope_cho in *. now apply Hl.
    - cbn [ids_ope] in *. now apply Ha.
    - cbn [ids_ope] in *. now apply Ha.
    - destruct rl as [r|]; [|reflexivity]. rewrite !ids_ope_ref in *.
      pose proof (Sl args st Hu1) as Hg. pose proof (unvisited_grows g1 _ _ Hg). pose proof (unvisited_grows g2 _ _ Hg).
      assert (Hg' : grows (fold_left (fun s x => ids_ope en1 x s) args st) (en1 r (fold_left (fun s x => ids_ope en1 x s) args st))).
      { apply G1. lia. }
      rewrite Hl; [|assumption|assumption|assumption|]. 2:{ intros x Hi. apply Hx. now apply Hg'. }
      apply Ha; [lia|lia|assumption].
    - cbn [ids_ope] in *. assert (U1 : unvisited g1 (ids_opaque st) < k1) by exact Hu1.
      assert (U2 : unvisited g2 (ids_opaque st) < k2) by exact Hu2.
      pose proof (S1 o1 _ U1) as Hg. pose proof (unvisited_grows g1 _ _ Hg). pose proof (unvisited_grows g2 _ _ Hg).
      pose proof (S1 o2 (ids_ope en1 o1 (ids_opaque st)) ltac:(lia)) as Hg2.
      rewrite IHo1; [|assumption|assumption|]. 2:{ intros x Hi. apply Hx. now apply Hg2. }
      apply IHo2; [lia|lia|assumption].
  Qed.
  Lemma ids_enter_agree k1 : forall k2, agree_enter (ids_enter k1 g1) (ids_enter k2 g2) k1 k2.
  Proof.
    induction k1 as [|k1 IH]; intros k2 r st Hu1 Hu2 Hx; [lia|]. destruct k2 as [|k2]; [lia|].
    pose proof (ids_enter_spec g1 (S k1) r st Hu1) as [_ Hr]. pose proof (Hx r Hr) as Hb. unfold same_body in Hb.
    cbn [ids_enter] in *. destruct (mem_rid r (id_list st)) eqn:Hm; [reflexivity|].
    set (st1 := {| id_list := id_list st ++ [r]; id_cut := id_cut st; id_opaque := id_opaque st |}) in *.
    assert (Hlt : forall g, r < List.length g -> unvisited g st1 < unvisited g st).
    { intros g Hg. apply (filter_lt _ _ _ r).
      - intros x Hi. apply negb_true_iff in Hi. apply negb_true_iff. apply not_true_iff_false. intros Hy.
        apply not_true_iff_false in Hi. apply Hi. apply mem_rid_in. apply mem_rid_in in Hy. cbn. apply in_or_app. auto.
      - apply in_seq. lia.
      - now rewrite Hm.
      - apply negb_false_iff. apply mem_rid_in. cbn. apply in_or_app. cbn. auto. }
    destruct (nth_error g1 r) as [d1|] eqn:H1; destruct (nth_error g2 r) as [d2|] eqn:H2.
    - rewrite Hb in *. destruct (r_body d2) as [b|] eqn:Hbd; [|reflexivity].
      assert (L1 : unvisited g1 st1 < unvisited g1 st) by (apply Hlt, nth_error_Some; congruence).
      assert (L2 : unvisited g2 st1 < unvisited g2 st) by (apply Hlt, nth_error_Some; congruence).
      eapply (ids_ope_agree _ _ k1 k2); [apply ids_enter_spec|apply ids_enter_spec|apply IH|lia|lia|assumption].
    - now rewrite Hb.
    - now rewrite <- Hb.
    - reflexivity.
  Qed.
  Lemma definition_ids_agree start ws word :
    (forall x, In x (id_list (definition_ids g1 start ws word)) -> same_body x) ->
    definition_ids g2 start ws word = definition_ids g1 start ws word.
  Proof.
    unfold definition_ids. set (en1 := ids_enter _ g1). set (en2 := ids_enter _ g2). set (s0 := Build_ids_st _ _ _).
    pose proof (ids_enter_spec g1 (S (List.length g1))) as G1. pose proof (ids_enter_spec g2 (S (List.length g2))) as G2.
    pose proof (ids_enter_agree (S (List.length g1)) (S (List.length g2))) as Ha. fold en1 in G1, Ha. fold en2 in G2, Ha.
    assert (U1 : forall st, unvisited g1 st < S (List.length g1)) by (intros st; pose proof (unvisited_all g1 st); lia).
    assert (U2 : forall st, unvisited g2 st < S (List.length g2)) by (intros st; pose proof (unvisited_all g2 st); lia).
    pose proof (ids_ope_agree _ _ _ _ G1 G2 Ha) as Ho.
    assert (Hg : forall o st, grows st (ids_ope en1 o st)) by (intros o st; apply (ids_ope_spec g1 _ en1 G1 o st (U1 st))).
    intros Hx.
    assert (Hopt : forall o st (K : forall x, In x (id_list (match o with Some e => ids_ope en1 e st | None => st end)) -> same_body x),
      match o with Some e => ids_ope en2 e st | None => st end = match o with Some e => ids_ope en1 e st | None => st end).
    { intros [e|] st K; [|reflexivity]. apply Ho; auto. }
    assert (Hgo : forall o st, grows st (match o with Some e => ids_ope en1 e st | None => st end)).
    { intros [e|] st; [apply Hg|apply grows_refl]. }
    assert (E1 : en2 start s0 = en1 start s0).
    { apply Ha; auto. intros x Hi. apply Hx. apply Hgo, Hgo, Hi. }
    rewrite E1. rewrite (Hopt ws (en1 start s0)); [|intros x Hi; apply Hx, Hgo, Hi].
    apply Hopt. exact Hx.
  Qed.
End Agree.
