(** * The profiler counts what happened: proofs (C53). *)
From Verif Require Import Base BaseLemmas Utf8 Escape TrieM LineInfo Ope Ctx ErrLog Engine EngineSpec EventSpec ProfileM ProfileSpec.

Section Proofs.
  Variable name : rid -> bytes.
  Notation seen := (rules_seen name).

  (** Every leave has been preceded by an enter of the same rule. *)
  Fixpoint known (pre evs : list event) : Prop :=
    match evs with
    | [] => True
    | e :: evs' => match e with TLeave (Hld r) _ _ => exists p, In (TEnter (Hld r) p) pre | _ => True end /\ known (pre ++ [e]) evs'
    end.
  Lemma known_wide evs : forall pre pre', (forall e, In e pre -> In e pre') -> known pre evs -> known pre' evs.
  Proof.
    induction evs as [|e evs IH]; intros pre pre' Hi H; [exact I|]. destruct H as [H1 H2]. split.
    - destruct e as [|[]]; auto. destruct H1 as [p Hp]. eauto.
    - eapply IH; [|exact H2]. intros x Hx. apply in_app_or in Hx as [Hx|Hx]; apply in_or_app; auto.
  Qed.
  Lemma known_app a : forall pre b, known pre (a ++ b) <-> known pre a /\ known (pre ++ a) b.
  Proof.
    induction a as [|e a IH]; intros pre b; cbn [app known].
    - rewrite app_nil_r. tauto.
    - rewrite IH, <- app_assoc. cbn [app]. tauto.
  Qed.
  Lemma nested_known evs : nested evs -> forall pre, known pre evs.
  Proof.
    induction 1 as [|o pos r inner rest _ IH1 _ IH2]; intros pre; [exact I|].
    cbn [known]. split; [destruct o; exact I|]. apply known_app. split; [apply IH1|]. cbn [known]. split; [|apply IH2].
    destruct o; try exact I. exists pos. apply in_or_app. left. apply in_or_app. right. now left.
  Qed.

  Lemma seen_snoc evs e : seen (evs ++ [e]) = add_new name (seen evs) e.
  Proof. unfold rules_seen. now rewrite fold_left_app. Qed.
  Lemma times_snoc p evs e : times p (evs ++ [e]) = times p evs + (if p e then 1 else 0).
  Proof. unfold times. rewrite filter_app, app_length. cbn. destruct (p e); reflexivity. Qed.
  Lemma in_add l e n : In n l -> In n (add_new name l e).
  Proof. intros H. destruct e as [[]|]; cbn; auto. destruct (existsb _ _); auto. apply in_or_app. auto. Qed.
  Lemma seen_in evs r p : In (TEnter (Hld r) p) evs -> In (name r) (seen evs).
  Proof.
    induction evs as [|e evs IH] using rev_ind; intros H; [destruct H|]. rewrite seen_snoc. apply in_app_or in H as [H|[->|[]]]; [apply in_add; auto|].
    cbn. destruct (existsb _ _) eqn:E; [|apply in_or_app; right; now left]. apply existsb_exists in E as (x & Hx & Hn). apply bytes_eqb_eq in Hn. now subst.
  Qed.
  Lemma seen_nodup evs : NoDup (seen evs).
  Proof.
    induction evs as [|e evs IH] using rev_ind; [constructor|]. rewrite seen_snoc. destruct e as [[]|]; cbn; auto.
    destruct (existsb _ _) eqn:E; auto. apply NoDup_rev in IH. rewrite <- (rev_involutive (seen evs ++ _)), rev_app_distr. apply NoDup_rev. cbn. constructor; auto.
    intros Hi. apply in_rev in Hi. assert (X : existsb (fun x => bytes_eqb x (name r)) (seen evs) = true); [|congruence].
    apply existsb_exists. exists (name r). split; [assumption|]. now apply bytes_eqb_eq.
  Qed.
  (** Rules not seen were not left. *)
  Lemma not_seen evs n : known [] evs -> ~ In n (seen evs) -> times (succeeds name n) evs = 0 /\ times (fails name n) evs = 0.
  Proof.
    induction evs as [|e evs IH] using rev_ind; intros Hk Hn; [split; reflexivity|]. apply known_app in Hk as [Hk [He _]].
    rewrite seen_snoc in Hn. assert (Hn' : ~ In n (seen evs)) by (intros X; apply Hn, in_add, X). destruct (IH Hk Hn') as [A B].
    rewrite !times_snoc, A, B. destruct e as [o p|o p l]; [split; reflexivity|]. destruct o; try (split; destruct l; reflexivity).
    destruct He as [q Hq]. apply seen_in in Hq.
    assert (X : bytes_eqb (name r) n = false); [|cbn; destruct l; rewrite ?X; split; reflexivity].
    apply not_true_iff_false. intros X. apply bytes_eqb_eq in X. subst. contradiction.
  Qed.

  Record good (evs : list event) (s : stats) : Prop := {
    g_items : st_items s = rows_after name evs;
    g_index : st_index s = combine (seen evs) (seq 0 (List.length (seen evs)));
    g_total : st_total s = times is_enter evs
  }.
  Lemma find_combine l : forall k n, NoDup l ->
    match find (fun p => bytes_eqb (fst p) n) (combine l (seq k (List.length l))) with
    | Some p => exists i, snd p = k + i /\ nth_error l i = Some n
    | None => ~ In n l
    end.
  Proof.
    induction l as [|x l IH]; intros k n Hd; cbn; [tauto|]. inversion Hd; subst. destruct (bytes_eqb x n) eqn:E.
    - exists 0. apply bytes_eqb_eq in E. subst. cbn. split; [lia|reflexivity].
    - specialize (IH (S k) n H2). destruct (find _ _) as [p|].
      + destruct IH as (i & A & B). exists (S i). split; [lia|exact B].
      + intros [-> |Hi]; [|contradiction]. assert (bytes_eqb n n = true) by now apply bytes_eqb_eq. congruence.
  Qed.
  Lemma row_spec evs s n : good evs s ->
    match row_of s n with Some i => nth_error (seen evs) i = Some n | None => ~ In n (seen evs) end.
  Proof.
    intros G. unfold row_of. rewrite (g_index _ _ G). pose proof (find_combine (seen evs) 0 n (seen_nodup evs)) as H.
    destruct (find _ _) as [p|]; [|exact H]. destruct H as (i & -> & Hi). exact Hi.
  Qed.
  Lemma bump_at (f : bytes -> bytes * nat * nat) (ok : bool) n l : forall i, (forall x, fst (fst (f x)) = x) -> NoDup l -> nth_error l i = Some n ->
    bump (map f l) i ok = Ok (map (fun x => if bytes_eqb n x then let '(y, s, e) := f x in (if ok then (y, S s, e) else (y, s, S e)) else f x) l).
  Proof.
    induction l as [|x l IH]; intros i Hf Hd Hi; [destruct i; discriminate|]. inversion Hd; subst. destruct i as [|i]; cbn [nth_error] in Hi.
    - injection Hi as ->. cbn [map bump]. destruct (f n) as [[y a] b] eqn:E.
      assert (X : bytes_eqb n n = true) by now apply bytes_eqb_eq. rewrite X. do 2 f_equal.
      apply map_ext_in. intros x Hx. assert (Y : bytes_eqb n x = false); [|now rewrite Y]. apply not_true_iff_false. intros Y. apply bytes_eqb_eq in Y. subst. contradiction.
    - cbn [map bump]. destruct (f x) as [[y a] b] eqn:E. rewrite IH by assumption. cbn [bind].
      assert (Y : bytes_eqb n x = false); [|now rewrite Y]. apply not_true_iff_false. intros Y. apply bytes_eqb_eq in Y. subst. apply nth_error_In in Hi. contradiction.
  Qed.

  Lemma rows_same evs e : (forall n, succeeds name n e = false /\ fails name n e = false) -> seen (evs ++ [e]) = seen evs ->
    rows_after name (evs ++ [e]) = rows_after name evs.
  Proof.
    intros H Hs. unfold rows_after. rewrite Hs. apply map_ext. intros n. rewrite !times_snoc. destruct (H n) as [-> ->]. now rewrite !Nat.add_0_r.
  Qed.
  Lemma report_good evs s : good evs s -> report_of s = report_after name evs.
  Proof.
    intros G. assert (F : forall (f : bytes * nat * nat -> nat) l, fold_left (fun a r => a + f r) l 0 = total f l).
    { intros f l. assert (H : forall a, fold_left (fun a r => a + f r) l a = a + total f l).
      { induction l as [|x l IH]; intros a; cbn; [lia|]. rewrite IH. unfold total. lia. }
      now rewrite H. }
    unfold report_of, report_after. cbv zeta. rewrite !F, (g_items _ _ G), (g_total _ _ G). reflexivity.
  Qed.
  Lemma due_snoc evs e : report_due name (evs ++ [e]) =
    match e with TLeave (Hld r) _ _ => match seen evs with n :: _ => bytes_eqb (name r) n | [] => false end | _ => false end.
  Proof.
    unfold report_due. rewrite rev_app_distr. cbn [rev app]. rewrite seen_snoc. destruct e as [|o p l]; [reflexivity|]. destruct o; reflexivity.
  Qed.

  Lemma step_good evs s e : good evs s -> known [] (evs ++ [e]) ->
    exists s', prof_step name s e = Ok (s', if report_due name (evs ++ [e]) then [report_after name (evs ++ [e])] else []) /\ good (evs ++ [e]) s'.
  Proof.
    intros G Hk. pose proof Hk as Hk'. apply known_app in Hk as [Hk [He _]]. rewrite due_snoc.
    assert (Hsame : (forall n, succeeds name n e = false /\ fails name n e = false) -> add_new name (seen evs) e = seen evs -> is_enter e = false -> good (evs ++ [e]) s).
    { intros H1 H2 H3. rewrite <- seen_snoc in H2. constructor.
      - now rewrite (g_items _ _ G), rows_same.
      - now rewrite (g_index _ _ G), H2.
      - now rewrite (g_total _ _ G), times_snoc, H3, Nat.add_0_r. }
    destruct e as [o p|o p l].
    - destruct o; try (eexists; split; [reflexivity|]; apply Hsame; auto). clear Hsame He. cbn [prof_step]. eexists. split; [reflexivity|].
      pose proof (row_spec evs s (name r) G) as Hr. unfold prof_enter. destruct (row_of s (name r)) as [i|].
      + assert (Hs : seen (evs ++ [TEnter (Hld r) p]) = seen evs).
        { rewrite seen_snoc. cbn. assert (X : existsb (fun x => bytes_eqb x (name r)) (seen evs) = true); [|now rewrite X].
          apply existsb_exists. exists (name r). split; [eapply nth_error_In; eauto|now apply bytes_eqb_eq]. }
        constructor; cbn [st_items st_index st_total].
        * rewrite (g_items _ _ G), rows_same; auto.
        * now rewrite (g_index _ _ G), Hs.
        * rewrite (g_total _ _ G), times_snoc. cbn. lia.
      + assert (Hs : seen (evs ++ [TEnter (Hld r) p]) = seen evs ++ [name r]).
        { rewrite seen_snoc. cbn. destruct (existsb _ _) eqn:X; [|reflexivity]. apply existsb_exists in X as (x & Hx & Hn). apply bytes_eqb_eq in Hn. subst. contradiction. }
        constructor; cbn [st_items st_index st_total].
        * rewrite (g_items _ _ G). unfold rows_after. rewrite Hs, map_app. cbn [map]. rewrite !times_snoc.
          destruct (not_seen evs (name r) Hk Hr) as [-> ->]. cbn. f_equal. apply map_ext. intros n. rewrite !times_snoc. cbn. now rewrite !Nat.add_0_r.
        * rewrite (g_index _ _ G), Hs, app_length. cbn [List.length]. rewrite seq_app. cbn [seq Nat.add].
          rewrite combine_length, seq_length, Nat.min_id.
          assert (Hc : forall (A B : Type) (a : list A) (b : list B) x y, List.length a = List.length b -> combine (a ++ [x]) (b ++ [y]) = combine a b ++ [(x, y)]).
          { intros A B a. induction a as [|u a IH]; intros [|v b] x y H; try discriminate; [reflexivity|]. cbn. rewrite IH; auto. }
          rewrite Hc; [reflexivity|]. now rewrite seq_length.
        * rewrite (g_total _ _ G), times_snoc. cbn. lia.
    - destruct o; try (eexists; split; [reflexivity|]; apply Hsame; auto; intros n; destruct l; auto). clear Hsame. cbn [prof_step]. destruct He as [q Hq]. cbn [app] in Hq. apply seen_in in Hq.
      pose proof (row_spec evs s (name r) G) as Hr. unfold prof_leave. destruct (row_of s (name r)) as [i|]; [|contradiction].
      rewrite (g_items _ _ G). unfold rows_after at 1. rewrite (bump_at _ _ (name r)); [|reflexivity|apply seen_nodup|exact Hr]. cbn [bind].
      match goal with |- context [report_of ?x] => set (s' := x) end.
      assert (G' : good (evs ++ [TLeave (Hld r) p l]) s').
      { assert (Hs : seen (evs ++ [TLeave (Hld r) p l]) = seen evs) by (rewrite seen_snoc; reflexivity).
        constructor; cbn [s' st_items st_index st_total].
        - unfold rows_after. rewrite Hs. apply map_ext. intros n. rewrite !times_snoc. cbn [succeeds fails].
          destruct l; destruct (bytes_eqb (name r) n); rewrite ?Nat.add_0_r, ?Nat.add_1_r; reflexivity.
        - now rewrite (g_index _ _ G), Hs.
        - rewrite (g_total _ _ G), times_snoc. cbn. lia. }
      exists s'. split; [|exact G']. rewrite (report_good _ _ G'). do 2 f_equal.
      destruct (seen evs) as [|n0 l0] eqn:Es; [destruct i; discriminate|]. destruct i as [|i]; cbn [nth_error] in Hr.
      + injection Hr as ->. assert (X : bytes_eqb (name r) (name r) = true) by now apply bytes_eqb_eq. now rewrite X.
      + assert (X : bytes_eqb (name r) n0 = false); [|now rewrite X]. apply not_true_iff_false. intros X. apply bytes_eqb_eq in X. subst.
        pose proof (seen_nodup evs) as Hd. rewrite Es in Hd. inversion Hd; subst. apply nth_error_In in Hr. contradiction.
  Qed.

  Lemma profile_app s a b : profile name s (a ++ b) = let* (s1, r1) := profile name s a in let* (s2, r2) := profile name s1 b in Ok (s2, r1 ++ r2).
  Proof.
    revert s. induction a as [|e a IH]; intros s; cbn [app profile].
    - cbn [bind]. destruct (profile name s b) as [[s2 r2]| | |]; reflexivity.
    - destruct (prof_step name s e) as [[s1 r1]| | |]; cbn [bind]; try reflexivity. rewrite IH.
      destruct (profile name s1 a) as [[s2 r2]| | |]; cbn [bind]; try reflexivity. destruct (profile name s2 b) as [[s3 r3]| | |]; cbn [bind]; try reflexivity.
      now rewrite app_assoc.
  Qed.
  Lemma prefixes_snoc evs e : prefixes (evs ++ [e]) = prefixes evs ++ [evs ++ [e]].
  Proof.
    unfold prefixes. rewrite app_length. cbn [List.length]. rewrite seq_app, map_app. cbn [seq map]. f_equal.
    - apply map_ext_in. intros k Hk. apply in_seq in Hk. rewrite firstn_app. replace (k - List.length evs) with 0 by lia. cbn. now rewrite app_nil_r.
    - f_equal. apply firstn_all2. rewrite app_length. cbn. lia.
  Qed.
  Theorem profile_known evs : known [] evs ->
    exists s, profile name stats0 evs = Ok (s, map (report_after name) (filter (report_due name) (prefixes evs))) /\ good evs s.
  Proof.
    induction evs as [|e evs IH] using rev_ind; intros Hk.
    - exists stats0. split; [reflexivity|]. constructor; reflexivity.
    - pose proof Hk as Hk'. apply known_app in Hk as [Hk _]. destruct (IH Hk) as (s & Hs & G). destruct (step_good evs s e G Hk') as (s' & Hs' & G').
      exists s'. split; [|exact G']. rewrite profile_app, Hs. cbn [bind profile]. rewrite Hs'. cbn [bind].
      rewrite prefixes_snoc, filter_app, map_app. cbn [filter]. destruct (report_due name (evs ++ [e])); cbn [map]; rewrite ?app_nil_r; reflexivity.
  Qed.

  (** In a complete trace every use has ended. *)
  Lemma times_app p a b : times p (a ++ b) = times p a + times p b.
  Proof. unfold times. now rewrite filter_app, app_length. Qed.
  Lemma nested_balanced evs : nested evs -> forall n, times (enters name n) evs = times (succeeds name n) evs + times (fails name n) evs.
  Proof.
    induction 1 as [|o pos r inner rest _ IH1 _ IH2]; intros n; [reflexivity|].
    change (TEnter o pos :: inner ++ TLeave o pos r :: rest) with ([TEnter o pos] ++ inner ++ [TLeave o pos r] ++ rest).
    rewrite !times_app, IH1, IH2. unfold times. cbn [filter enters succeeds fails]. destruct o; try (destruct r; cbn; lia).
    destruct r; destruct (bytes_eqb (name r0) n); cbn; lia.
  Qed.
  Lemma sum_seen (p : bytes -> event -> bool) evs (l : list bytes) : NoDup l ->
    (forall e n m, p n e = true -> p m e = true -> n = m) ->
    fold_right (fun n a => times (p n) evs + a) 0 l = times (fun e => existsb (fun n => p n e) l) evs.
  Proof.
    intros Hd Hu. induction Hd as [|n l Hn _ IH]; cbn [fold_right existsb].
    - induction evs; [reflexivity|exact IHevs].
    - rewrite IH. clear IH. unfold times. induction evs as [|e evs IHe]; [reflexivity|]. cbn [filter]. destruct (p n e) eqn:E1; cbn [orb].
      + assert (X : existsb (fun m => p m e) l = false); [|rewrite X; cbn; lia]. apply not_true_iff_false. intros X. apply existsb_exists in X as (m & Hm & X).
        rewrite (Hu e n m E1 X) in Hn. contradiction.
      + destruct (existsb _ l); cbn; lia.
  Qed.
  Lemma total_map (f : bytes * nat * nat -> nat) (h : bytes -> bytes * nat * nat) l : total f (map h l) = fold_right (fun n a => f (h n) + a) 0 l.
  Proof. induction l as [|x l IH]; [reflexivity|]. cbn. now rewrite <- IH. Qed.
  Theorem nested_totals evs : nested evs -> pr_total (report_after name evs) = times is_enter evs.
  Proof.
    intros H. unfold report_after. cbn [pr_total]. unfold rows_after. rewrite !total_map. cbn [fst snd].
    transitivity (fold_right (fun n a => times (enters name n) evs + a) 0 (seen evs)).
    - assert (G : forall l, fold_right (fun n a => times (succeeds name n) evs + a) 0 l + fold_right (fun n a => times (fails name n) evs + a) 0 l
        = fold_right (fun n a => times (enters name n) evs + a) 0 l).
      { induction l as [|x l IH]; [reflexivity|]. cbn [fold_right]. rewrite <- IH, (nested_balanced evs H x). lia. }
      apply G.
    - rewrite sum_seen; [|apply seen_nodup|].
      + unfold times. f_equal. apply filter_ext_in. intros e He. destruct e as [o p|]; [|cbn; induction (seen evs); auto]. destruct o; try (cbn; induction (seen evs); auto; fail).
        cbn [is_enter]. apply existsb_exists. exists (name r). split; [eapply seen_in; eauto|]. cbn. now apply bytes_eqb_eq.
      + intros e n m H1 H2. destruct e as [[]|]; try discriminate. cbn in *. apply bytes_eqb_eq in H1, H2. congruence.
  Qed.
End Proofs.
