From Verif Require Import Base BaseLemmas PackratCacheM.
Local Open Scope nat_scope.

Definition valid (k : N) : Prop := k <> kEmpty /\ k <> kTombstone.
Definition pow2 (n : nat) : Prop := exists k, N.of_nat n = (2 ^ k)%N.

Lemma pow2_pos n : pow2 n -> 0 < n.
Proof. intros [k H]. pose proof (N.pow_nonzero 2 k ltac:(discriminate)). lia. Qed.

Lemma land_pow2 x n : pow2 n -> N.land x (N.of_nat n - 1) = (x mod N.of_nat n)%N.
Proof.
  intros [k H]. rewrite H. rewrite <- N.land_ones. f_equal.
  rewrite N.ones_equiv. lia.
Qed.

Lemma next_mod keys i : pow2 (List.length keys) -> next keys i = (i + 1) mod List.length keys.
Proof.
  intro H. unfold next. rewrite land_pow2 by exact H.
  rewrite <- (Nat2N.id ((i + 1) mod List.length keys)). f_equal.
  rewrite Nat2N.inj_mod, Nat2N.inj_add. reflexivity.
Qed.

Lemma home_lt keys key : pow2 (List.length keys) -> home keys key < List.length keys.
Proof.
  intro H. unfold home. rewrite land_pow2 by exact H. pose proof (pow2_pos _ H).
  assert (mix key mod N.of_nat (List.length keys) < N.of_nat (List.length keys))%N
    by (apply N.mod_lt; lia). lia.
Qed.

Lemma home_len a b key : List.length a = List.length b -> home a key = home b key.
Proof. intro H. unfold home. rewrite H. reflexivity. Qed.

(** The slot [d] steps after [i]. *)
Definition slot (keys : list N) (i d : nat) : option N :=
  nth_error keys ((i + d) mod List.length keys).

Lemma slot_next keys i d : pow2 (List.length keys) -> slot keys (next keys i) d = slot keys i (S d).
Proof.
  intro H. unfold slot. rewrite next_mod by exact H. pose proof (pow2_pos _ H).
  f_equal. rewrite Nat.add_mod_idemp_l by lia. f_equal. lia.
Qed.

Lemma slot_0 keys i : i < List.length keys -> slot keys i 0 = nth_error keys i.
Proof. intro H. unfold slot. rewrite Nat.add_0_r, Nat.mod_small by exact H. reflexivity. Qed.

Lemma next_lt keys i : pow2 (List.length keys) -> next keys i < List.length keys.
Proof. intro H. rewrite next_mod by exact H. apply Nat.mod_upper_bound. pose proof (pow2_pos _ H). lia. Qed.

Lemma slot_some keys i d : 0 < List.length keys -> exists k, slot keys i d = Some k.
Proof.
  intro H. unfold slot. destruct (nth_error _ _) eqn:E; [eauto|].
  apply nth_error_None in E. pose proof (Nat.mod_upper_bound (i + d) (List.length keys)). lia.
Qed.

Lemma add_mod_next keys i d : pow2 (List.length keys) ->
  (next keys i + d) mod List.length keys = (i + S d) mod List.length keys.
Proof.
  intro H. rewrite next_mod by exact H. pose proof (pow2_pos _ H).
  rewrite Nat.add_mod_idemp_l by lia. f_equal. lia.
Qed.

(** probe: the first slot that is the key or empty decides. *)
Lemma probe_spec keys key : pow2 (List.length keys) -> forall d i fuel k,
  i < List.length keys -> d < fuel ->
  (forall d', d' < d -> slot keys i d' <> Some key /\ slot keys i d' <> Some kEmpty) ->
  slot keys i d = Some k -> (k = key \/ k = kEmpty) ->
  probe fuel keys key i = Ok (if (k =? key)%N then Some ((i + d) mod List.length keys) else None).
Proof.
  intros Hp. induction d as [|d IH]; intros i fuel k Hi Hf Hbefore Hk Hor;
    (destruct fuel as [|fuel]; [lia|]); cbn [probe].
  - rewrite slot_0 in Hk by exact Hi. rewrite Hk.
    destruct (N.eqb_spec k key) as [E|E].
    + rewrite Nat.add_0_r, Nat.mod_small by exact Hi. reflexivity.
    + destruct Hor as [-> | ->]; [contradiction|]. rewrite N.eqb_refl. reflexivity.
  - destruct (Hbefore 0 ltac:(lia)) as [A B]. rewrite slot_0 in A, B by exact Hi.
    destruct (nth_error keys i) as [k0|] eqn:E.
    2:{ apply nth_error_None in E. lia. }
    destruct (N.eqb_spec k0 key) as [E1|E1]; [congruence|].
    destruct (N.eqb_spec k0 kEmpty) as [E2|E2]; [congruence|].
    rewrite (IH (next keys i) fuel k); [rewrite add_mod_next by exact Hp; reflexivity|apply next_lt; exact Hp|lia| | |exact Hor].
    + intros d' Hd'. rewrite slot_next by exact Hp. apply Hbefore. lia.
    + rewrite slot_next by exact Hp. exact Hk.
Qed.

Lemma probe_empty_spec keys : pow2 (List.length keys) -> forall d i fuel,
  i < List.length keys -> d < fuel ->
  (forall d', d' < d -> slot keys i d' <> Some kEmpty) ->
  slot keys i d = Some kEmpty ->
  probe_empty fuel keys i = Ok ((i + d) mod List.length keys).
Proof.
  intros Hp. induction d as [|d IH]; intros i fuel Hi Hf Hbefore Hk;
    (destruct fuel as [|fuel]; [lia|]); cbn [probe_empty].
  - rewrite slot_0 in Hk by exact Hi. rewrite Hk, N.eqb_refl, Nat.add_0_r, Nat.mod_small by exact Hi. reflexivity.
  - specialize (Hbefore 0 ltac:(lia)) as B. rewrite slot_0 in B by exact Hi.
    destruct (nth_error keys i) as [k0|] eqn:E.
    2:{ apply nth_error_None in E. lia. }
    destruct (N.eqb_spec k0 kEmpty) as [E2|E2]; [congruence|].
    rewrite (IH (next keys i) fuel); [rewrite add_mod_next by exact Hp; reflexivity|apply next_lt; exact Hp|lia| |].
    + intros d' Hd'. rewrite slot_next by exact Hp. apply Hbefore. lia.
    + rewrite slot_next by exact Hp. exact Hk.
Qed.

(** probe_insert: [ip] is the first tombstone passed so far. *)
Lemma probe_insert_spec keys key : pow2 (List.length keys) -> valid key -> forall d i fuel ip k,
  i < List.length keys -> d < fuel ->
  (forall p, ip = Some p -> nth_error keys p = Some kTombstone) ->
  (forall d', d' < d -> slot keys i d' <> Some key /\ slot keys i d' <> Some kEmpty) ->
  slot keys i d = Some k -> (k = key \/ k = kEmpty) ->
  exists p inc, probe_insert fuel keys key i ip = Ok (p, inc)
   /\ (if (k =? key)%N then p = (i + d) mod List.length keys /\ inc = false
       else (inc = true /\ nth_error keys p = Some kEmpty /\ p = (i + d) mod List.length keys)
         \/ (inc = false /\ nth_error keys p = Some kTombstone
             /\ (ip = Some p \/ exists d0, d0 < d /\ p = (i + d0) mod List.length keys))).
Proof.
  intros Hp [Hv1 Hv2]. induction d as [|d IH]; intros i fuel ip k Hi Hf Hip Hbefore Hk Hor;
    (destruct fuel as [|fuel]; [lia|]); cbn [probe_insert].
  - rewrite slot_0 in Hk by exact Hi. rewrite Hk.
    destruct (N.eqb_spec k key) as [E|E].
    + exists i, false. split; [reflexivity|]. rewrite Nat.add_0_r, Nat.mod_small by exact Hi. auto.
    + destruct Hor as [-> | ->]; [contradiction|].
      replace (kEmpty =? kTombstone)%N with false by reflexivity. rewrite N.eqb_refl.
      destruct ip as [p|].
      * rewrite (Hip p eq_refl). exists p, false. split; [reflexivity|]. right.
        split; [reflexivity|]. split; [apply Hip; reflexivity|left; reflexivity].
      * rewrite Hk. exists i, true. split; [reflexivity|]. left.
        rewrite Nat.add_0_r, Nat.mod_small by exact Hi. auto.
  - destruct (Hbefore 0 ltac:(lia)) as [A B]. rewrite slot_0 in A, B by exact Hi.
    destruct (nth_error keys i) as [k0|] eqn:E.
    2:{ apply nth_error_None in E. lia. }
    destruct (N.eqb_spec k0 key) as [E1|E1]; [congruence|].
    assert (Step : forall ip', (forall p, ip' = Some p -> nth_error keys p = Some kTombstone) ->
      (forall p, ip' = Some p -> ip = Some p \/ p = i) ->
      exists p inc, probe_insert fuel keys key (next keys i) ip' = Ok (p, inc)
       /\ (if (k =? key)%N then p = (i + S d) mod List.length keys /\ inc = false
           else (inc = true /\ nth_error keys p = Some kEmpty /\ p = (i + S d) mod List.length keys)
             \/ (inc = false /\ nth_error keys p = Some kTombstone
                 /\ (ip = Some p \/ exists d0, d0 < S d /\ p = (i + d0) mod List.length keys)))).
    { intros ip' Hip' Hfrom.
      destruct (IH (next keys i) fuel ip' k) as (p & inc & P1 & P2);
        [apply next_lt; exact Hp|lia|exact Hip'| | |exact Hor|].
      - intros d' Hd'. rewrite slot_next by exact Hp. apply Hbefore. lia.
      - rewrite slot_next by exact Hp. exact Hk.
      - exists p, inc. split; [exact P1|]. rewrite add_mod_next in P2 by exact Hp.
        destruct (k =? key)%N; [exact P2|].
        destruct P2 as [P2|(Q1 & Q2 & Q3)]; [left; exact P2|right].
        split; [exact Q1|]. split; [exact Q2|].
        destruct Q3 as [Q3|(d0 & Q3 & Q4)].
        + destruct (Hfrom p Q3) as [F|F]; [left; exact F|right]. exists 0. split; [lia|].
          rewrite Nat.add_0_r, Nat.mod_small by exact Hi. exact F.
        + right. exists (S d0). split; [lia|]. rewrite <- add_mod_next by exact Hp. exact Q4. }
    destruct (N.eqb_spec k0 kTombstone) as [E2|E2].
    + apply Step.
      * intros p Hpp. destruct ip as [q|]; [apply Hip; exact Hpp|]. injection Hpp as <-. congruence.
      * intros p Hpp. destruct ip as [q|]; [left; exact Hpp|right]. congruence.
    + destruct (N.eqb_spec k0 kEmpty) as [E3|E3]; [congruence|].
      apply Step; auto.
Qed.

(** list_set *)
Lemma list_set_length {A} (l : list A) i x : List.length (list_set l i x) = List.length l.
Proof.
  unfold list_set. rewrite app_length, firstn_length.
  pose proof (skipn_length i l). destruct (skipn i l) as [|y t]; cbn in *; lia.
Qed.

Lemma list_set_nth {A} (l : list A) : forall i x j, i < List.length l ->
  nth_error (list_set l i x) j = if i =? j then Some x else nth_error l j.
Proof.
  induction l as [|y l IH]; intros i x j Hi; [cbn in Hi; lia|].
  destruct i as [|i].
  - unfold list_set. cbn. destruct j; reflexivity.
  - change (list_set (y :: l) (S i) x) with (y :: list_set l i x).
    destruct j as [|j]; [reflexivity|]. cbn [nth_error Nat.eqb]. apply IH. cbn in Hi. lia.
Qed.

Definition isE (k : N) : bool := (k =? kEmpty)%N.
Definition count (keys : list N) : nat := List.length (filter (fun k => negb (isE k)) keys).

Lemma count_set keys : forall i x k0, nth_error keys i = Some k0 ->
  count (list_set keys i x) + (if isE k0 then 0 else 1) = count keys + (if isE x then 0 else 1).
Proof.
  unfold count. induction keys as [|y keys IH]; intros i x k0 Hi; [destruct i; discriminate|].
  destruct i as [|i].
  - injection Hi as ->. unfold list_set. cbn. destruct (isE x), (isE k0); cbn; lia.
  - change (list_set (y :: keys) (S i) x) with (y :: list_set keys i x).
    cbn [nth_error] in Hi. specialize (IH i x k0 Hi). cbn [filter]. destruct (isE y); cbn; lia.
Qed.

Lemma count_le keys : count keys <= List.length keys.
Proof. unfold count. induction keys as [|k keys IH]; cbn; [lia|]. destruct (isE k); cbn; lia. Qed.

Lemma exists_empty keys : count keys < List.length keys -> exists e, nth_error keys e = Some kEmpty.
Proof.
  unfold count. induction keys as [|k keys IH]; cbn; [lia|]. intro H.
  destruct (isE k) eqn:E.
  - exists 0. unfold isE in E. apply N.eqb_eq in E. subst. reflexivity.
  - cbn in H. destruct IH as [e He]; [lia|]. exists (S e). exact He.
Qed.

(** From any slot, a first empty slot is met within one round. *)
Lemma first_slot keys (P : N -> bool) i : i < List.length keys ->
  (exists e k, nth_error keys e = Some k /\ P k = true) ->
  exists d k, d < List.length keys /\ slot keys i d = Some k /\ P k = true
    /\ (forall d' k', d' < d -> slot keys i d' = Some k' -> P k' = false).
Proof.
  intros Hi (e & k & He & HP).
  assert (Hel : e < List.length keys) by (apply nth_error_Some; congruence).
  assert (Hd : exists d, d < List.length keys /\ slot keys i d = Some k).
  { destruct (Nat.le_gt_cases i e) as [L|G].
    - exists (e - i). split; [lia|]. unfold slot. rewrite Nat.mod_small by lia.
      replace (i + (e - i)) with e by lia. exact He.
    - exists (e + List.length keys - i). split; [lia|]. unfold slot.
      replace (i + (e + List.length keys - i)) with (e + 1 * List.length keys) by lia.
      rewrite Nat.mod_add by lia. rewrite Nat.mod_small by lia. exact He. }
  destruct Hd as (d & Hd & Hs). clear He Hel e. revert k Hs HP.
  induction d as [d IH] using lt_wf_ind. intros k Hs HP.
  assert (Dec : (exists d' k', d' < d /\ slot keys i d' = Some k' /\ P k' = true)
    \/ (forall d' k', d' < d -> slot keys i d' = Some k' -> P k' = false)).
  { clear IH Hs Hd. induction d as [|d IHd]; [right; intros; lia|].
    destruct IHd as [(d' & k' & A & B & C)|N].
    - left. exists d', k'. split; [lia|auto].
    - destruct (slot_some keys i d ltac:(lia)) as [kd Hkd].
      destruct (P kd) eqn:E.
      + left. exists d, kd. split; [lia|auto].
      + right. intros d' k' Hd' Hk'. destruct (Nat.eq_dec d' d) as [->|Hne]; [congruence|].
        eapply N; [|exact Hk']. lia. }
  destruct Dec as [(d' & k' & A & B & C)|N].
  - eapply (IH d' A ltac:(lia)); [exact B|exact C].
  - exists d, k. auto.
Qed.

(** The table invariant. *)
Record tbl {V} (keys : list N) (vals : list (option V)) : Prop := {
  t_len : List.length vals = List.length keys;
  t_pow : pow2 (List.length keys);
  t_room : count keys < List.length keys;
  t_uniq : forall i j k, valid k -> nth_error keys i = Some k -> nth_error keys j = Some k -> i = j;
  t_chain : forall j k, valid k -> nth_error keys j = Some k ->
     exists d, d < List.length keys /\ (home keys k + d) mod List.length keys = j
       /\ (forall d', d' < d -> slot keys (home keys k) d' <> Some kEmpty);
}.

Definition maps {V} (keys : list N) (vals : list (option V)) (key : N) (v : option V) : Prop :=
  exists j, nth_error keys j = Some key /\ nth_error vals j = Some v.

Lemma valid_isE k : valid k -> isE k = false.
Proof. intros [H _]. unfold isE. apply N.eqb_neq. exact H. Qed.

Lemma tbl_find {V} keys (vals : list (option V)) key : tbl keys vals -> valid key ->
  (exists j, nth_error keys j = Some key /\ probe (List.length keys) keys key (home keys key) = Ok (Some j))
  \/ ((forall j, nth_error keys j <> Some key) /\ probe (List.length keys) keys key (home keys key) = Ok None).
Proof.
  intros T Hv. pose proof (t_pow _ _ T) as Hp.
  destruct (in_dec N.eq_dec key keys) as [Hin|Hnin].
  - left. apply In_nth_error in Hin as [j Hj]. exists j. split; [exact Hj|].
    destruct (t_chain _ _ T j key Hv Hj) as (d & Hd & Hm & Hch).
    assert (Hs : slot keys (home keys key) d = Some key) by (unfold slot; rewrite Hm; exact Hj).
    rewrite (probe_spec keys key Hp d _ _ key); try assumption.
    + rewrite N.eqb_refl, Hm. reflexivity.
    + apply home_lt; exact Hp.
    + intros d' Hd'. split; [|apply Hch; exact Hd'].
      intro E. unfold slot in E.
      pose proof (t_uniq _ _ T _ _ _ Hv E Hj) as Hu.
      pose proof (home_lt keys key Hp) as HL. pose proof (pow2_pos _ Hp).
      (* two different distances below cap reach different slots *)
      rewrite <- Hm in Hu.
      assert (forall a b n h, n > 0 -> h < n -> a < b -> b < n -> (h + a) mod n <> (h + b) mod n) as Inj.
      { clear. intros a b n h Hn Hh Hab Hb E.
        pose proof (Nat.div_mod (h + a) n ltac:(lia)) as D1.
        pose proof (Nat.div_mod (h + b) n ltac:(lia)) as D2.
        rewrite E in D1. set (q1 := (h + a) / n) in *. set (q2 := (h + b) / n) in *.
        set (r := (h + b) mod n) in *. assert (b - a = n * q2 - n * q1) by lia.
        destruct (Nat.le_gt_cases q2 q1); [nia|]. assert (n * q1 + n <= n * q2) by nia. lia. }
      exact (Inj d' d (List.length keys) (home keys key) ltac:(lia) HL Hd' Hd Hu).
    + left. reflexivity.
  - right. assert (Hno : forall j, nth_error keys j <> Some key).
    { intros j E. apply Hnin. eapply nth_error_In. exact E. }
    split; [exact Hno|].
    destruct (exists_empty keys (t_room _ _ T)) as [e He].
    destruct (first_slot keys isE (home keys key) (home_lt _ _ Hp)) as (d & k & Hd & Hs & HE & Hb);
      [exists e, kEmpty; split; [exact He|reflexivity]|].
    unfold isE in HE. apply N.eqb_eq in HE. subst k.
    rewrite (probe_spec keys key Hp d _ _ kEmpty); try assumption.
    + destruct (N.eqb_spec kEmpty key) as [E|E]; [destruct Hv; congruence|reflexivity].
    + apply home_lt; exact Hp.
    + intros d' Hd'. split; [apply Hno|]. intro E. specialize (Hb d' _ Hd' E). discriminate.
    + right. reflexivity.
Qed.

(** Writing a valid key into an empty or tombstone slot keeps the table. *)
Lemma slot_set keys i d p x : 0 < List.length keys -> p < List.length keys ->
  slot (list_set keys p x) i d =
  if p =? (i + d) mod List.length keys then Some x else slot keys i d.
Proof.
  intros H0 Hp. unfold slot. rewrite list_set_length. apply list_set_nth. exact Hp.
Qed.

Lemma home_set keys p x k : home (list_set keys p x) k = home keys k.
Proof. apply home_len. apply list_set_length. Qed.

Lemma tbl_put {V} keys (vals : list (option V)) key p v k0 : tbl keys vals -> valid key ->
  (forall j, nth_error keys j <> Some key) ->
  nth_error keys p = Some k0 -> (k0 = kEmpty \/ k0 = kTombstone) ->
  (exists d, d < List.length keys /\ (home keys key + d) mod List.length keys = p
       /\ (forall d', d' < d -> slot keys (home keys key) d' <> Some kEmpty)) ->
  count keys + (if isE k0 then 1 else 0) < List.length keys ->
  tbl (list_set keys p key) (list_set vals p v)
  /\ count (list_set keys p key) = count keys + (if isE k0 then 1 else 0).
Proof.
  intros T Hv Hno Hp Hk0 Hch Hroom.
  assert (Hpl : p < List.length keys) by (apply nth_error_Some; congruence).
  pose proof (t_pow _ _ T) as Hpow. pose proof (pow2_pos _ Hpow) as H0.
  pose proof (count_set keys p key k0 Hp) as Hc. rewrite (valid_isE key Hv) in Hc.
  assert (Hcount : count (list_set keys p key) = count keys + (if isE k0 then 1 else 0))
    by (destruct (isE k0); lia).
  split; [|exact Hcount]. constructor.
  - rewrite !list_set_length. apply (t_len _ _ T).
  - rewrite list_set_length. exact Hpow.
  - rewrite list_set_length, Hcount. exact Hroom.
  - intros i j k Hk Hi Hj. rewrite list_set_nth in Hi by exact Hpl; rewrite list_set_nth in Hj by exact Hpl.
    destruct (p =? i) eqn:Ei; destruct (p =? j) eqn:Ej;
      try (apply Nat.eqb_eq in Ei); try (apply Nat.eqb_eq in Ej).
    + congruence.
    + injection Hi as <-. exfalso. eapply Hno. exact Hj.
    + injection Hj as <-. exfalso. eapply Hno. exact Hi.
    + eapply (t_uniq _ _ T); eauto.
  - intros j k Hk Hj. rewrite list_set_length, home_set.
    rewrite list_set_nth in Hj by exact Hpl.
    assert (Keep : forall d' h, slot keys h d' <> Some kEmpty ->
       slot (list_set keys p key) h d' <> Some kEmpty).
    { intros d' h Hs. rewrite slot_set by assumption. destruct (p =? (h + d') mod List.length keys); [|exact Hs].
      destruct Hv. congruence. }
    destruct (p =? j) eqn:Ej.
    + apply Nat.eqb_eq in Ej. injection Hj as <-. subst j.
      destruct Hch as (d & A & B & C). exists d. split; [exact A|]. split; [exact B|]. auto.
    + destruct (t_chain _ _ T j k Hk Hj) as (d & A & B & C). exists d. auto.
Qed.

Lemma maps_put {V} keys (vals : list (option V)) key p v key' v' : tbl keys vals ->
  (forall j, nth_error keys j <> Some key) -> p < List.length keys ->
  (forall k0, nth_error keys p = Some k0 -> k0 = kEmpty \/ k0 = kTombstone) -> valid key' ->
  maps (list_set keys p key) (list_set vals p v) key' v' <->
  (if (key =? key')%N then v' = v else maps keys vals key' v').
Proof.
  intros T Hno Hp Hk0 Hv'. unfold maps.
  assert (Hvl : p < List.length vals) by (rewrite (t_len _ _ T); exact Hp).
  destruct (N.eqb_spec key key') as [<-|Hne].
  - split.
    + intros (j & A & B). rewrite list_set_nth in A by assumption; rewrite list_set_nth in B by assumption.
      destruct (p =? j); [congruence|]. exfalso. eapply Hno. exact A.
    + intros ->. exists p. rewrite !list_set_nth, Nat.eqb_refl by assumption. auto.
  - split.
    + intros (j & A & B). rewrite list_set_nth in A by assumption; rewrite list_set_nth in B by assumption.
      destruct (p =? j); [congruence|]. exists j. auto.
    + intros (j & A & B). exists j. rewrite !list_set_nth by assumption.
      destruct (Nat.eqb_spec p j) as [<-|]; [|auto].
      exfalso. destruct (Hk0 _ A) as [E|E]; destruct Hv'; congruence.
Qed.

(** Empty table. *)
Lemma nth_error_repeat_some {A} (x : A) n : forall i y, nth_error (repeat x n) i = Some y -> y = x.
Proof. intros i y H. apply nth_error_In in H. apply repeat_spec in H. exact H. Qed.

Lemma count_repeat n : count (repeat kEmpty n) = 0.
Proof. unfold count. induction n as [|n IH]; [reflexivity|]. cbn [repeat filter]. exact IH. Qed.

Lemma tbl_empty {V} n : pow2 n -> @tbl V (repeat kEmpty n) (repeat None n).
Proof.
  intro Hp. constructor; rewrite ?repeat_length; auto.
  - rewrite count_repeat. apply pow2_pos. exact Hp.
  - intros i j k Hk Hi. apply nth_error_repeat_some in Hi. destruct Hk. congruence.
  - intros j k Hk Hi. apply nth_error_repeat_some in Hi. destruct Hk. congruence.
Qed.

(** Growing: re-insert a list of pairs with distinct valid keys. *)
Lemma grow_fold {V} (kvs : list (N * option V)) : forall keys vals,
  tbl keys vals ->
  (forall i j k, valid k -> nth_error (map fst kvs) i = Some k -> nth_error (map fst kvs) j = Some k -> i = j) ->
  (forall k, valid k -> In k (map fst kvs) -> forall j, nth_error keys j <> Some k) ->
  count keys + List.length (filter (fun k => negb ((k =? kEmpty) || (k =? kTombstone))%N) (map fst kvs)) < List.length keys ->
  exists keys' vals' used',
    fold_left grow_put kvs (Ok (keys, vals, count keys)) = Ok (keys', vals', used')
    /\ tbl keys' vals' /\ List.length keys' = List.length keys /\ used' = count keys'
    /\ count keys' = count keys + List.length (filter (fun k => negb ((k =? kEmpty) || (k =? kTombstone))%N) (map fst kvs))
    /\ (forall key v, valid key -> maps keys' vals' key v <-> (maps keys vals key v \/ In (key, v) kvs)).
Proof.
  induction kvs as [|[k v] kvs IH]; intros keys vals T Huniq Hdisj Hroom; cbn [fold_left map].
  - exists keys, vals, (count keys). cbn [map filter List.length]. rewrite Nat.add_0_r.
    split; [reflexivity|]. split; [exact T|]. do 3 (split; [reflexivity|]).
    intros key v _. split; [intro H; left; exact H|]. intros [H|[]]; exact H.
  - cbn [map fst] in *. set (nv := (k =? kEmpty)%N || (k =? kTombstone)%N) in *.
    assert (Huniq' : forall i j k0, valid k0 -> nth_error (map fst kvs) i = Some k0 ->
        nth_error (map fst kvs) j = Some k0 -> i = j).
    { intros i j k0 Hk0 Hi Hj. specialize (Huniq (S i) (S j) k0 Hk0 Hi Hj). lia. }
    unfold grow_put at 2. cbn [bind]. fold nv. destruct nv eqn:Env.
    + cbn [filter] in Hroom |- *. change ((k =? kEmpty)%N || (k =? kTombstone)%N) with nv in Hroom |- *.
      rewrite Env in Hroom |- *. cbn [negb] in Hroom |- *.
      destruct (IH keys vals T Huniq') as (keys' & vals' & used' & A & B & C & D & E & F).
      { intros k0 Hk0 Hin. apply Hdisj; [exact Hk0|right; exact Hin]. }
      { exact Hroom. }
      exists keys', vals', used'. split; [exact A|]. split; [exact B|]. split; [exact C|].
      split; [exact D|]. split; [exact E|]. intros key v0 Hkey. split.
      * intro M. apply F in M; [|assumption]. destruct M; [left|right; right]; assumption.
      * intros [M|[M|M]]; apply F; auto. injection M as -> ->. exfalso.
        subst nv. destruct Hkey as [H1 H2]. apply orb_true_iff in Env as [e|e]; apply N.eqb_eq in e; contradiction.
    + assert (Hv : valid k).
      { subst nv. apply orb_false_iff in Env as [e1 e2]. split; apply N.eqb_neq; assumption. }
      cbn [filter] in Hroom |- *. change ((k =? kEmpty)%N || (k =? kTombstone)%N) with nv in Hroom |- *.
      rewrite Env in Hroom |- *. cbn [negb List.length] in Hroom |- *.
      assert (Hno : forall j, nth_error keys j <> Some k) by (apply Hdisj; [exact Hv|left; reflexivity]).
      pose proof (t_pow _ _ T) as Hpow.
      destruct (exists_empty keys (t_room _ _ T)) as [e He].
      destruct (first_slot keys isE (home keys k) (home_lt _ _ Hpow)) as (d & k1 & Hd & Hs & HE & Hb);
        [exists e, kEmpty; split; [exact He|reflexivity]|].
      unfold isE in HE. apply N.eqb_eq in HE. subst k1.
      assert (Hb' : forall d', d' < d -> slot keys (home keys k) d' <> Some kEmpty).
      { intros d' Hd' Ex. specialize (Hb d' _ Hd' Ex). discriminate. }
      rewrite (probe_empty_spec keys Hpow d _ _ (home_lt _ _ Hpow) Hd Hb' Hs). cbn [bind].
      set (p := (home keys k + d) mod List.length keys) in *.
      assert (Hp : nth_error keys p = Some kEmpty) by exact Hs.
      destruct (tbl_put keys vals k p v kEmpty T Hv Hno Hp (or_introl eq_refl)) as [T' C'].
      { exists d. auto. }
      { replace (isE kEmpty) with true by reflexivity. lia. }
      replace (isE kEmpty) with true in C' by reflexivity.
      replace (S (count keys)) with (count (list_set keys p k)) by lia.
      assert (Hpl : p < List.length keys) by (apply nth_error_Some; congruence).
      destruct (IH (list_set keys p k) (list_set vals p v) T' Huniq')
        as (keys' & vals' & used' & A & B & C & D & E & F).
      { intros k0 Hk0 Hin j Hj. rewrite list_set_nth in Hj by exact Hpl.
        destruct (p =? j).
        - injection Hj as <-. apply In_nth_error in Hin as [m Hm].
          specialize (Huniq 0 (S m) k Hv eq_refl Hm). lia.
        - revert Hj. apply Hdisj; [exact Hk0|right; exact Hin]. }
      { rewrite list_set_length. lia. }
      exists keys', vals', used'. rewrite list_set_length in C.
      split; [exact A|]. split; [exact B|]. split; [exact C|].
      split; [exact D|]. split; [lia|]. intros key v0 Hkey. split.
      * intro M. apply F in M; [|assumption]. destruct M as [M|M]; [|right; right; exact M].
        apply (maps_put keys vals k p v key v0 T Hno Hpl) in M; [| |assumption].
        -- destruct (N.eqb_spec k key) as [->|]; [subst v0; right; left; reflexivity|left; exact M].
        -- intros k0 Hk0. left. congruence.
      * intro M. apply F; [assumption|]. destruct M as [M|[M|M]].
        -- left. apply (maps_put keys vals k p v key v0 T Hno Hpl).
           { intros k0 Hk0. left. congruence. } { assumption. }
           destruct (N.eqb_spec k key) as [->|]; [|exact M].
           exfalso. destruct M as (j & M1 & _). eapply Hno. exact M1.
        -- injection M as -> ->. left. apply (maps_put keys vals key p v0 key v0 T Hno Hpl).
           { intros k0 Hk0. left. congruence. } { assumption. }
           rewrite N.eqb_refl. reflexivity.
        -- right. exact M.
Qed.

Lemma list_ext {A} (l : list A) : forall m, (forall i, nth_error l i = nth_error m i) -> l = m.
Proof.
  induction l as [|x l IH]; intros [|y m] H; [reflexivity|specialize (H 0); discriminate|specialize (H 0); discriminate|].
  pose proof (H 0) as H0. cbn in H0. injection H0 as ->. f_equal. apply IH. intro i. exact (H (S i)).
Qed.

(** Cache invariant. *)
Record pc_inv {V} (c : pcache V) : Prop := {
  pi_init : pow2 (N.to_nat (pc_init c)) /\ (1024 <= pc_init c)%N;
  pi_tbl : pc_keys c = [] /\ pc_vals c = [] /\ pc_used c = 0
           \/ tbl (pc_keys c) (pc_vals c) /\ pc_used c = count (pc_keys c)
              /\ pc_used c * 4 <= List.length (pc_keys c) * 3 /\ 1024 <= List.length (pc_keys c);
}.

Definition cmaps {V} (c : pcache V) := maps (pc_keys c) (pc_vals c).

Lemma combine_fst {A B} (l : list A) : forall (m : list B), List.length m = List.length l -> map fst (combine l m) = l.
Proof. induction l as [|x l IH]; intros [|y m] H; cbn in *; try lia; try reflexivity. f_equal. apply IH. lia. Qed.

Lemma In_combine_nth {A B} (l : list A) : forall (m : list B) a b,
  In (a, b) (combine l m) <-> exists j, nth_error l j = Some a /\ nth_error m j = Some b.
Proof.
  induction l as [|x l IH]; intros [|y m] a b; cbn [combine In].
  - split; [contradiction|]. intros (j & H & _). destruct j; discriminate.
  - split; [contradiction|]. intros (j & H & _). destruct j; discriminate.
  - split; [contradiction|]. intros (j & _ & H). destruct j; discriminate.
  - rewrite IH. split.
    + intros [E|(j & H1 & H2)]; [injection E as -> ->; exists 0; auto|exists (S j); auto].
    + intros ([|j] & H1 & H2); [left; cbn in *; congruence|right; exists j; auto].
Qed.

Lemma count_valid_le keys :
  List.length (filter (fun k => negb ((k =? kEmpty) || (k =? kTombstone))%N) keys) <= count keys.
Proof.
  unfold count, isE. induction keys as [|k keys IH]; cbn [filter]; [auto|].
  destruct (k =? kEmpty)%N; cbn [orb negb]; [exact IH|].
  destruct (k =? kTombstone)%N; cbn [negb List.length]; lia.
Qed.

Lemma pow2_double n : pow2 n -> pow2 (n * 2).
Proof. intros [k H]. exists (N.succ k). rewrite N.pow_succ_r', Nat2N.inj_mul, H. lia. Qed.

Lemma grow_spec {V} (c : pcache V) : pc_inv c -> exists c',
  pc_grow c = Ok c' /\ pc_inv c' /\ pc_keys c' <> [] /\ (pc_used c' + 1) * 4 <= List.length (pc_keys c') * 3
  /\ (forall key v, valid key -> cmaps c' key v <-> cmaps c key v).
Proof.
  intros [[Hi1 Hi2] Ht]. unfold pc_grow.
  set (cap := match pc_keys c with [] => N.to_nat (pc_init c) | _ => List.length (pc_keys c) * 2 end).
  assert (Hcap : pow2 cap /\ 1024 <= cap /\ (count (pc_keys c) + 1) * 4 <= cap * 3).
  { subst cap. destruct Ht as [(K & _ & _)|(T & U & L & M)].
    - rewrite K. split; [exact Hi1|]. assert (1024 <= N.to_nat (pc_init c)) by lia. split; [exact H|].
      cbn [count filter List.length]. lia.
    - destruct (pc_keys c) as [|k0 ks] eqn:E; [cbn in M; lia|]. rewrite <- E in *.
      split; [apply pow2_double; apply (t_pow _ _ T)|]. split; [lia|]. lia. }
  destruct Hcap as (P1 & P2 & P3).
  assert (Hlen : List.length (pc_vals c) = List.length (pc_keys c)).
  { destruct Ht as [(K & L & _)|(T & _)]; [rewrite K, L; reflexivity|apply (t_len _ _ T)]. }
  destruct (grow_fold (combine (pc_keys c) (pc_vals c)) (repeat kEmpty cap) (repeat None cap)
    (tbl_empty cap P1)) as (keys' & vals' & used' & A & B & C & D & E & F).
  { rewrite combine_fst by exact Hlen. destruct Ht as [(K & _)|(T & _)].
    - rewrite K. intros [|i] j k _ H; discriminate.
    - apply (t_uniq _ _ T). }
  { intros k Hk _ j Hj. apply nth_error_repeat_some in Hj. destruct Hk. contradiction. }
  { rewrite combine_fst by exact Hlen. rewrite count_repeat, repeat_length.
    pose proof (count_valid_le (pc_keys c)). lia. }
  rewrite count_repeat in A. rewrite A. cbn [bind]. eexists. split; [reflexivity|].
  rewrite repeat_length in C. rewrite count_repeat, combine_fst in E by exact Hlen.
  pose proof (count_valid_le (pc_keys c)) as Hcv.
  split; [|split; [|split]]; cbn [pc_keys pc_vals pc_used pc_init].
  - constructor; cbn [pc_keys pc_vals pc_used pc_init]; [auto|]. right.
    split; [exact B|]. split; [exact D|]. rewrite C, D. split; lia.
  - intros ->. cbn in C. lia.
  - rewrite C, D. lia.
  - intros key v Hv. unfold cmaps. cbn [pc_keys pc_vals]. rewrite F by exact Hv.
    rewrite In_combine_nth. unfold maps. split.
    + intros [(j & M & _)|M]; [|exact M]. apply nth_error_repeat_some in M. destruct Hv. contradiction.
    + intro M. right. exact M.
Qed.

Lemma insert_spec {V} (c : pcache V) key val : pc_inv c -> valid key -> exists c',
  pc_insert c key val = Ok c' /\ pc_inv c'
  /\ (forall key' v, valid key' -> cmaps c' key' v <-> (if (key =? key')%N then v = val else cmaps c key' v)).
Proof.
  intros Hinv Hv.
  assert (Pre : exists c1,
    (match pc_keys c with [] => pc_grow c
     | _ => if List.length (pc_keys c) * 3 <? (pc_used c + 1) * 4 then pc_grow c else Ok c end) = Ok c1
    /\ pc_inv c1 /\ pc_keys c1 <> [] /\ (pc_used c1 + 1) * 4 <= List.length (pc_keys c1) * 3
    /\ (forall k v, valid k -> cmaps c1 k v <-> cmaps c k v)).
  { destruct (pc_keys c) as [|k0 ks] eqn:Ek.
    - destruct (grow_spec c Hinv) as (c1 & A & B & C & D & E). exists c1. auto.
    - destruct (_ <? _) eqn:El.
      + destruct (grow_spec c Hinv) as (c1 & A & B & C & D & E). exists c1. auto.
      + apply Nat.ltb_ge in El. rewrite <- Ek in El. exists c. split; [reflexivity|]. split; [exact Hinv|].
        split; [congruence|]. split; [exact El|]. intros; reflexivity. }
  destruct Pre as (c1 & P1 & [I1 I2] & P3 & P4 & P5).
  unfold pc_insert. rewrite P1. cbn [bind].
  destruct I2 as [(K & _)|(T & U & L & M)]; [contradiction|].
  pose proof (t_pow _ _ T) as Hpow. pose proof (home_lt _ key Hpow) as Hh.
  set (keys := pc_keys c1) in *. set (vals := pc_vals c1) in *.
  destruct (in_dec N.eq_dec key keys) as [Hin|Hnin].
  - (* overwrite *)
    apply In_nth_error in Hin as [j Hj].
    destruct (tbl_find keys vals key T Hv) as [(j' & Hj' & Pr)|(Hno & _)]; [|exfalso; eapply Hno; exact Hj].
    destruct (t_chain _ _ T j key Hv Hj) as (d & Hd & Hm & Hch).
    destruct (first_slot keys (fun k => (k =? key)%N) (home keys key) Hh) as (d1 & k1 & Hd1 & Hs1 & E1 & Hb1);
      [exists j, key; split; [exact Hj|apply N.eqb_refl]|].
    apply N.eqb_eq in E1. subst k1.
    assert (Hle : d1 <= d).
    { destruct (Nat.le_gt_cases d1 d) as [l|g]; [exact l|].
      assert (slot keys (home keys key) d = Some key) by (unfold slot; rewrite Hm; exact Hj).
      specialize (Hb1 d key g H). rewrite N.eqb_refl in Hb1. discriminate. }
    destruct (probe_insert_spec keys key Hpow Hv d1 (home keys key) (List.length keys) None key)
      as (p & inc & A & B); auto; try discriminate.
    { intros d' Hd'. split; [|apply Hch; lia]. intro E. specialize (Hb1 d' key Hd' E).
      rewrite N.eqb_refl in Hb1. discriminate. }
    rewrite N.eqb_refl in B. destruct B as [-> ->].
    assert (Hp : nth_error keys ((home keys key + d1) mod List.length keys) = Some key) by exact Hs1.
    set (p := (home keys key + d1) mod List.length keys) in *.
    assert (Hpl : p < List.length keys) by (apply nth_error_Some; congruence).
    assert (Same : list_set keys p key = keys).
    { apply list_ext. intro i. rewrite list_set_nth by exact Hpl.
      destruct (Nat.eqb_spec p i) as [<-|]; [symmetry; exact Hp|reflexivity]. }
    rewrite A. cbn [bind]. eexists. split; [reflexivity|]. rewrite Same. split.
    + constructor; cbn [pc_keys pc_vals pc_used pc_init]; [exact I1|]. right.
      split; [|auto]. destruct T. constructor; auto. rewrite list_set_length. assumption.
    + intros key' v Hv'. unfold cmaps, maps. cbn [pc_keys pc_vals].
      assert (Hvl : p < List.length vals) by (rewrite (t_len _ _ T); exact Hpl).
      destruct (N.eqb_spec key key') as [<-|Hne].
      * split.
        -- intros (i & Q1 & Q2). assert (i = p) by (eapply (t_uniq _ _ T); eauto). subst i.
           rewrite list_set_nth, Nat.eqb_refl in Q2 by exact Hvl. congruence.
        -- intros ->. exists p. split; [exact Hp|]. rewrite list_set_nth, Nat.eqb_refl by exact Hvl. reflexivity.
      * rewrite <- (P5 key' v Hv'). unfold cmaps, maps. fold keys. fold vals. split; intros (i & Q1 & Q2); exists i; (split; [exact Q1|]).
        -- rewrite list_set_nth in Q2 by exact Hvl. destruct (Nat.eqb_spec p i) as [<-|]; [congruence|exact Q2].
        -- rewrite list_set_nth by exact Hvl. destruct (Nat.eqb_spec p i) as [<-|]; [congruence|exact Q2].
  - (* fresh *)
    assert (Hno : forall j, nth_error keys j <> Some key) by (intros j E; apply Hnin; eapply nth_error_In; exact E).
    destruct (exists_empty keys (t_room _ _ T)) as [e He].
    destruct (first_slot keys isE (home keys key) Hh) as (d & k1 & Hd & Hs & HE & Hb);
      [exists e, kEmpty; split; [exact He|reflexivity]|].
    unfold isE in HE. apply N.eqb_eq in HE. subst k1.
    assert (Hb' : forall d', d' < d -> slot keys (home keys key) d' <> Some kEmpty).
    { intros d' Hd' Ex. specialize (Hb d' _ Hd' Ex). discriminate. }
    destruct (probe_insert_spec keys key Hpow Hv d (home keys key) (List.length keys) None kEmpty)
      as (p & inc & A & B); auto; try discriminate.
    { intros d' Hd'. split; [apply Hno|apply Hb'; exact Hd']. }
    destruct (N.eqb_spec kEmpty key) as [Ek|_]; [destruct Hv; congruence|].
    rewrite A. cbn [bind].
    assert (X : exists k0, nth_error keys p = Some k0 /\ (k0 = kEmpty \/ k0 = kTombstone) /\ inc = isE k0
       /\ (exists d0, d0 < List.length keys /\ (home keys key + d0) mod List.length keys = p
             /\ forall d', d' < d0 -> slot keys (home keys key) d' <> Some kEmpty)).
    { destruct B as [(B1 & B2 & B3)|(B1 & B2 & B3)].
      - exists kEmpty. split; [exact B2|]. split; [left; reflexivity|]. split; [exact B1|].
        exists d. auto.
      - exists kTombstone. split; [exact B2|]. split; [right; reflexivity|]. split; [exact B1|].
        destruct B3 as [B3|(d0 & B3 & B4)]; [discriminate|]. exists d0. split; [lia|]. split; [auto|].
        intros d' Hd'. apply Hb'. lia. }
    destruct X as (k0 & X1 & X2 & X3 & X4).
    assert (Hpl : p < List.length keys) by (apply nth_error_Some; congruence).
    destruct (tbl_put keys vals key p val k0 T Hv Hno X1 X2 X4) as [T' C'].
    { destruct (isE k0); lia. }
    eexists. split; [reflexivity|]. split.
    + constructor; cbn [pc_keys pc_vals pc_used pc_init]; [exact I1|]. right.
      split; [exact T'|]. rewrite list_set_length, C', X3.
      destruct (isE k0); split; lia.
    + intros key' v Hv'. unfold cmaps. cbn [pc_keys pc_vals].
      rewrite (maps_put keys vals key p val key' v T Hno Hpl) by (auto; intros; congruence).
      destruct (key =? key')%N; [reflexivity|]. apply P5. exact Hv'.
Qed.

Lemma erase_spec {V} (c : pcache V) key : pc_inv c -> valid key -> exists c',
  pc_erase c key = Ok c' /\ pc_inv c'
  /\ (forall key' v, valid key' -> cmaps c' key' v <-> (if (key =? key')%N then False else cmaps c key' v)).
Proof.
  intros [I1 I2] Hv. unfold pc_erase. destruct I2 as [(K & K2 & K3)|(T & U & L & M)].
  - rewrite K. exists c. split; [reflexivity|]. split; [constructor; auto|].
    intros key' v _. unfold cmaps, maps. rewrite K.
    assert (No : ~ exists j, nth_error (@nil N) j = Some key' /\ nth_error (pc_vals c) j = Some v)
      by (intros (j & Q & _); destruct j; discriminate).
    destruct (key =? key')%N; [|reflexivity]. split; [exact No|contradiction].
  - destruct (pc_keys c) as [|k0 ks] eqn:Ek; [cbn in M; lia|]. rewrite <- Ek in *. set (keys := pc_keys c) in *.
    assert (Eq : exists c', (let* r := probe (List.length keys) keys key (home keys key) in
       match r with None => Ok c | Some i => Ok {| pc_init := pc_init c; pc_keys := list_set keys i kTombstone;
          pc_vals := list_set (pc_vals c) i None; pc_used := pc_used c |} end) = Ok c'
      /\ pc_inv c'
      /\ (forall key' v, valid key' -> cmaps c' key' v <-> (if (key =? key')%N then False else cmaps c key' v))).
    2:{ exact Eq. }
    destruct (tbl_find keys (pc_vals c) key T Hv) as [(p & Hp & Pr)|(Hno & Pr)]; rewrite Pr; cbn [bind].
    + assert (Hpl : p < List.length keys) by (apply nth_error_Some; congruence).
      assert (Hvl : p < List.length (pc_vals c)) by (rewrite (t_len _ _ T); exact Hpl).
      pose proof (count_set keys p kTombstone key Hp) as Hc. rewrite (valid_isE _ Hv) in Hc.
      replace (isE kTombstone) with false in Hc by reflexivity.
      pose proof (pow2_pos _ (t_pow _ _ T)) as H0.
      eexists. split; [reflexivity|]. split.
      * constructor; cbn [pc_keys pc_vals pc_used pc_init]; [exact I1|]. right.
        rewrite list_set_length. split; [|lia]. constructor.
        -- rewrite !list_set_length. apply (t_len _ _ T).
        -- rewrite list_set_length. apply (t_pow _ _ T).
        -- rewrite list_set_length. pose proof (t_room _ _ T). lia.
        -- intros i j k Hk Hi Hj. rewrite list_set_nth in Hi by exact Hpl; rewrite list_set_nth in Hj by exact Hpl.
           destruct (p =? i); [destruct Hk; congruence|]. destruct (p =? j); [destruct Hk; congruence|].
           eapply (t_uniq _ _ T); eauto.
        -- intros j k Hk Hj. rewrite list_set_length, home_set. rewrite list_set_nth in Hj by exact Hpl.
           destruct (p =? j); [destruct Hk; congruence|].
           destruct (t_chain _ _ T j k Hk Hj) as (d & A & B & C). exists d. split; [exact A|]. split; [exact B|].
           intros d' Hd'. rewrite slot_set by assumption. destruct (p =? _); [discriminate|]. apply C. exact Hd'.
      * intros key' v Hv'. unfold cmaps, maps. cbn [pc_keys pc_vals]. fold keys.
        destruct (N.eqb_spec key key') as [<-|Hne].
        -- split; [|contradiction]. intros (j & Q1 & Q2). rewrite list_set_nth in Q1 by exact Hpl.
           destruct (Nat.eqb_spec p j) as [Hn|Hn]; [destruct Hv; congruence|].
           apply Hn. eapply (t_uniq _ _ T); eauto.
        -- split; intros (j & Q1 & Q2); exists j.
           ++ rewrite list_set_nth in Q1 by assumption; rewrite list_set_nth in Q2 by assumption.
              destruct (p =? j); [destruct Hv'; congruence|auto].
           ++ rewrite !list_set_nth by assumption.
              destruct (Nat.eqb_spec p j) as [Hn|]; [subst j; congruence|auto].
    + exists c. split; [reflexivity|]. split; [constructor; auto; right; auto|].
      intros key' v Hv'. destruct (N.eqb_spec key key') as [<-|]; [|reflexivity].
      split; [|contradiction]. intros (j & Q & _). eapply Hno. exact Q.
Qed.

Lemma find_spec {V} (c : pcache V) key : pc_inv c -> valid key -> exists r,
  pc_find c key = Ok r /\ (forall v, r = Some v <-> cmaps c key v).
Proof.
  intros [I1 I2] Hv. unfold pc_find. destruct I2 as [(K & K2 & K3)|(T & U & L & M)].
  - rewrite K. exists None. split; [reflexivity|]. intro v. unfold cmaps, maps. rewrite K.
    split; [discriminate|]. intros (j & Q & _). destruct j; discriminate.
  - assert (Eq : exists r, (let* r := probe (List.length (pc_keys c)) (pc_keys c) key (home (pc_keys c) key) in
      match r with None => Ok None | Some i => match nth_error (pc_vals c) i with Some v => Ok (Some v) | None => UB OutOfBounds end end)
      = Ok r /\ (forall v, r = Some v <-> cmaps c key v)).
    2:{ destruct (pc_keys c); [cbn in M; lia|exact Eq]. }
    destruct (tbl_find (pc_keys c) (pc_vals c) key T Hv) as [(p & Hp & Pr)|(Hno & Pr)]; rewrite Pr; cbn [bind].
    + assert (Hpl : p < List.length (pc_keys c)) by (apply nth_error_Some; congruence).
      destruct (nth_error (pc_vals c) p) as [v|] eqn:E.
      2:{ apply nth_error_None in E. rewrite (t_len _ _ T) in E. lia. }
      exists (Some v). split; [reflexivity|]. intro v'. unfold cmaps, maps. split.
      * intro H. injection H as <-. exists p. auto.
      * intros (j & Q1 & Q2). assert (j = p) by (eapply (t_uniq _ _ T); eauto). subst j. congruence.
    + exists None. split; [reflexivity|]. intro v. split; [discriminate|].
      intros (j & Q & _). exfalso. eapply Hno. exact Q.
Qed.

Lemma init_loop_spec fuel : forall cap e c, pow2 (N.to_nat cap) -> (1024 <= cap)%N ->
  init_loop fuel cap e = Ok c -> pow2 (N.to_nat c) /\ (1024 <= c)%N.
Proof.
  induction fuel as [|fuel IH]; intros cap e c Hp Hc; cbn [init_loop]; destruct (cap <? e)%N; try discriminate.
  - intro H. injection H as <-. auto.
  - apply IH; [|lia]. rewrite N2Nat.inj_mul. apply pow2_double. exact Hp.
  - intro H. injection H as <-. auto.
Qed.

Lemma new_inv {V} e (c : pcache V) : pc_new e = Ok c -> pc_inv c.
Proof.
  unfold pc_new. destruct (init_loop 53 1024 e) as [cap| | |] eqn:E; cbn [bind]; try discriminate.
  intro H. injection H as <-. apply init_loop_spec in E.
  - constructor; cbn; auto.
  - exists 10%N. reflexivity.
  - lia.
Qed.

(** Abstract map: the last write wins. *)
Definition last_write {V} (ops : list (pc_op V)) (key : N) : option (option V) :=
  fold_left (fun acc o => match o with
    | Insert k v => if (k =? key)%N then Some v else acc
    | Erase k => if (k =? key)%N then None else acc end) ops None.

Definition op_key {V} (o : pc_op V) : N := match o with Insert k _ => k | Erase k => k end.

Lemma history_spec {V} (ops : list (pc_op V)) : forall c (m : N -> option (option V)),
  pc_inv c -> (forall k v, valid k -> m k = Some v <-> cmaps c k v) ->
  Forall (fun o => valid (op_key o)) ops ->
  exists c', fold_left pc_step ops (Ok c) = Ok c' /\ pc_inv c'
   /\ (forall k v, valid k -> fold_left (fun acc o => match o with
    | Insert k0 v => if (k0 =? k)%N then Some v else acc
    | Erase k0 => if (k0 =? k)%N then None else acc end) ops (m k) = Some v <-> cmaps c' k v).
Proof.
  induction ops as [|o ops IH]; intros c m Hinv Hm Hall; cbn [fold_left].
  - exists c. auto.
  - apply Forall_cons_iff in Hall as [Ho Hall].
    destruct o as [k0 v0|k0]; cbn [pc_step bind op_key] in *.
    + destruct (insert_spec c k0 v0 Hinv Ho) as (c1 & A & B & C). rewrite A.
      apply (IH c1 (fun k => if (k0 =? k)%N then Some v0 else m k) B); [|exact Hall].
      intros k v Hk. rewrite C by exact Hk. destruct (k0 =? k)%N; [split; congruence|apply Hm; exact Hk].
    + destruct (erase_spec c k0 Hinv Ho) as (c1 & A & B & C). rewrite A.
      apply (IH c1 (fun k => if (k0 =? k)%N then None else m k) B); [|exact Hall].
      intros k v Hk. rewrite C by exact Hk. destruct (k0 =? k)%N; [split; [discriminate|contradiction]|apply Hm; exact Hk].
Qed.

Lemma cache_refines_map {V} (e : N) (c0 : pcache V) ops :
  pc_new e = Ok c0 -> Forall (fun o => valid (op_key o)) ops ->
  exists c, fold_left pc_step ops (Ok c0) = Ok c
    /\ pc_used c <= List.length (pc_keys c) * 3 / 4
    /\ (forall key, valid key -> pc_find c key = Ok (last_write ops key)).
Proof.
  intros Hn Hall. pose proof (new_inv e c0 Hn) as Hinv.
  destruct (history_spec ops c0 (fun _ => None) Hinv) as (c & A & B & C); [|exact Hall|].
  - intros k v _. split; [discriminate|]. unfold pc_new in Hn.
    destruct (init_loop 53 1024 e); cbn in Hn; try discriminate. injection Hn as <-.
    intros (j & Q & _). destruct j; discriminate.
  - exists c. split; [exact A|]. split.
    + destruct B as [_ [(K & _ & U)|(_ & _ & L & _)]]; [rewrite U; lia|].
      apply Nat.div_le_lower_bound; lia.
    + intros key Hk. destruct (find_spec c key B Hk) as (r & Hr & Hspec). rewrite Hr. f_equal.
      unfold last_write. destruct r as [v|].
      * symmetry. apply C; [exact Hk|]. apply Hspec. reflexivity.
      * destruct (fold_left _ ops None) as [v|] eqn:E; [|reflexivity].
        apply C in E; [|exact Hk]. apply Hspec in E. exact E.
Qed.
