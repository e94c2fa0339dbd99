(** * Reading arbitrary bytes. *)
From Verif Require Import Base BaseLemmas Escape TrieM Ope EngineLemmas Scope GrammarCond FirstSetM FirstSetup BlobM BlobSpec BlobProofs.
Require Import Lia.

(** A 32-bit length followed by fewer bytes than it says. *)
Definition overlong (b : bytes) : Prop :=
  exists pre n rest, b = pre ++ le 4 n ++ rest /\ (n < 2 ^ 32)%N /\ (N.of_nat (List.length rest) < n)%N.
(** [rd] takes at least [c] bytes and depends only on those it takes; it ends; and it reads
    out of bounds only because of an overlong length.  [rd'] is the same reader with other
    fuel; the bounds [m], [m'] say for how long an input. *)
Definition rel {A} (c m m' : nat) (rd rd' : reader A) : Prop := forall b, List.length b < m ->
  match rd b with
  | Ok (x, b') => exists pre, b = pre ++ b' /\ c <= List.length pre /\ forall s, List.length (pre ++ s) < m' -> rd' (pre ++ s) = Ok (x, s)
  | Throw _ => True
  | UB f => f = OutOfBounds /\ overlong b
  | OutOfFuel => False
  end.
Lemma overlong_app p b : overlong b -> overlong (p ++ b).
Proof. intros (pre & n & rest & -> & H). exists (p ++ pre), n, rest. now rewrite <- app_assoc. Qed.
Lemma rel_weaken {A} c m m' c' n n' (rd rd' : reader A) : rel c m m' rd rd' -> c' <= c -> n <= m -> n' <= m' -> rel c' n n' rd rd'.
Proof.
  intros H Hc Hn Hn' b Hb. specialize (H b ltac:(lia)). destruct (rd b) as [[x b']| | |]; auto. destruct H as (pre & A1 & A2 & A3).
  exists pre. split; [assumption|]. split; [lia|]. intros s Hs. apply A3. lia.
Qed.
Lemma rel_bind {A B} c1 c2 m m' (rd rd' : reader A) (k k' : A -> reader B) : rel c1 m m' rd rd' ->
  (forall x, rel c2 (m - c1) (m' - c1) (k x) (k' x)) ->
  rel (c1 + c2) m m' (fun b => let* (x, b1) := rd b in k x b1) (fun b => let* (x, b1) := rd' b in k' x b1).
Proof.
  intros H1 H2 b Hb. specialize (H1 b Hb). destruct (rd b) as [[x b1]| | |]; cbn [bind]; auto. destruct H1 as (p1 & -> & L1 & E1).
  rewrite app_length in Hb. specialize (H2 x b1 ltac:(lia)). destruct (k x b1) as [[y b2]| |f|]; auto.
  - destruct H2 as (p2 & -> & L2 & E2). exists (p1 ++ p2). rewrite <- app_assoc. split; [reflexivity|]. split; [rewrite app_length; lia|].
    intros s Hs. rewrite <- app_assoc in *. rewrite E1 by assumption. cbn [bind]. apply E2. rewrite app_length in Hs. lia.
  - destruct H2 as [-> H2]. split; [reflexivity|]. now apply overlong_app.
Qed.
Lemma rel_ret {A} m m' (x : A) : rel 0 m m' (fun b => Ok (x, b)) (fun b => Ok (x, b)).
Proof. intros b _. exists []. split; [reflexivity|]. split; [cbn; lia|]. reflexivity. Qed.
Lemma rel_r8 m m' : rel 1 m m' r8 r8.
Proof. intros [|x b] _; cbn [r8]; [exact I|]. exists [x]. split; [reflexivity|]. split; [cbn; lia|]. reflexivity. Qed.
Lemma rel_rle k : forall m m', rel k m m' (rle k) (rle k).
Proof.
  induction k as [|k IH]; intros m m'; [apply rel_ret|].
  change (S k) with (1 + k) at 1. apply (rel_bind 1 k m m' r8 r8); [apply rel_r8|]. intros x. replace k with (k + 0) at 1 by lia.
  apply (rel_bind k 0 _ _ (rle k) (rle k)); [apply IH|]. intros y. apply rel_ret.
Qed.
Lemma rel_r32 m m' : rel 4 m m' r32 r32. Proof. apply rel_rle. Qed.
Lemma rel_r64 m m' : rel 8 m m' r64 r64. Proof. apply rel_rle. Qed.
Lemma rel_rbool m m' : rel 1 m m' rbool rbool.
Proof. change 1 with (1 + 0). apply (rel_bind 1 0 m m' r8 r8); [apply rel_r8|]. intros x. apply rel_ret. Qed.
Lemma byteN_bN b : byteN (bN b) = b.
Proof. destruct b; reflexivity. Qed.
Lemma rle_inv k : forall b x b', rle k b = Ok (x, b') -> b = le k x ++ b' /\ (x < 256 ^ N.of_nat k)%N.
Proof.
  induction k as [|k IH]; intros b x b' H; [inversion H; subst; split; [reflexivity|cbn; lia]|].
  destruct b as [|c b]; cbn [rle r8 bind] in H; [discriminate|]. destruct (rle k b) as [[y b2]| | |] eqn:E; cbn [bind] in H; try discriminate.
  inversion H; subst. destruct (IH _ _ _ E) as [-> Hy]. pose proof (Byte.to_N_bounded c) as Hc. fold (bN c) in Hc. change 255%N with (256 - 1)%N in Hc.
  assert (Hc' : (bN c < 256)%N) by lia.
  cbn [le app]. split.
  - f_equal.
    + unfold byteN. replace ((bN c + 256 * y) mod 256)%N with (bN c mod 256)%N by (rewrite N.mul_comm, N.mod_add by discriminate; reflexivity).
      symmetry. apply (byteN_bN c).
    + f_equal. f_equal. rewrite N.mul_comm, N.div_add by discriminate. rewrite N.div_small by assumption. reflexivity.
  - rewrite Nat2N.inj_succ, N.pow_succ_r'. lia.
Qed.
Lemma rel_rstr m m' : rel 4 m m' rstr rstr.
Proof.
  intros b Hb. unfold rstr. pose proof (rel_r32 m m' b Hb) as H. destruct (r32 b) as [[n b1]| | |] eqn:E; cbn [bind]; auto.
  destruct (rle_inv 4 _ _ _ E) as [-> Hn]. change (256 ^ N.of_nat 4)%N with (2 ^ 32)%N in Hn.
  destruct (N.ltb_spec (N.of_nat (List.length b1)) n) as [Hl|Hl].
  - split; [reflexivity|]. exists [], n, b1. auto.
  - exists (le 4 n ++ firstn (N.to_nat n) b1). rewrite <- app_assoc, firstn_skipn. split; [reflexivity|]. split; [rewrite app_length, le_length; lia|].
    intros s _. rewrite <- app_assoc. change (le 4 n) with (w32 n). rewrite r32_w32 by assumption. cbn [bind].
    assert (Hf : List.length (firstn (N.to_nat n) b1) = N.to_nat n) by (rewrite firstn_length; lia).
    destruct (N.ltb_spec (N.of_nat (List.length (firstn (N.to_nat n) b1 ++ s))) n) as [C|_]; [rewrite app_length, Hf in C; lia|].
    rewrite <- Hf at 1 3. rewrite firstn_app_len, skipn_app_len. reflexivity.
Qed.
Lemma rel_rloop {A} (rd rd' : reader A) m m' : rel 1 m m' rd rd' -> forall f f' n,
  rel 0 (Nat.min m f) (Nat.min m' f') (rloop rd f n) (rloop rd' f' n).
Proof.
  intros H. induction f as [|f IH]; intros f' n b Hb; [lia|]. cbn [rloop]. destruct (N.eqb_spec n 0) as [->|Hn].
  - exists []. split; [reflexivity|]. split; [cbn; lia|]. intros s Hs. destruct f'; reflexivity.
  - pose proof (H b ltac:(lia)) as H1. destruct (rd b) as [[x b1]| | |]; cbn [bind]; auto. destruct H1 as (p1 & -> & L1 & E1). rewrite app_length in Hb.
    specialize (IH (pred f') (N.pred n) b1 ltac:(lia)). destruct (rloop rd f (N.pred n) b1) as [[l b2]| |e|]; cbn [bind]; auto.
    + destruct IH as (p2 & -> & L2 & E2). exists (p1 ++ p2). rewrite <- app_assoc. split; [reflexivity|]. split; [lia|]. intros s Hs. rewrite <- app_assoc in *.
      destruct f' as [|f']; [lia|]. cbn [rloop]. destruct (N.eqb_spec n 0) as [C|_]; [contradiction|]. rewrite E1 by lia. cbn [bind].
      rewrite app_length in Hs. cbn [pred] in E2. rewrite E2 by lia. reflexivity.
    + destruct IH as [-> IH]. split; [reflexivity|]. now apply overlong_app.
Qed.
Lemma rel_rlist {A} (rd rd' : reader A) m m' : rel 1 m m' rd rd' -> rel 4 (m + 4) (m' + 4) (rlist rd) (rlist rd').
Proof.
  intros H b Hb. unfold rlist. pose proof (rel_r32 (m + 4) (m' + 4) b Hb) as H1. destruct (r32 b) as [[n b1]| | |]; cbn [bind]; auto.
  destruct H1 as (p1 & -> & L1 & E1). rewrite app_length in Hb.
  pose proof (rel_rloop rd rd' m m' H (S (List.length b1))) as H2.
  pose proof (H2 0 n b1 ltac:(lia)) as H3. destruct (rloop rd (S (List.length b1)) n b1) as [[l b2]| |e|] eqn:E; auto.
  - clear H3. assert (H3 : forall f', exists pre, b1 = pre ++ b2 /\ forall s, List.length (pre ++ s) < Nat.min m' f' -> rloop rd' f' n (pre ++ s) = Ok (l, s)).
    { intros f'. pose proof (H2 f' n b1 ltac:(lia)) as H3. rewrite E in H3. destruct H3 as (p & A1 & _ & A2). exists p. auto. }
    destruct (H3 0) as (p2 & -> & _). exists (p1 ++ p2). rewrite <- app_assoc. split; [reflexivity|]. split; [rewrite app_length; lia|].
    intros s Hs. rewrite <- app_assoc in *. rewrite E1 by assumption. cbn [bind]. destruct (H3 (S (List.length (p2 ++ s)))) as (p2' & Hp & E2).
    apply app_inv_tail in Hp. subst p2'. apply E2. rewrite app_length in Hs. lia.
  - destruct H3 as [-> H3]. split; [reflexivity|]. now apply overlong_app.
Qed.
Ltac rbind c1 c2 := match goal with
  | |- rel _ ?m ?m' (fun v1 => bind (?rd v1) _) (fun v2 => bind (?rd' v2) _) => refine (rel_weaken (c1 + c2) m m' _ m m' _ _ (rel_bind c1 c2 m m' rd rd' _ _ _ _) _ _ _); [|intros ?|lia|lia|lia]
  end.
Lemma rel_rrange m m' : rel 1 m m' rrange rrange.
Proof. unfold rrange. rbind 4 0; [apply rel_r32|]. rbind 4 0; [apply rel_r32|]. apply rel_ret. Qed.
Lemma rel_rinfo m m' : rel 1 m m' rinfo rinfo.
Proof. unfold rinfo. rbind 4 0; [apply rel_rstr|]. rbind 8 0; [apply rel_r64|]. rbind 1 0; [apply rel_r8|]. apply rel_ret. Qed.
Lemma rel_rlist_any {A} (rd : reader A) : (forall m m', rel 1 m m' rd rd) -> forall m m', rel 4 m m' (rlist rd) (rlist rd).
Proof. intros H m m'. eapply rel_weaken; [apply (rel_rlist rd rd m m'); apply H|lia..]. Qed.
Lemma rel_zero {A} c m (rd r1 r2 : reader A) : rel c m 0 rd r1 -> rel c m 0 rd r2.
Proof. intros H b Hb. specialize (H b Hb). destruct (rd b) as [[x b']| | |]; auto. destruct H as (pre & A1 & A2 & _). exists pre. split; [assumption|]. split; [assumption|]. intros s Hs. lia. Qed.
Lemma rel_throw {A} c m m' msg (rd' : reader A) : rel c m m' (fun _ => Throw msg) rd'.
Proof. intros b _. exact I. Qed.
Lemma rel_read_ope : forall f f', rel 1 f f' (read_ope f) (read_ope f').
Proof.
  induction f as [|f IH]; [intros f' b Hb; lia|].
  assert (Hstep : forall f', rel 1 (S f) (S f') (read_ope (S f)) (read_ope (S f'))).
  { intros f'. cbn [read_ope]. rbind 1 0; [apply rel_r8|].
    assert (HO : forall m m', m <= f -> m' <= f' -> rel 1 m m' (read_ope f) (read_ope f')) by (intros; eapply rel_weaken; [apply IH|lia..]).
    assert (HL : forall m m', m <= f -> m' <= f' -> rel 4 m m' (rlist (read_ope f)) (rlist (read_ope f'))) by (intros; eapply rel_weaken; [apply rel_rlist, IH|lia..]).
    match goal with |- rel _ _ _ (fun b => match ?x with _ => _ end) _ => rename x into t end.
    assert (Ha : forall m m', rel 4 m m' (rlist rstr) (rlist rstr)) by (apply rel_rlist_any; intros; eapply rel_weaken; [apply (rel_rstr m m')|lia..]).
    assert (Hb : forall m m', rel 4 m m' (rlist rrange) (rlist rrange)) by (apply rel_rlist_any; apply rel_rrange).
    assert (Hc : forall m m', rel 4 m m' (rlist rinfo) (rlist rinfo)) by (apply rel_rlist_any; apply rel_rinfo).
    destruct t as [|p]; [|do 5 (try destruct p as [p|p|])]; cbv beta iota;
      try apply rel_throw;
      repeat first [ apply rel_ret
        | rbind 1 0; [apply rel_rbool|] | rbind 8 0; [apply rel_r64|] | rbind 4 0; [apply rel_r32|] | rbind 4 0; [apply rel_rstr|]
        | rbind 1 0; [apply HO; lia|] | rbind 4 0; [apply HL; lia|] | rbind 4 0; [apply Ha|] | rbind 4 0; [apply Hb|] | rbind 4 0; [apply Hc|] ]. }
  intros [|f']; [|apply Hstep]. apply (rel_zero 1 (S f) _ (read_ope 1)). eapply rel_weaken; [apply (Hstep 0)|lia..].
Qed.
Lemma rel_read_self m m' : rel 1 m m' (fun b => read_ope (S (List.length b)) b) (fun b => read_ope (S (List.length b)) b).
Proof.
  intros b Hb. pose proof (fun f' => rel_read_ope (S (List.length b)) f' b (Nat.lt_succ_diag_r _)) as Hf.
  destruct (read_ope (S (List.length b)) b) as [[x b']| | |]; [|apply (Hf 0)..]. destruct (Hf 0) as (pre & -> & L & _). exists pre. split; [reflexivity|]. split; [assumption|].
  intros s _. destruct (Hf (S (List.length (pre ++ s)))) as (pre' & E & _ & H). apply app_inv_tail in E. subst pre'. apply H. lia.
Qed.
Lemma rel_read_def m m' : rel 1 m m' read_def read_def.
Proof.
  unfold read_def. rbind 4 0; [apply rel_rstr|]. rbind 1 0; [apply rel_r8|]. rbind 1 0; [apply rel_r8|].
  rbind 4 0; [apply rel_rlist_any; intros; eapply rel_weaken; [apply (rel_rstr m0 m'0)|lia..]|]. rbind 4 0; [apply rel_rstr|]. rbind 4 0; [apply rel_rstr|].
  match goal with |- rel _ ?m1 ?m2 _ _ => refine (rel_weaken (1 + 0) m1 m2 0 m1 m2 _ _ (rel_bind 1 0 m1 m2 (fun b => read_ope (S (List.length b)) b) (fun b => read_ope (S (List.length b)) b) _ _ (rel_read_self _ _) (fun o => rel_ret _ _ _)) _ _ _) end; lia.
Qed.
Lemma rel_read_blob m m' : rel 1 m m' read_blob read_blob.
Proof.
  unfold read_blob. rbind 4 0; [apply rel_r32|]. destruct (negb _); [apply rel_throw|]. rbind 4 0; [apply rel_rstr|].
  rbind 4 0; [apply rel_rlist_any; apply rel_read_def|]. apply rel_ret.
Qed.

(** Linking fails only on a null operator. *)
Lemma link_ub names params : forall o, match link_ope names params o with Ok _ => True | UB f => f = NullDeref | _ => False end.
Proof.
  induction o as [kg l IH|fl fs l IH|e mn mx sp IH|e IH|e IH|t|s ic|rs neg ic|cp| |e IH|n e IH|e IH|e IH|id|r|r|n rl ia m args IH|e IH|n|a b i r IHa IHb|e IH| | ] using ope_ind';
    try exact I; try reflexivity; try (cbn [link_ope]; destruct (link_ope names params e); cbn [bind]; auto; fail).
  all: try (match goal with H : Forall _ ?l |- _ => assert (HL : match link_list names params l with Ok _ => True | UB f => f = NullDeref | _ => False end);
    [ induction H as [|x l' Hx _ IHl]; cbn [link_list]; auto; destruct (link_ope names params x); cbn [bind]; auto; destruct (link_list names params l'); cbn [bind]; auto | ] end).
  - change (link_ope names params (Seq kg l)) with (let* l' := link_list names params l in Ok (Seq kg l')). destruct (link_list names params l); cbn [bind]; auto.
  - change (link_ope names params (Cho fl fs l)) with (let* l' := link_list names params l in Ok (Cho fl fs l')). destruct (link_list names params l); cbn [bind]; auto.
  - change (link_ope names params (Ref n rl ia m args)) with
      (let* args' := link_list names params args in
       match index_of n params with
       | Some i => Ok (Ref n rl i m args')
       | None => match index_of n names with Some q => Ok (Ref n (Some q) ia m args') | None => Ok (Ref n rl ia m args') end
       end).
    destruct (link_list names params args); cbn [bind]; auto. destruct (index_of n params); [exact I|]. destruct (index_of n names); exact I.
  - cbn [link_ope]. destruct (link_ope names params a); cbn [bind]; auto.
Qed.
Lemma link_defs_ub names l : forall i, match link_defs names i l with Ok _ => True | UB f => f = NullDeref | _ => False end.
Proof.
  induction l as [|d l IH]; intros i; cbn [link_defs]; [exact I|].
  assert (H : match link_def names i d with Ok _ => True | UB f => f = NullDeref | _ => False end).
  { unfold link_def. destruct (r_body (d_rule d)) as [o|]; [|reflexivity].
    pose proof (link_ub names (r_params (d_rule d)) (own_ope i o)) as H. destruct (link_ope names _ (own_ope i o)) as [o1| | |]; cbn [bind]; auto.
    destruct o1; cbn [bind]; auto. pose proof (link_ub names (r_params (d_rule d)) o1_2) as H2. destruct (link_ope names _ o1_2); cbn [bind]; auto. }
  destruct (link_def names i d); cbn [bind]; auto. specialize (IH (S i)). destruct (link_defs names (S i) l); cbn [bind]; auto.
Qed.
(** The null operators: a rule without a body, or one inside a body where links are looked for. *)
Theorem read_blob_total b : match read_blob b with
  | Ok (_, b') => exists pre, b = pre ++ b'
  | Throw _ => True
  | UB f => f = OutOfBounds /\ overlong b
  | OutOfFuel => False
  end.
Proof.
  pose proof (rel_read_blob (S (List.length b)) 0 b (Nat.lt_succ_diag_r _)) as H. destruct (read_blob b) as [[x b']| | |]; auto. destruct H as (pre & H & _). eauto.
Qed.
Theorem read_blob_prefix b x b' s : read_blob b = Ok (x, b') -> read_blob (b ++ s) = Ok (x, b' ++ s).
Proof.
  intros E. pose proof (rel_read_blob (S (List.length b)) (S (List.length (b ++ s))) b (Nat.lt_succ_diag_r _)) as H. rewrite E in H.
  destruct H as (pre & -> & _ & H). rewrite <- app_assoc. apply H. rewrite <- app_assoc. lia.
Qed.
Theorem truncated k n order L : ready k n order L -> saves L -> forall p s k' n' order', blob_of L = p ++ s -> s <> [] ->
  forall L', load_blob k' n' order' p <> Ok L'.
Proof.
  intros HL Hs p s k' n' order' Hb Hne L' Hl. unfold load_blob in Hl. destruct (read_blob p) as [[[st ds] b']| | |] eqn:E; try discriminate.
  apply (read_blob_prefix _ _ _ s) in E. rewrite <- Hb in E. pose proof (read_blob_ok k n order L [] HL Hs) as H. rewrite app_nil_r in H. rewrite H in E.
  inversion E as [[E1 E2 E3]]. symmetry in E3. apply app_eq_nil in E3 as [_ ->]. now apply Hne.
Qed.
