(** * Lemmas about bytes, bit operations and list slices (proof support). *)
From Verif Require Import Base.
Local Open Scope N_scope.
Global Arguments N.add : simpl never.
Global Arguments N.sub : simpl never.
Global Arguments N.mul : simpl never.
Global Arguments N.div : simpl never.
Global Arguments N.modulo : simpl never.
Global Arguments N.land : simpl never.
Global Arguments N.lor : simpl never.
Global Arguments N.shiftl : simpl never.
Global Arguments N.shiftr : simpl never.
Global Arguments N.ltb : simpl never.
Global Arguments N.leb : simpl never.
Global Arguments N.eqb : simpl never.

Lemma bN_lt b : bN b < 256.
Proof. destruct b; reflexivity. Qed.

Lemma bN_byteN n : bN (byteN n) = n mod 256.
Proof.
  unfold bN, byteN.
  assert (H : n mod 256 < 256) by (apply N.mod_lt; discriminate).
  destruct (Byte.of_N (n mod 256)) as [b|] eqn:E.
  - apply Byte.to_of_N in E. symmetry. congruence.
  - exfalso. apply Byte.of_N_None_iff in E. lia.
Qed.

Lemma bN_byteN_small n : n < 256 -> bN (byteN n) = n.
Proof. intro H. rewrite bN_byteN. apply N.mod_small; exact H. Qed.

Lemma byteN_bN b : byteN (bN b) = b.
Proof. destruct b; reflexivity. Qed.

Lemma bN_inj a b : bN a = bN b -> a = b.
Proof. intro H. rewrite <- (byteN_bN a), <- (byteN_bN b), H. reflexivity. Qed.

Lemma beq_eq a b : beq a b = true <-> a = b.
Proof.
  unfold beq. split.
  - apply Byte.byte_dec_bl.
  - intros ->. apply Byte.byte_dec_lb. reflexivity.
Qed.

Lemma beq_refl a : beq a a = true.
Proof. apply beq_eq. reflexivity. Qed.

Lemma beq_neq a b : beq a b = false <-> a <> b.
Proof.
  split.
  - intros H ->. rewrite beq_refl in H. discriminate.
  - intro H. destruct (beq a b) eqn:E; [|reflexivity].
    apply beq_eq in E. contradiction.
Qed.

Lemma bytes_eqb_eq a b : bytes_eqb a b = true <-> a = b.
Proof.
  revert b; induction a as [|x a IH]; intros [|y b]; simpl; split; intro H;
    try reflexivity; try discriminate.
  - apply andb_true_iff in H as [H1 H2]. apply beq_eq in H1. apply IH in H2.
    congruence.
  - injection H as -> ->. rewrite beq_refl. simpl. apply IH. reflexivity.
Qed.

(** Bit fields. *)
Lemma small_bits_high b k n : b < 2 ^ k -> k <= n -> N.testbit b n = false.
Proof.
  intros H Hn. rewrite <- (N.mod_small b (2 ^ k)) by exact H.
  apply N.mod_pow2_bits_high; exact Hn.
Qed.

Lemma lor_shift a b k : b < 2 ^ k -> N.lor (N.shiftl a k) b = a * 2 ^ k + b.
Proof.
  intro H.
  assert (E : N.land (N.shiftl a k) b = 0).
  { apply N.bits_inj; intro n. rewrite N.land_spec, N.bits_0.
    destruct (N.lt_ge_cases n k) as [Hn|Hn].
    - rewrite N.shiftl_spec_low by exact Hn. reflexivity.
    - rewrite (small_bits_high b k n) by assumption. apply andb_false_r. }
  rewrite <- (N.lxor_lor _ _ E), <- (N.add_nocarry_lxor _ _ E).
  rewrite N.shiftl_mul_pow2. reflexivity.
Qed.

Lemma land_mask x k : N.land x (N.ones k) = x mod 2 ^ k.
Proof. apply N.land_ones. Qed.

Lemma shiftr_div x k : N.shiftr x k = x / 2 ^ k.
Proof. apply N.shiftr_div_pow2. Qed.

(** Slices. *)
Lemma rd_Ok s i : (i < List.length s)%nat -> exists b, rd s i = Ok b /\ nth_error s i = Some b.
Proof.
  intro H. unfold rd. destruct (nth_error s i) as [b|] eqn:E.
  - eauto.
  - apply nth_error_None in E. lia.
Qed.

Lemma rd_app s t i : (i < List.length s)%nat -> rd (s ++ t) i = rd s i.
Proof. intro H. unfold rd. rewrite nth_error_app1 by exact H. reflexivity. Qed.

Lemma nth_error_skipn {A} (l : list A) i j : nth_error (skipn i l) j = nth_error l (i + j).
Proof.
  revert l; induction i as [|i IH]; intros [|x l]; simpl; try reflexivity.
  - destruct j; reflexivity.
  - apply IH.
Qed.

Lemma skipn_skipn' {A} (l : list A) i j : skipn j (skipn i l) = skipn (i + j) l.
Proof.
  revert l; induction i as [|i IH]; intros [|x l]; simpl; try reflexivity.
  - apply skipn_nil.
  - apply IH.
Qed.

Lemma length_from s i : List.length (from s i) = (List.length s - i)%nat.
Proof. apply skipn_length. Qed.

Lemma map_bN_inj (a b : bytes) : map bN a = map bN b -> a = b.
Proof.
  revert b. induction a as [|x a IH]; intros [|y b] H; try discriminate; [reflexivity|].
  cbn in H. injection H as Hx Hr. f_equal; [apply bN_inj; exact Hx|apply IH; exact Hr].
Qed.
