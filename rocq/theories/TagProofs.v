(** * Tags of rule names (C10). *)
From Verif Require Import Base BaseLemmas LineInfo.
Local Open Scope N_scope.

Lemma lxor_bound a b : a < 4294967296 -> b < 4294967296 -> N.lxor a b < 4294967296.
Proof.
  intros Ha Hb. change 4294967296 with (2 ^ 32) in *. destruct (N.eq_dec (N.lxor a b) 0) as [-> |Hz]; [reflexivity|].
  apply N.log2_lt_pow2; [lia|]. eapply N.le_lt_trans; [apply N.log2_lxor|].
  apply N.max_lub_lt.
  - destruct (N.eq_dec a 0) as [-> |]; [reflexivity|]. apply N.log2_lt_pow2; [lia|assumption].
  - destruct (N.eq_dec b 0) as [-> |]; [reflexivity|]. apply N.log2_lt_pow2; [lia|assumption].
Qed.
Lemma lxor_cancel_r a b c : N.lxor a c = N.lxor b c -> a = b.
Proof. intros H. rewrite <- (N.lxor_0_r a), <- (N.lxor_0_r b), <- (N.lxor_nilpotent c), <- !N.lxor_assoc. now rewrite H. Qed.
Lemma lxor_cancel_l a b c : N.lxor c a = N.lxor c b -> a = b.
Proof. rewrite !(N.lxor_comm c). apply lxor_cancel_r. Qed.
Lemma mul33 h : h < 4294967296 -> (h * 33 mod 4294967296) * 1041204193 mod 4294967296 = h.
Proof.
  intros H. rewrite N.mul_mod_idemp_l by discriminate. rewrite <- N.mul_assoc. change (33 * 1041204193) with (1 + 8 * 4294967296).
  rewrite N.mul_add_distr_l, N.mul_1_r, N.mul_assoc, N.mod_add by discriminate. now apply N.mod_small.
Qed.
Lemma mul33_inj a b : a < 4294967296 -> b < 4294967296 -> a * 33 mod 4294967296 = b * 33 mod 4294967296 -> a = b.
Proof. intros Ha Hb E. rewrite <- (mul33 a Ha), <- (mul33 b Hb). now rewrite E. Qed.
Lemma bN_small c : bN c < 4294967296.
Proof. pose proof (bN_lt c). lia. Qed.
Lemma tag_state s : forall h, h < 4294967296 -> str2tag_core s h < 4294967296.
Proof.
  induction s as [|c s IH]; intros h H; cbn [str2tag_core]; [exact H|]. apply IH. apply lxor_bound; [|apply bN_small]. apply N.mod_lt. discriminate.
Qed.
Lemma tag_app s t : forall h, str2tag_core (s ++ t) h = str2tag_core t (str2tag_core s h).
Proof. induction s as [|c s IH]; intros h; cbn; auto. Qed.
Lemma tag_inj s : forall a b, a < 4294967296 -> b < 4294967296 -> str2tag_core s a = str2tag_core s b -> a = b.
Proof.
  induction s as [|c s IH]; intros a b Ha Hb E; cbn [str2tag_core] in E; [exact E|]. apply mul33_inj; auto. apply (lxor_cancel_r _ _ (bN c)).
  apply IH; [| |exact E]; apply lxor_bound; try apply bN_small; apply N.mod_lt; discriminate.
Qed.
Theorem tag_one_byte s t c d : c <> d -> str2tag (s ++ c :: t) <> str2tag (s ++ d :: t).
Proof.
  intros Hcd E. unfold str2tag in E. rewrite !tag_app in E. cbn [str2tag_core] in E. apply tag_inj in E.
  - apply lxor_cancel_l in E. apply Hcd. now apply bN_inj.
  - apply lxor_bound; [apply N.mod_lt; discriminate|apply bN_small].
  - apply lxor_bound; [apply N.mod_lt; discriminate|apply bN_small].
Qed.
