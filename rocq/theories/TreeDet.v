(** * A text has at most one parse tree. *)
From Verif Require Import Base BaseLemmas Utf8 TrieM TrieSpec LineInfo Ope Ctx Engine EngineLemmas RefSem LrSpec TreeSpec.

Scheme der_m := Minimality for der Sort Prop
  with der_seq_m := Minimality for der_seq Sort Prop
  with der_cho_m := Minimality for der_cho Sort Prop
  with der_times_m := Minimality for der_times Sort Prop
  with der_upto_m := Minimality for der_upto Sort Prop
  with skip_m := Minimality for skip Sort Prop
  with der_rule_m := Minimality for der_rule Sort Prop
  with grow_m := Minimality for grow Sort Prop.
Combined Scheme der_all from der_m, der_seq_m, der_cho_m, der_times_m, der_upto_m, skip_m, der_rule_m, grow_m.

Section Det.
  Variables (g : grammar) (ws : option ope) (input : bytes) (lit_end : bytes -> nat -> bool -> Prop) (dic_end : nat -> bool -> Prop).
  Hypothesis Hlit : forall s pos a b, lit_end s pos a -> lit_end s pos b -> a = b.
  Hypothesis Hdic : forall pos a b, dic_end pos a -> dic_end pos b -> a = b.
  Notation der := (der g ws input lit_end dic_end).
  Notation der_seq := (der_seq g ws input lit_end dic_end).
  Notation der_cho := (der_cho g ws input lit_end dic_end).
  Notation der_times := (der_times g ws input lit_end dic_end).
  Notation der_upto := (der_upto g ws input lit_end dic_end).
  Notation skip := (skip g ws input lit_end dic_end).
  Notation der_rule := (der_rule g ws input lit_end dic_end).
  Notation grow := (grow g ws input lit_end dic_end).

  Ltac step :=
    match goal with
    | H : Some _ = Some _ |- _ => injection H as H
    | H : forall y, der ?fr ?m ?o ?pos y -> _ = _, K : der ?fr ?m ?o ?pos _ |- _ => apply H in K
    | H : forall y, der_seq ?fr ?m ?o ?pos y -> _ = _, K : der_seq ?fr ?m ?o ?pos _ |- _ => apply H in K
    | H : forall y, der_cho ?fr ?m ?a ?b ?o ?pos y -> _ = _, K : der_cho ?fr ?m ?a ?b ?o ?pos _ |- _ => apply H in K
    | H : forall y, der_times ?fr ?m ?o ?n ?pos y -> _ = _, K : der_times ?fr ?m ?o ?n ?pos _ |- _ => apply H in K
    | H : forall y, der_upto ?fr ?m ?o ?n ?pos y -> _ = _, K : der_upto ?fr ?m ?o ?n ?pos _ |- _ => apply H in K
    | H : forall y, skip ?m ?pos y -> _ = _, K : skip ?m ?pos _ |- _ => apply H in K
    | H : forall y, der_rule ?m ?r ?pos y -> _ = _, K : der_rule ?m ?r ?pos _ |- _ => apply H in K
    | H : forall y, grow ?m ?r ?d ?l ?a ?pos ?t y -> _ = _, K : grow ?m ?r ?d ?l ?a ?pos ?t _ |- _ => apply H in K
    | H : decoded _ _ _ _, K : decoded _ _ _ _ |- _ => unfold decoded in H, K
    | H : lit_end ?s ?p ?a, K : lit_end ?s ?p ?b |- _ => first [constr_eq a b; fail 1 | pose proof (Hlit _ _ _ _ H K); clear K]
    | H : dic_end ?p ?a, K : dic_end ?p ?b |- _ => first [constr_eq a b; fail 1 | pose proof (Hdic _ _ _ H K); clear K]
    | H : ?x = ?a, K : ?x = ?b |- _ => first [constr_eq a b; clear K | rewrite H in K; injection K; clear K; intros; subst | rewrite H in K; discriminate K]
    end.
  Ltac fin := first [reflexivity | discriminate | contradiction | congruence | lia | tauto].

  Theorem der_det :
    (forall fr m o pos x, der fr m o pos x -> forall y, der fr m o pos y -> y = x)
    /\ (forall fr m l pos x, der_seq fr m l pos x -> forall y, der_seq fr m l pos y -> y = x)
    /\ (forall fr m t i l pos x, der_cho fr m t i l pos x -> forall y, der_cho fr m t i l pos y -> y = x)
    /\ (forall fr m e n pos x, der_times fr m e n pos x -> forall y, der_times fr m e n pos y -> y = x)
    /\ (forall fr m e n pos x, der_upto fr m e n pos x -> forall y, der_upto fr m e n pos y -> y = x)
    /\ (forall m pos x, skip m pos x -> forall y, skip m pos y -> y = x)
    /\ (forall m r pos x, der_rule m r pos x -> forall y, der_rule m r pos y -> y = x)
    /\ (forall m r d l a pos t x, grow m r d l a pos t x -> forall y, grow m r d l a pos t y -> y = x).
  Proof.
    apply der_all; intros.
    all: match goal with K : _ |- _ = _ => inversion K; subst; clear K end.
    all: try (cbn in *; fin).
    all: repeat (step; subst).
    all: try fin.
    all: try (match goal with H : trie_match _ _ = _ |- _ => rewrite H in * end; cbn in *; lia).
    all: try (match goal with H : r_no_whitespace _ = _ |- _ => rewrite H in * end; repeat (step; subst); fin).
    - match goal with D : _ \/ _ |- _ => destruct D; congruence end.
    - match goal with D : _ \/ _ |- _ => destruct D; congruence end.
    - auto.
  Qed.
End Det.

Lemma word_at_det g w input pos x y : word_at g w input pos x -> word_at g w input pos y -> y = x.
Proof. intros H K. eapply (proj1 (der_det g None input _ _ _ _)); eauto. Unshelve. all: cbn; congruence. Qed.
Lemma dic_ends_det g word input pos a b : dic_ends g word input pos a -> dic_ends g word input pos b -> a = b.
Proof.
  unfold dic_ends. destruct word as [w|]; [|congruence]. intros (x & A & ->) (y & B & ->). now rewrite (word_at_det _ _ _ _ _ _ A B).
Qed.
Lemma lit_ends_det g word input s pos a b : lit_ends g word input s pos a -> lit_ends g word input s pos b -> a = b.
Proof.
  unfold lit_ends. destruct word as [w|] eqn:Hw; [|congruence]. intros (x & A & A') (y & B & B'). rewrite (word_at_det _ _ _ _ _ _ A B) in B'.
  destruct x; [|congruence]. eapply dic_ends_det; eauto.
Qed.
Theorem whole_det g ws word start input x y : whole g ws word start input x -> whole g ws word start input y -> y = x.
Proof.
  intros H K.
  pose proof (der_det g ws input _ _ (lit_ends_det g word input) (dic_ends_det g word input)) as (_ & _ & _ & _ & _ & Hs & Hr & _).
  inversion H; subst; clear H; inversion K; subst; clear K;
    repeat match goal with
    | A : skip _ _ _ _ _ _ _ ?a, B : skip _ _ _ _ _ _ _ ?b |- _ => pose proof (Hs _ _ _ A _ B); clear B; try discriminate
    | A : Some _ = Some _ |- _ => injection A as A; subst
    | A : der_rule _ _ _ _ _ _ _ _ ?a, B : der_rule _ _ _ _ _ _ _ _ ?b |- _ => pose proof (Hr _ _ _ _ A _ B); clear B; try discriminate
    end; try reflexivity; congruence.
Qed.
