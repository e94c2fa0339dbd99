(** * The reference semantics is monotone in its depth bound. *)
From Verif Require Import Base BaseLemmas Utf8 Escape TrieM LineInfo Ope Ctx ErrLog Engine RefSem.

Definition sub_of {A} (o o' : option A) : Prop := o = None \/ o = o'.
Lemma sub_refl {A} (o : option A) : sub_of o o.
Proof. now right. Qed.
Lemma sub_bind {A B} (m m' : option A) (f f' : A -> option B) :
  sub_of m m' -> (forall a, sub_of (f a) (f' a)) -> sub_of (obind m f) (obind m' f').
Proof. intros [-> | ->] Hf; [now left|]. destruct m'; cbn; try (now right). apply Hf. Qed.
Lemma sub_Some {A} (o o' : option A) a : sub_of o o' -> o = Some a -> o' = Some a.
Proof. intros [-> | ->]; congruence. Qed.

Ltac smono :=
  repeat first
  [ apply sub_refl
  | assumption
  | match goal with H : forall _, _ |- sub_of _ _ => apply H end
  | apply sub_bind; [|let x := fresh in intros x]
  | match goal with
    | |- sub_of (match ?x with _ => _ end) (match ?x with _ => _ end) => destruct x
    | |- sub_of (let (_, _) := ?x in _) _ => destruct x
    end ].

Section RefMono.
  Context {V U : Type}.
  Notation env := (env V U).
  Notation sv := (sv V).
  Implicit Types (E : env) (vs : sv) (m : mode) (sd : seed V).
  Section One.
  Variables rec rec' : @ref_t V U.
  Hypothesis H : forall E sd fr m o pos vs, sub_of (rec E sd fr m o pos vs) (rec' E sd fr m o pos vs).

  Lemma s_then E m pos n vs : sub_of (ref_then rec E m pos n vs) (ref_then rec' E m pos n vs).
  Proof. unfold ref_then, ref_skip. smono. Qed.
  Lemma s_lit E m l ic pos vs : sub_of (ref_lit rec E m l ic pos vs) (ref_lit rec' E m l ic pos vs).
  Proof. unfold ref_lit, ref_is_word, ref_not_word. pose proof s_then. smono. Qed.
  Lemma s_dic E m t pos vs : sub_of (ref_dic rec E m t pos vs) (ref_dic rec' E m t pos vs).
  Proof. unfold ref_dic, ref_not_word. pose proof s_then. smono. Qed.
  Lemma s_seq (run run' : ope -> nat -> sv -> option (rv V)) l :
    (forall o pos vs, sub_of (run o pos vs) (run' o pos vs)) ->
    forall pos i vs, sub_of (ref_seq run l pos i vs) (ref_seq run' l pos i vs).
  Proof. intros Hr. induction l; intros; cbn [ref_seq]; smono. Qed.
  Lemma s_cho (run run' : ope -> nat -> sv -> option (rv V)) total l :
    (forall o pos vs, sub_of (run o pos vs) (run' o pos vs)) ->
    forall id pos vs, sub_of (ref_cho run total l id pos vs) (ref_cho run' total l id pos vs).
  Proof. intros Hr. induction l; intros; cbn [ref_cho]; smono. Qed.
  Lemma s_min (run run' : nat -> sv -> option (rv V)) n :
    (forall pos vs, sub_of (run pos vs) (run' pos vs)) ->
    forall pos i vs, sub_of (ref_min run n pos i vs) (ref_min run' n pos i vs).
  Proof. intros Hr. induction n; intros; cbn [ref_min]; smono. Qed.
  Lemma s_more (run run' : nat -> sv -> option (rv V)) fuel : forall fuel',
    (forall pos vs, sub_of (run pos vs) (run' pos vs)) -> fuel <= fuel' ->
    forall room pos i vs, sub_of (ref_more fuel run room pos i vs) (ref_more fuel' run' room pos i vs).
  Proof.
    induction fuel as [|fuel IH]; intros [|fuel'] Hr Hf room pos i vs; try lia.
    - apply sub_refl.
    - cbn [ref_more]. destruct room as [[|n]|]; [apply sub_refl|now left|now left].
    - cbn [ref_more]. assert (Hf' : fuel <= fuel') by lia.
      destruct room as [[|n]|]; [apply sub_refl| |];
        (apply sub_bind; [apply Hr|]; intros [[? ?]|]; [apply IH; auto|apply sub_refl]).
  Qed.
  Lemma s_rep (run run' : nat -> sv -> option (rv V)) fuel fuel' mn mx pos vs :
    (forall pos vs, sub_of (run pos vs) (run' pos vs)) -> fuel <= fuel' ->
    sub_of (ref_rep fuel run mn mx pos vs) (ref_rep fuel' run' mn mx pos vs).
  Proof.
    intros Hr Hf. unfold ref_rep. apply sub_bind; [now apply s_min|]. intros [[? ?]|]; [|apply sub_refl].
    destruct mx; [|now apply s_more]. destruct (_ <? _); [now apply s_more|apply sub_refl].
  Qed.
  Lemma s_once E sd m r d body pos : sub_of (ref_once rec E sd m r d body pos) (ref_once rec' E sd m r d body pos).
  Proof. unfold ref_once. pose proof s_then. smono. Qed.
  Lemma s_grow fuel : forall fuel' (once once' : rr V -> option (rr V)) len val,
    (forall s, sub_of (once s) (once' s)) -> fuel <= fuel' ->
    sub_of (ref_grow fuel once len val) (ref_grow fuel' once' len val).
  Proof.
    induction fuel as [|fuel IH]; intros [|fuel'] once once' len val Ho Hf; try lia; try (now left).
    cbn [ref_grow]. apply sub_bind; [apply Ho|]. intros [[n v]|]; [|apply sub_refl].
    destruct (_ <=? _); [apply sub_refl|]. apply IH; [assumption|lia].
  Qed.
  Lemma s_rule fuel fuel' E m r d body pos : fuel <= fuel' ->
    sub_of (ref_rule fuel rec E m r d body pos) (ref_rule fuel' rec' E m r d body pos).
  Proof.
    intros Hf. unfold ref_rule. pose proof s_once. destruct (r_lr d); [|auto].
    apply sub_bind; [auto|]. intros [[n v]|]; [|apply sub_refl]. apply s_grow; auto.
  Qed.
  Lemma s_call fuel fuel' E m r pos : fuel <= fuel' ->
    sub_of (ref_call fuel rec E m r pos) (ref_call fuel' rec' E m r pos).
  Proof.
    intros Hf. unfold ref_call. apply sub_bind; [apply sub_refl|]. intros [d body]. now apply s_rule.
  Qed.
  Lemma s_token E m b pos : sub_of (ref_token rec E m b pos) (ref_token rec' E m b pos).
  Proof. unfold ref_token, ref_scope. pose proof s_then. smono. Qed.
  Lemma s_climb E (run run' : ope -> nat -> sv -> option (rv V)) (tok tok' : nat -> option bytes) a b i rl fuel : forall fuel',
    (forall o pos vs, sub_of (run o pos vs) (run' o pos vs)) -> (forall pos, sub_of (tok pos) (tok' pos)) -> fuel <= fuel' ->
    forall mn pos n vs, sub_of (ref_climb fuel E run tok a b i rl mn pos n vs) (ref_climb fuel' E run' tok' a b i rl mn pos n vs).
  Proof.
    induction fuel as [|fuel IH]; intros [|fuel'] Hr Ht Hf mn pos n vs; try lia.
    - apply sub_refl.
    - cbn [ref_climb]. destruct (_ <? _); [now left|apply sub_refl].
    - cbn [ref_climb]. assert (Hf' : fuel <= fuel') by lia. specialize (IH fuel' Hr Ht Hf'). smono.
  Qed.
  Lemma s_pre E (run run' : ope -> nat -> sv -> option (rv V)) (tok tok' : nat -> option bytes) a b i rl fuel fuel' pos vs :
    (forall o pos vs, sub_of (run o pos vs) (run' o pos vs)) -> (forall pos, sub_of (tok pos) (tok' pos)) -> fuel <= fuel' ->
    sub_of (ref_pre fuel E run tok a b i rl pos vs) (ref_pre fuel' E run' tok' a b i rl pos vs).
  Proof. intros Hr Ht Hf. unfold ref_pre. pose proof (s_climb E run run' tok tok' a b i rl fuel fuel' Hr Ht Hf). smono. Qed.
  Lemma s_core fuel fuel' E sd fr m o pos vs : fuel <= fuel' ->
    sub_of (ref_core fuel rec E sd fr m o pos vs) (ref_core fuel' rec' E sd fr m o pos vs).
  Proof.
    intros Hf. destruct o; cbn [ref_core]; try apply sub_refl; try apply H;
      auto using s_seq, s_cho, s_rep, s_dic, s_lit, s_pre, s_token.
    - smono.
    - smono.
    - pose proof s_then. smono.
    - smono.
    - unfold ref_hld. apply sub_bind; [apply sub_refl|]. intros [d body].
      destruct (r_is_macro d); [smono|]. apply sub_bind; [|intros; apply sub_refl].
      destruct sd as [[[r0 p0] s]|]; [destruct (_ && _); [apply sub_refl|]|]; now apply s_rule.
    - unfold ref_reference. smono.
    - smono.
  Qed.
  End One.

  Theorem ref_sub : forall k k' E sd fr m o pos vs, k <= k' ->
    sub_of (ref k E sd fr m o pos vs) (ref k' E sd fr m o pos vs).
  Proof.
    induction k as [|k IH]; intros [|k'] E sd fr m o pos vs Hk; try lia; try (now left).
    cbn [ref]. assert (k <= k') by lia. apply s_core; auto.
  Qed.
  Theorem ref_mono k k' E sd fr m o pos vs x : k <= k' ->
    ref k E sd fr m o pos vs = Some x -> ref k' E sd fr m o pos vs = Some x.
  Proof. intros Hk. apply sub_Some. now apply ref_sub. Qed.
  Theorem call_mono k k' E m r pos (x : rr V) : k <= k' ->
    call k E m r pos = Some x -> call k' E m r pos = Some x.
  Proof.
    destruct k as [|k], k' as [|k']; intros Hk; try lia; try discriminate. cbn [call].
    apply sub_Some. assert (k <= k') by lia. apply s_call; auto. intros. now apply ref_sub.
  Qed.
  Theorem call_det k k' E m r pos (x y : rr V) :
    call k E m r pos = Some x -> call k' E m r pos = Some y -> x = y.
  Proof.
    intros Hx Hy. apply (call_mono k (k + k')) in Hx; [|lia]. apply (call_mono k' (k + k')) in Hy; [|lia]. congruence.
  Qed.
  Theorem ref_det k k' E sd fr m o pos vs x y :
    ref k E sd fr m o pos vs = Some x -> ref k' E sd fr m o pos vs = Some y -> x = y.
  Proof.
    intros Hx Hy. apply (ref_mono k (k + k')) in Hx; [|lia]. apply (ref_mono k' (k + k')) in Hy; [|lia]. congruence.
  Qed.
  (** The least depth that settles a call. *)
  Theorem call_least k E m r pos (x : rr V) : call k E m r pos = Some x ->
    exists j, S j <= k /\ call (S j) E m r pos = Some x /\ call j E m r pos = None.
  Proof.
    induction k as [|k IH]; [discriminate|]. intros Hx.
    destruct (call k E m r pos) as [y|] eqn:Hy.
    - assert (Hyx : y = x) by (eapply call_det; eauto). subst y.
      destruct (IH eq_refl) as (j & A & B & C). exists j. auto.
    - exists k. auto.
  Qed.
End RefMono.
