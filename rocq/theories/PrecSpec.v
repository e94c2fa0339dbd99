(** * Operator expressions (vocabulary of C22): trees over operands and operators,
    and what it means for a tree to be grouped as a precedence table says. *)
From Verif Require Import Base BaseLemmas.

Section Trees.
  Context {L O : Type}.
  Inductive tree := Leaf (x : L) | Node (l : tree) (o : O) (r : tree).

  (** The operands and operators from left to right. *)
  Fixpoint yield (t : tree) : list (L + O) :=
    match t with
    | Leaf x => [inl x]
    | Node l o r => yield l ++ inr o :: yield r
    end.
  Definition has_op (t : tree) (o : O) : Prop := In (inr o) (yield t).

  (** [prec o]: level of an operator (higher binds tighter) and whether it is
      left-associative. *)
  Variable prec : O -> nat * bool.
  Definition level (o : O) : nat := fst (prec o).
  Definition left_assoc (o : O) : Prop := snd (prec o) = true.
  (** Below an operator there are only operators that bind tighter, except that a
      left-associative operator may have operators of its level on its left and a
      right-associative one on its right. *)
  Fixpoint grouped (t : tree) : Prop :=
    match t with
    | Leaf _ => True
    | Node l o r =>
      grouped l /\ grouped r
      /\ (forall o', has_op l o' -> level o < level o' \/ (level o = level o' /\ left_assoc o'))
      /\ (forall o', has_op r o' -> level o < level o' \/ (level o = level o' /\ ~ left_assoc o))
    end.

  (** The table leaves no choice: operands and operators in a given order can be
      grouped in one way only. *)
  Lemma split_mid {A} (l1 l2 : list A) : forall a b r1 r2, l1 ++ a :: r1 = l2 ++ b :: r2 ->
    (l1 = l2 /\ a = b /\ r1 = r2) \/ (In a l2 /\ In b r1) \/ (In b l1 /\ In a r2).
  Proof.
    revert l2. induction l1 as [|x l1 IH]; intros [|y l2] a b r1 r2 H; cbn in H; injection H as Hx Hr.
    - auto.
    - subst y. right. left. split; [now left|]. rewrite Hr. apply in_or_app. right. now left.
    - subst x. right. right. split; [now left|]. rewrite <- Hr. apply in_or_app. right. now left.
    - subst y. destruct (IH l2 a b r1 r2 Hr) as [(-> & -> & ->)|[[A1 A2]|[A1 A2]]]; [auto|right; left|right; right]; split; auto; now right.
  Qed.
  Theorem grouped_unique t1 : forall t2, grouped t1 -> grouped t2 -> yield t1 = yield t2 -> t1 = t2.
  Proof.
    assert (Hne : forall t, yield t <> []) by (intros [x|l o r]; cbn; [discriminate|destruct (yield l); discriminate]).
    assert (Hone : forall (x : L) l o r, [inl x] <> yield l ++ inr o :: yield r).
    { intros x l o r H. destruct (yield l) as [|y yl] eqn:E; [now apply (Hne l)|]. cbn in H. injection H as _ H. destruct yl; discriminate. }
    induction t1 as [x|l1 IH1 o1 r1 IH2]; intros [y|l2 o2 r2] G1 G2 Hy; cbn [yield] in Hy.
    - congruence.
    - now apply Hone in Hy.
    - symmetry in Hy. now apply Hone in Hy.
    - destruct G1 as (A1 & A2 & A3 & A4), G2 as (B1 & B2 & B3 & B4).
      destruct (split_mid _ _ _ _ _ _ Hy) as [(H1 & H2 & H3)|[[H1 H2]|[H1 H2]]].
      + f_equal; [now apply IH1|congruence|now apply IH2].
      + exfalso. specialize (B3 _ H1). specialize (A4 _ H2). destruct B3 as [B3|[B3 B5]], A4 as [A4|[A4 A5]]; try lia; auto.
      + exfalso. specialize (A3 _ H1). specialize (B4 _ H2). destruct A3 as [A3|[A3 A5]], B4 as [B4|[B4 B5]]; try lia; auto.
  Qed.
End Trees.
Arguments tree : clear implicits.

(** Operands and operators found in a text. *)
Record operand_at (V : Type) := { oa_pos : nat; oa_len : nat; oa_val : option V }.
Record operator_at (V : Type) := { op_pos : nat; op_len : nat; op_tok : bytes; op_val : option V }.
Arguments oa_pos {V}. Arguments oa_len {V}. Arguments oa_val {V}.
Arguments op_pos {V}. Arguments op_len {V}. Arguments op_tok {V}. Arguments op_val {V}.
Section Placed.
  Context {V : Type}.
  Notation etree := (tree (operand_at V) (operator_at V)).
  (** Which operands and operators match where. *)
  Variable operand : operand_at V -> Prop.
  Variable operator : operator_at V -> Prop.
  Fixpoint start (t : etree) : nat := match t with Leaf x => oa_pos x | Node l _ _ => start l end.
  Fixpoint stop (t : etree) : nat := match t with Leaf x => oa_pos x + oa_len x | Node _ _ r => stop r end.
  (** The operands and operators of the tree are matched one right after the other. *)
  Fixpoint placed (t : etree) : Prop :=
    match t with
    | Leaf x => operand x
    | Node l o r => placed l /\ stop l = op_pos o /\ operator o /\ op_pos o + op_len o = start r /\ placed r
    end.
  (** Its value: the action of the rule is applied at every node to the three values
      below it ([act start length left op right v]). *)
  Variable act : nat -> nat -> option V -> option V -> option V -> option V -> Prop.
  Inductive evaluates : etree -> option V -> Prop :=
  | ev_leaf x : evaluates (Leaf x) (oa_val x)
  | ev_node l o r a b v : evaluates l a -> evaluates r b ->
      act (start l) (stop r - start l) a (op_val o) b v -> evaluates (Node l o r) v.
End Placed.

(** The table written in the grammar: one line per level, loosest first;
    [true] for a line beginning with L. *)
Definition table_lines := list (bool * list bytes).
(** The operator is on line [n] (from 1) and on no later line. *)
Definition on_line (ls : table_lines) (tok : bytes) (n : nat) (la : bool) : Prop :=
  exists toks, nth_error ls (n - 1) = Some (la, toks) /\ 1 <= n /\ In tok toks
    /\ forall m la' toks', n < m -> nth_error ls (m - 1) = Some (la', toks') -> ~ In tok toks'.
