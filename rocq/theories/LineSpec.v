(** * Specification of line/column positions. *)
From Verif Require Import Base.

Definition newline : byte := x0a.
Definition is_nl (b : byte) : bool := Byte.eqb b newline.

(** One plus the number of newlines before the position. *)
Definition line_no (s : bytes) (pos : nat) : nat :=
  1 + List.length (filter is_nl (firstn pos s)).

(** [cur] is the text between the last newline before [pos] and [pos]. *)
Definition current_line (s : bytes) (pos : nat) (cur : bytes) : Prop :=
  ~ In newline cur
  /\ (firstn pos s = cur \/ exists before, firstn pos s = before ++ newline :: cur).
