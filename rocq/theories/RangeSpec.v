(** * Specification of code point range lists. *)
From Verif Require Import Base.
Local Open Scope N_scope.

Definition accepts (rs : list (N * N)) (cp : N) : Prop :=
  exists lo hi, In (lo, hi) rs /\ lo <= cp /\ cp <= hi.

(** Sorted, non-overlapping, within Unicode (the documented precondition). *)
Fixpoint sorted_from (lo0 : N) (rs : list (N * N)) : Prop :=
  match rs with
  | [] => True
  | (lo, hi) :: rs' => lo0 <= lo /\ lo <= hi /\ hi <= 0x10FFFF /\ sorted_from (hi + 1) rs'
  end.
Definition sorted_ranges (rs : list (N * N)) : Prop := sorted_from 0 rs.
