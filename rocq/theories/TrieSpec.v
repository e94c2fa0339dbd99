(** * Specification of dictionary matching, independent of the trie. *)
From Verif Require Import Base.

Definition prefix (w text : bytes) : Prop := exists rest, text = w ++ rest.

(** ASCII case folding, by table (ISO C "C" locale). *)
Definition fold_case (b : byte) : byte :=
  match b with
  | x41 => x61 | x42 => x62 | x43 => x63 | x44 => x64 | x45 => x65 | x46 => x66
  | x47 => x67 | x48 => x68 | x49 => x69 | x4a => x6a | x4b => x6b | x4c => x6c
  | x4d => x6d | x4e => x6e | x4f => x6f | x50 => x70 | x51 => x71 | x52 => x72
  | x53 => x73 | x54 => x74 | x55 => x75 | x56 => x76 | x57 => x77 | x58 => x78
  | x59 => x79 | x5a => x7a
  | _ => b
  end.
Definition same_text (ignore_case : bool) (s : bytes) : bytes :=
  if ignore_case then map fold_case s else s.

(** Word [w] matches at the start of [text]. *)
Definition word_matches (ic : bool) (w text : bytes) : Prop :=
  w <> [] /\ prefix (same_text ic w) (same_text ic text).

(** [len] is the length of the longest listed word matching at the start. *)
Definition longest (ic : bool) (words : list bytes) (text : bytes) (len : nat) : Prop :=
  (exists w, In w words /\ word_matches ic w text /\ List.length w = len)
  /\ (forall w, In w words -> word_matches ic w text -> List.length w <= len).
