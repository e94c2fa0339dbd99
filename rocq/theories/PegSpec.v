(** * Textbook parsing expression grammars (Ford, POPL 2004), on byte strings
    holding UTF-8 text.  Nothing here refers to the code. *)
From Verif Require Import Base Utf8Spec TrieSpec.

Section Peg.
  Context {NT : Type}.                     (* nonterminals *)

  Inductive pexp :=
  | PEps                                   (* the empty expression *)
  | PLit (ignore_case : bool) (w : bytes)  (* a literal *)
  | PChr (ok : N -> bool)                  (* one code point satisfying [ok] *)
  | PNT (n : NT)
  | PSeq (a b : pexp)
  | PAlt (a b : pexp)                      (* prioritized choice *)
  | PStar (a : pexp)                       (* greedy repetition *)
  | PNot (a : pexp).                       (* not-predicate *)

  Variable G : NT -> pexp.

  (** [peg e s (Some t)]: [e] matches a prefix of [s] and leaves [t];
      [peg e s None]: [e] fails on [s].  A character expression has no result on
      text that does not start with a well-formed code point. *)
  Inductive peg : pexp -> bytes -> option bytes -> Prop :=
  | peg_eps s : peg PEps s (Some s)
  | peg_lit ic w x s : same_text ic x = same_text ic w -> peg (PLit ic w) (x ++ s) (Some s)
  | peg_lit_no ic w s : (forall x t, s = x ++ t -> same_text ic x <> same_text ic w) -> peg (PLit ic w) s None
  | peg_chr ok cp x s : scalar cp -> map bN x = rfc3629 cp -> ok cp = true -> peg (PChr ok) (x ++ s) (Some s)
  | peg_chr_no ok cp x s : scalar cp -> map bN x = rfc3629 cp -> ok cp = false -> peg (PChr ok) (x ++ s) None
  | peg_chr_end ok : peg (PChr ok) [] None
  | peg_nt n s r : peg (G n) s r -> peg (PNT n) s r
  | peg_seq a b s t r : peg a s (Some t) -> peg b t r -> peg (PSeq a b) s r
  | peg_seq_no a b s : peg a s None -> peg (PSeq a b) s None
  | peg_alt1 a b s t : peg a s (Some t) -> peg (PAlt a b) s (Some t)
  | peg_alt2 a b s r : peg a s None -> peg b s r -> peg (PAlt a b) s r
  | peg_star_end a s : peg a s None -> peg (PStar a) s (Some s)
  | peg_star a s t r : peg a s (Some t) -> peg (PStar a) t r -> peg (PStar a) s r
  | peg_not a s t : peg a s (Some t) -> peg (PNot a) s None
  | peg_not_no a s : peg a s None -> peg (PNot a) s (Some s).

  (** Derived forms. *)
  Definition PFail : pexp := PNot PEps.
  Definition PAnd (a : pexp) : pexp := PNot (PNot a).
  Definition PSeqs (l : list pexp) : pexp := fold_right PSeq PEps l.
  Definition PAlts (l : list pexp) : pexp := fold_right PAlt PFail l.
  Fixpoint PTimes (n : nat) (a : pexp) : pexp :=
    match n with O => PEps | S n' => PSeq a (PTimes n' a) end.
  Fixpoint PUpTo (n : nat) (a : pexp) : pexp :=
    match n with O => PEps | S n' => PAlt (PSeq a (PUpTo n' a)) PEps end.
  (** Between [mn] and [mx] times, as many as possible. *)
  Definition PRepeat (mn : nat) (mx : option nat) (a : pexp) : pexp :=
    match mx with
    | None => PSeq (PTimes mn a) (PStar a)
    | Some x => if mn <? x then PSeq (PTimes mn a) (PUpTo (x - mn) a) else PTimes mn a
    end.

  (** ** Well-founded grammars *)

  (** [e] can succeed without consuming. *)
  Definition can_be_empty (e : pexp) : Prop := exists s, peg e s (Some s).
  (** [e] can call nonterminal [n] before consuming anything. *)
  Fixpoint left_call (e : pexp) (n : NT) : Prop :=
    match e with
    | PEps | PLit _ _ | PChr _ => False
    | PNT n' => n' = n
    | PSeq a b => left_call a n \/ (can_be_empty a /\ left_call b n)
    | PAlt a b => left_call a n \/ left_call b n
    | PStar a | PNot a => left_call a n
    end.
  (** Repetition bodies consume; literals are well-formed text; nonterminals
      satisfy [R]. *)
  Fixpoint well_formed_exp (R : NT -> Prop) (e : pexp) : Prop :=
    match e with
    | PEps | PChr _ => True
    | PLit _ w => valid_utf8 w
    | PNT n => R n
    | PSeq a b | PAlt a b => well_formed_exp R a /\ well_formed_exp R b
    | PStar a => ~ can_be_empty a /\ well_formed_exp R a
    | PNot a => well_formed_exp R a
    end.
  (** The nonterminals [R]: closed, no repetition of something that can be empty,
      no nonterminal can reach itself without consuming (the left-call relation is
      well-founded). *)
  Definition well_formed (R : NT -> Prop) : Prop :=
    forall n, R n -> well_formed_exp R (G n) /\ Acc (fun n' n => left_call (G n) n') n.
End Peg.
Arguments pexp : clear implicits.
