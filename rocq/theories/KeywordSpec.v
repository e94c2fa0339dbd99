(** * Keyword-guarded identifiers  !Keyword < [head] [tail]* >  (vocabulary of C26). *)
From Verif Require Import Base Utf8 Escape TrieM LineInfo Ope Ctx ErrLog Engine Top RefSem EngineSpec FirstSetM FirstSpec.

(** A byte of a class of ASCII ranges. *)
Definition class_byte (rs : ranges) (ic : bool) (b : byte) : Prop :=
  exists lo hi b0, In (lo, hi) rs /\ (lo <= bN b0 <= hi)%N /\ same_char ic b0 b.
(** The [n] bytes at [pos] are an identifier, as long as possible. *)
Definition identifier_at (rs1 : ranges) (ic1 : bool) (rs2 : ranges) (ic2 : bool) (t : bytes) (pos n : nat) : Prop :=
  1 <= n
  /\ (exists b, nth_error t pos = Some b /\ class_byte rs1 ic1 b)
  /\ (forall i, 1 <= i < n -> exists b, nth_error t (pos + i) = Some b /\ class_byte rs2 ic2 b)
  /\ (forall b, nth_error t (pos + n) = Some b -> ~ class_byte rs2 ic2 b).
(** [w] is a keyword of the list, or the first word of a compound keyword. *)
Definition keyword (alts : list ope) (w : bytes) : Prop :=
  In (Lit w true) alts \/ exists kg l, In (Seq kg (Lit w true :: l)) alts.

(** An expression that never fails. *)
Definition never_fails {V U} (E : env V U) (w : ope) : Prop :=
  forall k m pos vs, ref k E None no_frame m w pos vs <> Some None.

(** Conditions on the keyword-guarded identifiers of a grammar:
    - the keyword rule is an ordinary rule without predicate;
    - the identifier is  < [head] [tail]* >;
    - no keyword is a proper prefix of an identifier of the text (%word can ensure that);
    - classes are regular, as in FirstSpec.v. *)
Definition regular_guards (g : grammar) (has_pred : rid -> bool) (odd : bool) (text : bytes) : Prop :=
  forall r0 d0 b0 kg nm r ia m args kg2 rs1 n1 ic1 rs2 n2 ic2 mn mx sp d fl fs alts,
  rule_body g r0 d0 b0 ->
  sub_ope (Seq kg [Not (Ref nm (Some r) ia m args); Tok (Seq kg2 [Cls rs1 n1 ic1; Rep (Cls rs2 n2 ic2) mn mx sp])]) b0 ->
  rule_body g r d (Cho fl fs alts) ->
  kw_guard_of g [Not (Ref nm (Some r) ia m args); Tok (Seq kg2 [Cls rs1 n1 ic1; Rep (Cls rs2 n2 ic2) mn mx sp])] <> None ->
  r_is_macro d = false /\ r_lr d = false /\ has_pred r = false
  /\ mn = 0 /\ mx = None
  /\ (ic1 = true -> class_exact rs1) /\ (ic2 = true -> class_exact rs2)
  /\ (odd = true -> forall lo hi, In (lo, hi) rs1 \/ In (lo, hi) rs2 -> lo <> 0%N)
  /\ forall pos n w, identifier_at rs1 ic1 rs2 ic2 text pos n -> keyword alts w -> text_at text pos w true -> List.length w = n.
