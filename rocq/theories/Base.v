(** * Base: bytes, outcomes, C++-level reads.
    Shared vocabulary of the model.  No code of /repo is modelled here except
    the conventions: [char*] + length is [list byte]; a read outside the
    buffer is the distinct outcome [UB]. *)
From Coq Require Export List Arith NArith ZArith Lia Bool.
From Coq Require Export Strings.Byte Strings.String.
Export ListNotations.
Open Scope list_scope.
Open Scope nat_scope.

Definition bytes := list byte.

(** Byte literals from Coq strings. *)
Definition bs (s : string) : bytes := list_byte_of_string s.

(** Value of a byte as [uint8_t]. *)
Definition bN (b : byte) : N := Byte.to_N b.

(** [static_cast<char>] of an unsigned value: keeps the low eight bits. *)
Definition byteN (n : N) : byte :=
  match Byte.of_N (n mod 256)%N with Some b => b | None => x00 end.

Definition beq (a b : byte) : bool := Byte.eqb a b.

Fixpoint bytes_eqb (a b : bytes) : bool :=
  match a, b with
  | [], [] => true
  | x :: a', y :: b' => beq x y && bytes_eqb a' b'
  | _, _ => false
  end.

(** Ways in which the C++ program leaves the defined, normal course. *)
Inductive fault : Type :=
| OutOfBounds        (* read outside a text buffer *)
| BadIndex           (* index outside a container of the library itself *)
| NullDeref          (* dereference of a null pointer *)
| IntOverflow        (* signed integer overflow *)
| AssertFail         (* an [assert] of the code is violated *)
| BadArg             (* library precondition violated (e.g. std::tolower) *)
| EmptyVector.       (* back()/pop_back() on an empty container *)

(** Outcome of a modelled C++ function. *)
Inductive outcome (A : Type) : Type :=
| Ok (a : A)
| OutOfFuel          (* the model's fuel ran out: the code is still running *)
| UB (f : fault)     (* undefined behaviour *)
| Throw (msg : string).  (* a C++ exception *)
Arguments Ok {A} a.
Arguments OutOfFuel {A}.
Arguments UB {A} f.
Arguments Throw {A} msg.

Definition bind {A B} (m : outcome A) (f : A -> outcome B) : outcome B :=
  match m with
  | Ok a => f a
  | OutOfFuel => OutOfFuel
  | UB e => UB e
  | Throw s => Throw s
  end.

Notation "'let*' x ':=' m 'in' k" := (bind m (fun x => k))
  (at level 200, x pattern, m at level 100, k at level 200, right associativity).

(** [s[i]] in C++: defined only inside the buffer. *)
Definition rd (s : bytes) (i : nat) : outcome byte :=
  match nth_error s i with Some b => Ok b | None => UB OutOfBounds end.

(** [s + i] with the remaining length. *)
Definition from (s : bytes) (i : nat) : bytes := skipn i s.

(** Substring [pos, pos+len). *)
Definition sub (s : bytes) (pos len : nat) : bytes := firstn len (skipn pos s).
