(** * What an error report may contain (vocabulary of C30). *)
From Verif Require Import Base Utf8Spec LineSpec.
Local Open Scope N_scope.

(** White space and punctuation of ASCII: bytes that end a token. *)
Definition space_byte (b : byte) : Prop := bN b = 32 \/ 9 <= bN b <= 13.
Definition letter_or_digit (n : N) : Prop := 48 <= n <= 57 \/ 65 <= n <= 90 \/ 97 <= n <= 122.
Definition punct_byte (b : byte) : Prop := 33 <= bN b <= 126 /\ ~ letter_or_digit (bN b).
Definition token_byte (b : byte) : Prop := ~ space_byte b /\ ~ punct_byte b.

Local Open Scope nat_scope.
(** [raw] is (the beginning of) the token at [pos]: one byte that is white space or
    punctuation, or bytes that are neither; at most 32 characters, of at most 4 bytes. *)
Definition token_bytes (t : bytes) (pos : nat) (raw : bytes) : Prop :=
  (exists rest, skipn pos t = raw ++ rest)
  /\ ((exists b, raw = [b] /\ ~ token_byte b) \/ Forall token_byte raw)
  /\ List.length raw <= 128.
(** The whole token at [pos]. *)
Definition token_run_at (t : bytes) (pos : nat) (run : bytes) : Prop :=
  exists rest, skipn pos t = run ++ rest
  /\ ((exists b, run = [b] /\ ~ token_byte b)
      \/ run <> [] /\ Forall token_byte run /\ forall b r, rest = b :: r -> ~ token_byte b).
(** [raw] is the first 32 characters of [run], or all of it if it has no more. *)
Definition first_32 (run raw : bytes) : Prop :=
  exists cps1 cps2, utf8_of (cps1 ++ cps2) run /\ utf8_of cps1 raw
    /\ (List.length cps1 = 32 \/ List.length cps1 < 32 /\ cps2 = []).

(** [dst] is [src] with every occurrence of [pat], found from left to right, replaced. *)
Inductive replaced (pat repl : bytes) : bytes -> bytes -> Prop :=
| rp_end : replaced pat repl [] []
| rp_hit s d : replaced pat repl s d -> replaced pat repl (pat ++ s) (repl ++ d)
| rp_miss c s d : (forall r, c :: s <> pat ++ r) -> replaced pat repl s d -> replaced pat repl (c :: s) (c :: d).

(** [dst] is the message [src] with every %t replaced by [tok] and every %c by [ch]. *)
Inductive filled_in (tok ch : bytes) : bytes -> bytes -> Prop :=
| fi_end : filled_in tok ch [] []
| fi_tok s d : filled_in tok ch s d -> filled_in tok ch (x25 :: x74 :: s) (tok ++ d)
| fi_chr s d : filled_in tok ch s d -> filled_in tok ch (x25 :: x63 :: s) (ch ++ d)
| fi_miss c s d : (forall r, c :: s <> x25 :: x74 :: r /\ c :: s <> x25 :: x63 :: r) -> filled_in tok ch s d ->
    filled_in tok ch (c :: s) (c :: d).
