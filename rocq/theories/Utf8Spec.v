(** * Independent specification of UTF-8 (RFC 3629), by plain arithmetic. *)
From Verif Require Import Base.
Local Open Scope N_scope.

(** Unicode scalar values: everything up to 0x10FFFF except surrogates. *)
Definition scalar (cp : N) : Prop := cp < 0xD800 \/ (0xE000 <= cp /\ cp <= 0x10FFFF).

(** RFC 3629 section 3, as numbers 0..255. *)
Definition rfc3629 (cp : N) : list N :=
  if cp <=? 0x7F then [cp]
  else if cp <=? 0x7FF then [192 + cp / 64; 128 + cp mod 64]
  else if cp <=? 0xFFFF then [224 + cp / 4096; 128 + (cp / 64) mod 64; 128 + cp mod 64]
  else [240 + cp / 262144; 128 + (cp / 4096) mod 64; 128 + (cp / 64) mod 64; 128 + cp mod 64].

(** A byte string is well-formed UTF-8 when it is the encoding of some
    sequence of scalar values. *)
Definition utf8_of (cps : list N) (s : bytes) : Prop :=
  Forall scalar cps /\ map bN s = List.concat (map rfc3629 cps).
Definition valid_utf8 (s : bytes) : Prop := exists cps, utf8_of cps s.
