(** * Escapes and character ranges: peglib.h lines 228-444. *)
From Verif Require Import Base Utf8.
Local Open Scope N_scope.

(** peglib.h 228-243, escape_characters. *)
Fixpoint escape_characters (s : bytes) : bytes :=
  match s with
  | [] => []
  | c :: s' =>
    (match c with
     | x0c => bs "\f" | x0a => bs "\n" | x0d => bs "\r"
     | x09 => bs "\t" | x0b => bs "\v"
     | _ => [c]
     end) ++ escape_characters s'
  end.

(** peglib.h 252-264, is_hex; 266-272, is_digit.  The value or [None]. *)
Definition is_hex (c : byte) : option Z :=
  let n := bN c in
  if (48 <=? n) && (n <=? 57) then Some (Z.of_N (n - 48))
  else if (97 <=? n) && (n <=? 102) then Some (Z.of_N (n - 97 + 10))
  else if (65 <=? n) && (n <=? 70) then Some (Z.of_N (n - 65 + 10))
  else None.
Definition is_digit (c : byte) : option Z :=
  let n := bN c in
  if (48 <=? n) && (n <=? 57) then Some (Z.of_N (n - 48)) else None.

(** A C++ [int] operation: outside 32-bit signed range it is undefined. *)
Definition int32 (z : Z) : outcome Z :=
  if ((-2147483648 <=? z) && (z <=? 2147483647))%Z then Ok z else UB IntOverflow.

(** peglib.h 274-283 parse_hex_number and 285-294 parse_octal_number: same
    loop with a different digit test and radix; the index [i] becomes the
    suffix that is left. *)
Fixpoint parse_number (digit : byte -> option Z) (radix : Z) (ret : Z) (s : bytes)
  : outcome (Z * bytes) :=
  match s with
  | [] => Ok (ret, [])
  | c :: s' =>
    match digit c with
    | Some v => let* r := int32 (ret * radix + v)%Z in parse_number digit radix r s'
    | None => Ok (ret, s)
    end
  end.
Definition parse_hex_number (s : bytes) := parse_number is_hex 16%Z 0%Z s.
Definition parse_octal_number (s : bytes) := parse_number is_digit 8%Z 0%Z s.

(** The one-letter cases of the switch, peglib.h 307-354. *)
Definition simple_escape (e : byte) : option byte :=
  match e with
  | x66 => Some x0c   (* f *)
  | x6e => Some x0a   (* n *)
  | x72 => Some x0d   (* r *)
  | x74 => Some x09   (* t *)
  | x76 => Some x0b   (* v *)
  | x27 => Some x27   (* single quote *)
  | x22 => Some x22   (* double quote *)
  | x5b => Some x5b   (* [ *)
  | x5d => Some x5d   (* ] *)
  | x5e => Some x5e   (* ^ *)
  | x2d => Some x2d   (* - *)
  | x5c => Some x5c   (* backslash *)
  | _ => None
  end.

(** peglib.h 296-376, resolve_escape_sequence.  [assert(i < n)] after a
    backslash is the outcome [UB AssertFail]; fuel [length s] suffices because
    every iteration consumes a byte (proved). [int] to [char32_t] conversion of a
    non-negative value is the identity. *)
Fixpoint resolve_loop (fuel : nat) (s : bytes) : outcome bytes :=
  match s with
  | [] => Ok []
  | ch :: s1 =>
    match fuel with
    | O => OutOfFuel
    | S fuel' =>
      if beq ch x5c then
        match s1 with
        | [] => UB AssertFail
        | e :: s2 =>
          match simple_escape e with
          | Some b => let* r := resolve_loop fuel' s2 in Ok (b :: r)
          | None =>
            let* (cp, s3) :=
              (if beq e x78 || beq e x75          (* x, u *)
               then parse_hex_number s2
               else parse_octal_number s1) in
            let* r := resolve_loop fuel' s3 in
            Ok (encode_codepoint (Z.to_N cp) ++ r)
          end
        end
      else let* r := resolve_loop fuel' s1 in Ok (ch :: r)
    end
  end.
Definition resolve_escape_sequence (s : bytes) : outcome bytes :=
  resolve_loop (List.length s) s.

(** Ranges of code points: [std::vector<std::pair<char32_t,char32_t>>]. *)
Definition ranges := list (N * N).

(** peglib.h 381-403, predefined_character_class. *)
Definition predefined_table : list (string * ranges) :=
  [ ("alnum", [(48,57); (65,90); (97,122)]);
    ("alpha", [(65,90); (97,122)]);
    ("ascii", [(0,127)]);
    ("blank", [(9,9); (32,32)]);
    ("cntrl", [(0,31); (127,127)]);
    ("digit", [(48,57)]);
    ("graph", [(33,126)]);
    ("lower", [(97,122)]);
    ("print", [(32,126)]);
    ("punct", [(33,47); (58,64); (91,96); (123,126)]);
    ("space", [(9,13); (32,32)]);
    ("upper", [(65,90)]);
    ("word", [(48,57); (65,90); (95,95); (97,122)]);
    ("xdigit", [(48,57); (65,70); (97,102)]) ]%string.
Definition predefined_character_class (name : string) : option ranges :=
  match find (fun p => String.eqb (fst p) name) predefined_table with
  | Some (_, r) => Some r
  | None => None
  end.

(** peglib.h 405-417, complement_character_ranges.  [lo - 1] and [hi + 1] are
    [char32_t] arithmetic: [hi + 1] wraps modulo 2^32. *)
Fixpoint complement_loop (next : N) (rs : ranges) : ranges :=
  match rs with
  | [] => if next <=? 0x10FFFF then [(next, 0x10FFFF)] else []
  | (lo, hi) :: rs' =>
    let r := complement_loop ((hi + 1) mod 4294967296) rs' in
    if next <? lo then (next, lo - 1) :: r else r
  end.
Definition complement_character_ranges (rs : ranges) : ranges := complement_loop 0 rs.

(** peglib.h 438-443, to_lower: std::tolower in the "C" locale. *)
Definition tolower (b : byte) : byte :=
  let n := bN b in if (65 <=? n) && (n <=? 90) then byteN (n + 32) else b.
Definition to_lower (s : bytes) : bytes := map tolower s.
