(** * Specification of grammar-literal characters (README "Char" rule), written
    without the model: a literal is a sequence of items, each with its source
    text and the text it denotes. *)
From Verif Require Import Base Utf8Spec.
Local Open Scope N_scope.

Inductive item : Type :=
| Plain (b : byte)          (* any byte but a backslash *)
| Simple (e : byte)         (* backslash and one of the letters in simple_table *)
| Hex (ds : bytes)          (* \xH or \xHH *)
| Uni (ds : bytes)          (* \uHHHH .. \uHHHHHH *)
| Oct (ds : bytes).         (* \O, \OO, \OOO *)

(** Meaning of the letters after a backslash. *)
Definition simple_table : list (byte * N) :=
  [ (x66, 12); (x6e, 10); (x72, 13); (x74, 9); (x76, 11); (x27, 39);
    (x22, 34); (x5b, 91); (x5d, 93); (x5e, 94); (x2d, 45); (x5c, 92) ].

Definition hex_digits : list (byte * N) :=
  [ (x30,0); (x31,1); (x32,2); (x33,3); (x34,4); (x35,5); (x36,6); (x37,7);
    (x38,8); (x39,9); (x61,10); (x62,11); (x63,12); (x64,13); (x65,14); (x66,15);
    (x41,10); (x42,11); (x43,12); (x44,13); (x45,14); (x46,15) ].
Definition oct_digits : list (byte * N) := firstn 8 hex_digits.
Definition dec_digits : list (byte * N) := firstn 10 hex_digits.

Definition assoc (t : list (byte * N)) (b : byte) : option N :=
  match find (fun p => Byte.eqb (fst p) b) t with Some (_, v) => Some v | None => None end.
Definition is_digit_of (t : list (byte * N)) (b : byte) : bool :=
  match assoc t b with Some _ => true | None => false end.

Fixpoint value_from (t : list (byte * N)) (radix acc : N) (ds : bytes) : N :=
  match ds with
  | [] => acc
  | d :: ds' => value_from t radix (acc * radix + match assoc t d with Some v => v | None => 0 end) ds'
  end.
Definition value_of t radix ds := value_from t radix 0 ds.

Definition backslash : byte := x5c.

Definition wf_item (i : item) : bool :=
  match i with
  | Plain b => negb (Byte.eqb b backslash)
  | Simple e => is_digit_of simple_table e
  | Hex ds => forallb (is_digit_of hex_digits) ds
              && (1 <=? List.length ds)%nat && (List.length ds <=? 2)%nat
  | Uni ds => forallb (is_digit_of hex_digits) ds
              && (4 <=? List.length ds)%nat && (List.length ds <=? 6)%nat
  | Oct ds => forallb (is_digit_of oct_digits) ds
              && (1 <=? List.length ds)%nat && (List.length ds <=? 3)%nat
  end.

Definition source (i : item) : bytes :=
  match i with
  | Plain b => [b]
  | Simple e => [backslash; e]
  | Hex ds => backslash :: x78 :: ds
  | Uni ds => backslash :: x75 :: ds
  | Oct ds => backslash :: ds
  end.

(** UTF-8 of a code point; a non-scalar value denotes nothing. *)
Definition utf8_bytes (cp : N) : bytes :=
  if (cp <? 0xD800) || ((0xE000 <=? cp) && (cp <=? 0x10FFFF))
  then map byteN (rfc3629 cp) else [].

Definition denotes (i : item) : bytes :=
  match i with
  | Plain b => [b]
  | Simple e => match assoc simple_table e with Some v => [byteN v] | None => [] end
  | Hex ds | Uni ds => utf8_bytes (value_of hex_digits 16 ds)
  | Oct ds => utf8_bytes (value_of oct_digits 8 ds)
  end.

(** A numeric escape is followed by something that does not look like one more
    digit of it. *)
Definition ends_before (i : item) (rest : bytes) : bool :=
  match rest with
  | [] => true
  | c :: _ =>
    match i with
    | Hex _ | Uni _ => negb (is_digit_of hex_digits c)
    | Oct _ => negb (is_digit_of dec_digits c)
    | _ => true
    end
  end.
Fixpoint separated (l : list item) : bool :=
  match l with
  | [] => true
  | i :: l' => ends_before i (List.concat (map source l')) && separated l'
  end.
