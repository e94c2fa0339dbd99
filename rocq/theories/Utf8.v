(** * UTF-8 functions of peglib.h lines 91-218.
    Every function gets the buffer [s] and, separately, the length [l] the C++
    function is told; reads go through [rd], so a read past the real buffer is
    [UB OutOfBounds]. *)
From Verif Require Import Base.
Local Open Scope N_scope.

(** peglib.h 91-105, codepoint_length. *)
Definition codepoint_length (s : bytes) (l : nat) : outcome nat :=
  if (0 <? l)%nat then
    let* b0 := rd s 0 in
    let b := bN b0 in
    if N.land b 0x80 =? 0 then Ok 1%nat
    else if (N.land b 0xE0 =? 0xC0) && (2 <=? l)%nat then Ok 2%nat
    else if (N.land b 0xF0 =? 0xE0) && (3 <=? l)%nat then Ok 3%nat
    else if (N.land b 0xF8 =? 0xF0) && (4 <=? l)%nat then Ok 4%nat
    else Ok 0%nat
  else Ok 0%nat.

(** peglib.h 107-119, codepoint_count.  The loop variable [i] becomes the
    suffix [s] and the remaining length [l]; fuel [l] suffices because every
    iteration advances by at least one. *)
Fixpoint codepoint_count_loop (fuel : nat) (s : bytes) (l : nat) (count : nat)
  : outcome nat :=
  if (0 <? l)%nat then
    match fuel with
    | O => OutOfFuel
    | S fuel' =>
      let* len0 := codepoint_length s l in
      let len := if (len0 =? 0)%nat then 1%nat else len0 in
      codepoint_count_loop fuel' (from s len) (l - len)%nat (count + 1)%nat
    end
  else Ok count.
Definition codepoint_count (s : bytes) (l : nat) : outcome nat :=
  codepoint_count_loop l s l 0%nat.

(** peglib.h 121-156, encode_codepoint (both overloads: the byte list is the
    buffer contents followed by the returned length). *)
Definition encode_codepoint (cp : N) : bytes :=
  if cp <? 0x80 then [byteN (N.land cp 0x7F)]
  else if cp <? 0x800 then
    [byteN (N.lor 0xC0 (N.land (N.shiftr cp 6) 0x1F));
     byteN (N.lor 0x80 (N.land cp 0x3F))]
  else if cp <? 0xD800 then
    [byteN (N.lor 0xE0 (N.land (N.shiftr cp 12) 0xF));
     byteN (N.lor 0x80 (N.land (N.shiftr cp 6) 0x3F));
     byteN (N.lor 0x80 (N.land cp 0x3F))]
  else if cp <? 0xE000 then []
  else if cp <? 0x10000 then
    [byteN (N.lor 0xE0 (N.land (N.shiftr cp 12) 0xF));
     byteN (N.lor 0x80 (N.land (N.shiftr cp 6) 0x3F));
     byteN (N.lor 0x80 (N.land cp 0x3F))]
  else if cp <? 0x110000 then
    [byteN (N.lor 0xF0 (N.land (N.shiftr cp 18) 0x7));
     byteN (N.lor 0x80 (N.land (N.shiftr cp 12) 0x3F));
     byteN (N.lor 0x80 (N.land (N.shiftr cp 6) 0x3F));
     byteN (N.lor 0x80 (N.land cp 0x3F))]
  else [].

(** peglib.h 158-193, decode_codepoint(s8, l, bytes, cp): [Some (bytes, cp)]
    is "return true", [None] is "return false" (outputs untouched). *)
Definition decode_codepoint (s : bytes) (l : nat) : outcome (option (nat * N)) :=
  if (0 <? l)%nat then
    let* c0 := rd s 0 in
    let b := bN c0 in
    if N.land b 0x80 =? 0 then Ok (Some (1%nat, b))
    else if N.land b 0xE0 =? 0xC0 then
      if (2 <=? l)%nat then
        let* c1 := rd s 1 in
        Ok (Some (2%nat, N.lor (N.shiftl (N.land b 0x1F) 6)
                               (N.land (bN c1) 0x3F)))
      else Ok None
    else if N.land b 0xF0 =? 0xE0 then
      if (3 <=? l)%nat then
        let* c1 := rd s 1 in
        let* c2 := rd s 2 in
        Ok (Some (3%nat, N.lor (N.lor (N.shiftl (N.land b 0x0F) 12)
                                      (N.shiftl (N.land (bN c1) 0x3F) 6))
                               (N.land (bN c2) 0x3F)))
      else Ok None
    else if N.land b 0xF8 =? 0xF0 then
      if (4 <=? l)%nat then
        let* c1 := rd s 1 in
        let* c2 := rd s 2 in
        let* c3 := rd s 3 in
        Ok (Some (4%nat,
              N.lor (N.lor (N.lor (N.shiftl (N.land b 0x07) 18)
                                  (N.shiftl (N.land (bN c1) 0x3F) 12))
                           (N.shiftl (N.land (bN c2) 0x3F) 6))
                    (N.land (bN c3) 0x3F)))
      else Ok None
    else Ok None
  else Ok None.

(** peglib.h 195-199, the overload returning the length (0 on failure).  The
    code point is returned next to it; on failure C++ leaves [cp] untouched,
    which is modelled by the caller-supplied [cp0]. *)
Definition decode_codepoint_len (s : bytes) (l : nat) (cp0 : N)
  : outcome (nat * N) :=
  let* r := decode_codepoint s l in
  match r with Some (n, cp) => Ok (n, cp) | None => Ok (0%nat, cp0) end.

(** peglib.h 201-205, the overload returning the code point (0 on failure). *)
Definition decode_codepoint_cp (s : bytes) (l : nat) : outcome N :=
  let* r := decode_codepoint_len s l 0 in Ok (snd r).

(** peglib.h 207-218, decode.  Inner [while]: number of continuation bytes. *)
Fixpoint cont_run (s : bytes) (l : nat) : outcome nat :=
  match l with
  | O => Ok O
  | S l' =>
    match s with
    | [] => UB OutOfBounds
    | c :: s' =>
      if N.land (bN c) 0xC0 =? 0x80
      then let* r := cont_run s' l' in Ok (S r)
      else Ok O
    end
  end.
Fixpoint decode_loop (fuel : nat) (s : bytes) (l : nat) : outcome (list N) :=
  if (0 <? l)%nat then
    match fuel with
    | O => OutOfFuel
    | S fuel' =>
      let* run := cont_run (from s 1) (l - 1) in
      let n := S run in
      let* cp := decode_codepoint_cp s n in
      let* rest := decode_loop fuel' (from s n) (l - n)%nat in
      Ok (cp :: rest)
    end
  else Ok [].
Definition decode (s : bytes) (l : nat) : outcome (list N) := decode_loop l s l.
