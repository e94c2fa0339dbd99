(** * Properties C01-C03: UTF-8.  Only statements, closed by lemmas. *)
From Verif Require Import Base BaseLemmas Utf8 Utf8Spec Utf8Proofs.
Local Open Scope N_scope.

(** C01: the encoding is RFC 3629's; decoding it, whatever follows, returns the
    code point and exactly the bytes produced; non-scalars encode to nothing. *)
Theorem C01_encode_decode_roundtrip : forall cp rest l, scalar cp ->
  (List.length (encode_codepoint cp) <= l)%nat ->
  decode_codepoint (encode_codepoint cp ++ rest) l
    = Ok (Some (List.length (encode_codepoint cp), cp))
  /\ codepoint_length (encode_codepoint cp ++ rest) l
     = Ok (List.length (encode_codepoint cp)).
Proof. exact encode_decode. Qed.
Print Assumptions C01_encode_decode_roundtrip.

Theorem C01_encode_is_rfc3629 : forall cp, scalar cp ->
  map bN (encode_codepoint cp) = rfc3629 cp.
Proof. exact encode_rfc. Qed.
Print Assumptions C01_encode_is_rfc3629.

Theorem C01_encode_nonscalar_empty : forall cp, ~ scalar cp -> encode_codepoint cp = [].
Proof. exact encode_invalid. Qed.
Print Assumptions C01_encode_nonscalar_empty.

Theorem C01_encode_injective : forall a b, scalar a -> scalar b ->
  encode_codepoint a = encode_codepoint b -> a = b.
Proof. exact encode_inj. Qed.
Print Assumptions C01_encode_injective.

Example C01_meets : scalar 0x1F600 /\ encode_codepoint 0x1F600 = [xf0; x9f; x98; x80]
  /\ ~ scalar 0xD800.
Proof. unfold scalar. split; [right; lia|]. split; [reflexivity|]. lia. Qed.

(** C02: decoding within the buffer is defined, depends only on the first [l]
    bytes, and reports 1..4 bytes, never more than [l]. *)
Theorem C02_decode_in_bounds : forall s l, (l <= List.length s)%nat ->
  exists r, decode_codepoint s l = Ok r
    /\ decode_codepoint (firstn l s) l = Ok r
    /\ codepoint_length s l = Ok (match r with Some (n, _) => n | None => 0%nat end)
    /\ (forall n cp, r = Some (n, cp) -> (1 <= n <= 4 /\ n <= l)%nat /\ cp < 2097152).
Proof. exact decode_safe. Qed.
Print Assumptions C02_decode_in_bounds.

Example C02_meets_truncated : decode_codepoint [xe3; x81] 2 = Ok None
  /\ codepoint_length [xe3; x81] 2 = Ok 0%nat
  /\ decode_codepoint [xe3; x81; x82] 3 = Ok (Some (3%nat, 0x3042)).
Proof. repeat split. Qed.

(** C03. *)
Theorem C03_count_of_encoded_text : forall cps s, utf8_of cps s ->
  codepoint_count s (List.length s) = Ok (List.length cps)
  /\ decode s (List.length s) = Ok cps.
Proof. exact count_encoded. Qed.
Print Assumptions C03_count_of_encoded_text.

(** On arbitrary bytes counting terminates within the buffer. *)
Theorem C03_count_total : forall s, exists k,
  codepoint_count s (List.length s) = Ok k
    /\ (k <= List.length s)%nat /\ (List.length s <= 4 * k)%nat.
Proof. exact codepoint_count_total. Qed.
Print Assumptions C03_count_total.

(** A byte that cannot start a sequence counts as one code point. *)
Theorem C03_stray_byte_counts_one : forall b s, (128 <= bN b < 192 \/ 248 <= bN b) ->
  exists k, codepoint_count s (List.length s) = Ok k
    /\ codepoint_count (b :: s) (List.length (b :: s)) = Ok (1 + k)%nat.
Proof. exact count_stray. Qed.
Print Assumptions C03_stray_byte_counts_one.

Example C03_meets : utf8_of [0x61; 0x3042; 0x1F600] [x61; xe3; x81; x82; xf0; x9f; x98; x80].
Proof. split; [repeat constructor; unfold scalar; lia|reflexivity]. Qed.
