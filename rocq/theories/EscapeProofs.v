From Verif Require Import Base BaseLemmas Utf8 Utf8Spec Utf8Proofs Escape EscapeSpec.
From Coq Require Import ZifyBool ZifyNat ZifyN.
Ltac Zify.zify_post_hook ::= Z.div_mod_to_equations.
Local Open Scope N_scope.

Lemma is_hex_assoc c : is_hex c = option_map Z.of_N (assoc hex_digits c).
Proof. destruct c; reflexivity. Qed.
Lemma is_digit_assoc c : is_digit c = option_map Z.of_N (assoc dec_digits c).
Proof. destruct c; reflexivity. Qed.
Lemma oct_dec c v : assoc oct_digits c = Some v -> assoc dec_digits c = Some v.
Proof. destruct c; cbn; congruence. Qed.
Lemma hexv c v : assoc hex_digits c = Some v -> v < 16.
Proof. destruct c; cbn; try discriminate; intro H; injection H as <-; reflexivity. Qed.
Lemma octv c v : assoc oct_digits c = Some v -> v < 8.
Proof. destruct c; cbn; try discriminate; intro H; injection H as <-; reflexivity. Qed.

Lemma value_from_ge t radix ds : 1 <= radix -> forall acc, acc <= value_from t radix acc ds.
Proof.
  intro Hr. induction ds as [|d ds IH]; intro acc; cbn [value_from]; [lia|].
  etransitivity; [|apply IH]. nia.
Qed.

Lemma value_from_lt t radix (Ht : forall c v, assoc t c = Some v -> v < radix) : 1 <= radix ->
  forall ds acc b, acc < b ->
  value_from t radix acc ds < b * radix ^ N.of_nat (List.length ds).
Proof.
  intros Hr. induction ds as [|d ds IH]; intros acc b Hb; cbn [value_from List.length].
  - cbn. lia.
  - rewrite Nat2N.inj_succ, N.pow_succ_r'.
    replace (b * (radix * radix ^ N.of_nat (List.length ds)))
      with ((b * radix) * radix ^ N.of_nat (List.length ds)) by lia.
    apply IH. destruct (assoc t d) as [v|] eqn:E; [specialize (Ht d v E)|]; nia.
Qed.

(** Reading a maximal run of digits. *)
Lemma parse_number_run (digit : byte -> option Z) t radix
  (Hd : forall c v, assoc t c = Some v -> digit c = Some (Z.of_N v)) : 1 <= radix ->
  forall ds acc rest,
  forallb (is_digit_of t) ds = true ->
  match rest with [] => True | c :: _ => digit c = None end ->
  value_from t radix acc ds <= 2147483647 ->
  parse_number digit (Z.of_N radix) (Z.of_N acc) (ds ++ rest)
    = Ok (Z.of_N (value_from t radix acc ds), rest).
Proof.
  intro Hr. induction ds as [|d ds IH]; intros acc rest Hds Hrest Hv; cbn [app value_from parse_number].
  - destruct rest as [|c rest]; [reflexivity|]. cbn [parse_number]. rewrite Hrest. reflexivity.
  - cbn [forallb] in Hds. apply andb_true_iff in Hds as [H1 H2].
    unfold is_digit_of in H1. cbn [value_from] in Hv.
    destruct (assoc t d) as [v|] eqn:E; [|discriminate].
    rewrite (Hd d v E). unfold int32.
    pose proof (value_from_ge t radix ds Hr (acc * radix + v)) as Hge.
    replace ((-2147483648 <=? Z.of_N acc * Z.of_N radix + Z.of_N v)
       && (Z.of_N acc * Z.of_N radix + Z.of_N v <=? 2147483647))%Z with true by nia.
    cbn [bind].
    replace (Z.of_N acc * Z.of_N radix + Z.of_N v)%Z with (Z.of_N (acc * radix + v)) by nia.
    apply IH; assumption.
Qed.

Lemma parse_number_nofuel digit radix q : forall acc, parse_number digit radix acc q <> OutOfFuel.
Proof.
  induction q as [|d q IHq]; intro acc; cbn [parse_number]; [discriminate|].
  destruct (digit d); [|discriminate]. unfold int32.
  destruct (_ && _)%Z; cbn [bind]; [apply IHq|discriminate].
Qed.

(** More fuel does not change a result. *)
Lemma resolve_mono fuel : forall s r, resolve_loop fuel s = r -> r <> OutOfFuel ->
  forall fuel', (fuel <= fuel')%nat -> resolve_loop fuel' s = r.
Proof.
  induction fuel as [|fuel IH]; intros s r H Hr fuel' Hf.
  - destruct s as [|c s]; [|cbn in H; congruence]. destruct fuel'; exact H.
  - destruct fuel' as [|fuel']; [lia|]. assert (Hf' : (fuel <= fuel')%nat) by lia.
    assert (K : forall (f : bytes -> bytes) t,
      (let* q := resolve_loop fuel t in Ok (f q)) = r ->
      (let* q := resolve_loop fuel' t in Ok (f q)) = r).
    { intros f t E. rewrite <- E. destruct (resolve_loop fuel t) eqn:E2;
        cbn [bind] in E; try congruence;
        rewrite (IH t _ E2 ltac:(congruence) fuel' Hf'); reflexivity. }
    destruct s as [|c s]; [exact H|]. cbn [resolve_loop] in H |- *.
    destruct (beq c x5c); [|apply (K (cons c)); exact H].
    destruct s as [|e s]; [exact H|].
    destruct (simple_escape e) as [b|]; [apply (K (cons b)); exact H|].
    destruct (if beq e x78 || beq e x75 then _ else _) as [[cp s3]| | |]; cbn [bind] in H |- *;
      try exact H.
    apply (K (fun q => encode_codepoint (Z.to_N cp) ++ q)). exact H.
Qed.

Lemma utf8_bytes_encode cp : encode_codepoint cp = utf8_bytes cp.
Proof.
  unfold utf8_bytes. destruct ((cp <? 0xD800) || ((0xE000 <=? cp) && (cp <=? 0x10FFFF))) eqn:E.
  - rewrite <- encode_rfc by (unfold scalar; lia).
    rewrite map_map. symmetry. erewrite map_ext; [apply map_id|]. intro b. apply byteN_bN.
  - apply encode_invalid. unfold scalar. lia.
Qed.

(** [resolves s r]: with enough fuel the loop produces [r]. *)
Definition resolves s r := exists fuel, resolve_loop fuel s = Ok r.

Lemma resolves_item i rest r : wf_item i = true ->
  ends_before i rest = true -> resolves rest r ->
  resolves (source i ++ rest) (denotes i ++ r).
Proof.
  intros Hwf Hsep [fuel Hf]. exists (S fuel).
  assert (num : forall t radix digit ds (e : list byte),
     (forall c v, assoc t c = Some v -> digit c = Some (Z.of_N v)) -> 1 <= radix ->
     forallb (is_digit_of t) ds = true ->
     match rest with [] => True | c :: _ => digit c = None end ->
     value_of t radix ds <= 2147483647 ->
     (let* (cp, s3) := parse_number digit (Z.of_N radix) 0 (ds ++ rest) in
      let* q := resolve_loop fuel s3 in Ok (encode_codepoint (Z.to_N cp) ++ q))
     = Ok (utf8_bytes (value_of t radix ds) ++ r)).
  { intros t radix digit ds _ Hd Hr Hds Hrest Hv.
    change 0%Z with (Z.of_N 0). rewrite (parse_number_run digit t radix Hd Hr) by assumption.
    cbn [bind]. rewrite Hf. cbn [bind]. rewrite N2Z.id, utf8_bytes_encode. reflexivity. }
  destruct i as [b|e|ds|ds|ds]; cbn [wf_item] in Hwf; cbn [source denotes app].
  - cbn [resolve_loop]. change (beq b x5c) with (Byte.eqb b backslash).
    apply negb_true_iff in Hwf. rewrite Hwf, Hf. reflexivity.
  - cbn [resolve_loop backslash]. rewrite beq_refl.
    assert (E : simple_escape e = option_map byteN (assoc simple_table e)) by (destruct e; reflexivity).
    unfold is_digit_of in Hwf. rewrite E. destruct (assoc simple_table e) as [v|]; [|discriminate].
    cbn [option_map]. rewrite Hf. reflexivity.
  - apply andb_true_iff in Hwf as [Hwf H2]. apply andb_true_iff in Hwf as [Hwf H1].
    cbn [resolve_loop backslash]. rewrite !beq_refl, ?orb_true_r. cbn [orb simple_escape].
    unfold parse_hex_number.
    apply (num hex_digits 16 is_hex ds []); try assumption; try lia.
    + intros c v H. rewrite is_hex_assoc, H. reflexivity.
    + destruct rest as [|c rest]; [exact I|]. cbn [ends_before] in Hsep.
      rewrite is_hex_assoc. unfold is_digit_of in Hsep.
      destruct (assoc hex_digits c); [discriminate|reflexivity].
    + pose proof (value_from_lt hex_digits 16 hexv ltac:(lia) ds 0 1 ltac:(lia)) as L.
      unfold value_of. assert (16 ^ N.of_nat (List.length ds) <= 16 ^ 2)
        by (apply N.pow_le_mono_r; lia). change (16^2) with 256 in *. lia.
  - apply andb_true_iff in Hwf as [Hwf H2]. apply andb_true_iff in Hwf as [Hwf H1].
    cbn [resolve_loop backslash]. rewrite !beq_refl, ?orb_true_r. cbn [orb simple_escape].
    unfold parse_hex_number.
    apply (num hex_digits 16 is_hex ds []); try assumption; try lia.
    + intros c v H. rewrite is_hex_assoc, H. reflexivity.
    + destruct rest as [|c rest]; [exact I|]. cbn [ends_before] in Hsep.
      rewrite is_hex_assoc. unfold is_digit_of in Hsep.
      destruct (assoc hex_digits c); [discriminate|reflexivity].
    + pose proof (value_from_lt hex_digits 16 hexv ltac:(lia) ds 0 1 ltac:(lia)) as L.
      unfold value_of. assert (16 ^ N.of_nat (List.length ds) <= 16 ^ 6)
        by (apply N.pow_le_mono_r; lia). change (16^6) with 16777216 in *. lia.
  - apply andb_true_iff in Hwf as [Hwf H2]. apply andb_true_iff in Hwf as [Hwf H1].
    destruct ds as [|d ds]; [discriminate H1|].
    assert (Hd : forall c v, assoc oct_digits c = Some v -> is_digit c = Some (Z.of_N v)).
    { intros c v H. rewrite is_digit_assoc, (oct_dec c v H). reflexivity. }
    assert (Hr : match rest with [] => True | c :: _ => is_digit c = None end).
    { destruct rest as [|c rest]; [exact I|]. cbn [ends_before] in Hsep.
      rewrite is_digit_assoc. unfold is_digit_of in Hsep.
      destruct (assoc dec_digits c); [discriminate|reflexivity]. }
    assert (Hv : value_of oct_digits 8 (d :: ds) <= 2147483647).
    { pose proof (value_from_lt oct_digits 8 octv ltac:(lia) (d::ds) 0 1 ltac:(lia)) as L.
      unfold value_of. assert (8 ^ N.of_nat (List.length (d::ds)) <= 8 ^ 3)
        by (apply N.pow_le_mono_r; lia). change (8^3) with 512 in *. lia. }
    pose proof (num oct_digits 8 is_digit (d :: ds) [] Hd ltac:(lia) Hwf Hr Hv) as K.
    cbn [app] in K. unfold parse_octal_number.
    cbn [forallb] in Hwf. apply andb_true_iff in Hwf as [Hd0 _].
    cbn [resolve_loop backslash app]. rewrite beq_refl.
    assert (E1 : simple_escape d = None) by (destruct d; try discriminate Hd0; reflexivity).
    assert (E2 : beq d x78 || beq d x75 = false) by (destruct d; try discriminate Hd0; reflexivity).
    rewrite E1, E2. exact K.
Qed.

Lemma num_length digit radix s : forall acc z t, parse_number digit radix acc s = Ok (z, t) ->
  (List.length t <= List.length s)%nat.
Proof.
  induction s as [|c s IH]; intros acc z t; cbn [parse_number].
  - intro H. injection H as _ <-. auto.
  - destruct (digit c) as [v|].
    + destruct (int32 _); cbn [bind]; try discriminate. intro H.
      apply IH in H. cbn. lia.
    + intro H. injection H as _ <-. auto.
Qed.

(** The loop never needs more fuel than bytes. *)
Lemma resolve_enough fuel : forall s, (List.length s <= fuel)%nat ->
  resolve_loop fuel s <> OutOfFuel.
Proof.
  induction fuel as [|fuel IH]; intros s Hs.
  - destruct s; [discriminate|cbn in Hs; lia].
  - assert (K : forall (f : bytes -> bytes) t, (List.length t <= fuel)%nat ->
      (let* q := resolve_loop fuel t in Ok (f q)) <> OutOfFuel).
    { intros f t Ht. specialize (IH t Ht). destruct (resolve_loop fuel t); cbn; congruence. }
    destruct s as [|c s]; [discriminate|]. cbn in Hs.
    cbn [resolve_loop]. destruct (beq c x5c); [|apply (K (cons c)); lia].
    destruct s as [|e s]; [discriminate|]. cbn in Hs.
    destruct (simple_escape e) as [b|]; [apply (K (cons b)); lia|].
    destruct (if beq e x78 || beq e x75 then _ else _) as [[cp s3]| | |] eqn:E; cbn [bind];
      try discriminate.
    + apply (K (fun q => encode_codepoint (Z.to_N cp) ++ q)).
      destruct (beq e x78 || beq e x75); apply num_length in E; cbn in E; lia.
    + exfalso. destruct (beq e x78 || beq e x75); eapply parse_number_nofuel; exact E.
Qed.

Lemma resolves_items l : forallb wf_item l = true -> separated l = true ->
  resolves (List.concat (map source l)) (List.concat (map denotes l)).
Proof.
  induction l as [|i l IH]; intros Hw Hs.
  - exists 0%nat. reflexivity.
  - cbn [forallb separated map List.concat] in *.
    apply andb_true_iff in Hw as [Hw1 Hw2]. apply andb_true_iff in Hs as [Hs1 Hs2].
    apply resolves_item; auto.
Qed.

Lemma resolves_fun s r : resolves s r -> resolve_escape_sequence s = Ok r.
Proof.
  intros [fuel Hf]. unfold resolve_escape_sequence.
  pose proof (resolve_enough (List.length s) s (le_n _)) as NF.
  pose proof (resolve_mono _ s _ eq_refl NF (Nat.max fuel (List.length s)) ltac:(lia)) as A.
  pose proof (resolve_mono _ s _ Hf ltac:(discriminate) (Nat.max fuel (List.length s)) ltac:(lia)) as B.
  congruence.
Qed.

(** Printing with escape_characters and resolving again. *)
Lemma resolve_escape s : forallb (fun b => negb (beq b x5c)) s = true ->
  resolves (escape_characters s) s.
Proof.
  induction s as [|c s IH]; intro H; [exists 0%nat; reflexivity|].
  cbn [forallb] in H. apply andb_true_iff in H as [H1 H2].
  destruct (IH H2) as [fuel Hf]. exists (S fuel). apply negb_true_iff in H1.
  destruct c; try discriminate H1; cbn [escape_characters app];
    try (change (bs _) with (x5c :: [x66])); cbn [bs list_byte_of_string app map];
    cbn; rewrite Hf; reflexivity.
Qed.
