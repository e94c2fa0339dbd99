From Verif Require Import Base BaseLemmas Utf8 Utf8Spec.
From Coq Require Import ZifyBool ZifyNat ZifyN.
Ltac Zify.zify_post_hook ::= Z.div_mod_to_equations.
Local Open Scope N_scope.

Ltac lists := repeat (apply (f_equal2 (@cons N)); [lia|]); try reflexivity.

(** Lead byte classification by finite sweep. *)
Lemma lead1 b : (N.land (bN b) 0x80 =? 0) = (bN b <? 128).
Proof. destruct b; reflexivity. Qed.
Lemma lead2 b : (N.land (bN b) 0xE0 =? 0xC0) = (192 <=? bN b) && (bN b <? 224).
Proof. destruct b; reflexivity. Qed.
Lemma lead3 b : (N.land (bN b) 0xF0 =? 0xE0) = (224 <=? bN b) && (bN b <? 240).
Proof. destruct b; reflexivity. Qed.
Lemma lead4 b : (N.land (bN b) 0xF8 =? 0xF0) = (240 <=? bN b) && (bN b <? 248).
Proof. destruct b; reflexivity. Qed.
Lemma contb b : (N.land (bN b) 0xC0 =? 0x80) = (128 <=? bN b) && (bN b <? 192).
Proof. destruct b; reflexivity. Qed.

Lemma mask6 x : N.land x 0x3F = x mod 64.
Proof. exact (land_mask x 6). Qed.
Lemma mask5 x : N.land x 0x1F = x mod 32.
Proof. exact (land_mask x 5). Qed.
Lemma mask4 x : N.land x 0xF = x mod 16.
Proof. exact (land_mask x 4). Qed.
Lemma mask3 x : N.land x 0x7 = x mod 8.
Proof. exact (land_mask x 3). Qed.
Lemma mask7 x : N.land x 0x7F = x mod 128.
Proof. exact (land_mask x 7). Qed.

Lemma or80 x : x < 64 -> N.lor 0x80 x = 128 + x.
Proof. intro H. change 0x80 with (N.shiftl 2 6). rewrite lor_shift; [reflexivity|exact H]. Qed.
Lemma orC0 x : x < 32 -> N.lor 0xC0 x = 192 + x.
Proof. intro H. change 0xC0 with (N.shiftl 6 5). rewrite lor_shift; [reflexivity|exact H]. Qed.
Lemma orE0 x : x < 16 -> N.lor 0xE0 x = 224 + x.
Proof. intro H. change 0xE0 with (N.shiftl 14 4). rewrite lor_shift; [reflexivity|exact H]. Qed.
Lemma orF0 x : x < 8 -> N.lor 0xF0 x = 240 + x.
Proof. intro H. change 0xF0 with (N.shiftl 30 3). rewrite lor_shift; [reflexivity|exact H]. Qed.

Lemma shr6 x : N.shiftr x 6 = x / 64. Proof. exact (shiftr_div x 6). Qed.
Lemma shr12 x : N.shiftr x 12 = x / 4096. Proof. exact (shiftr_div x 12). Qed.
Lemma shr18 x : N.shiftr x 18 = x / 262144. Proof. exact (shiftr_div x 18). Qed.

(** The encoder produces exactly RFC 3629. *)
Lemma encode_rfc cp : scalar cp -> map bN (encode_codepoint cp) = rfc3629 cp.
Proof.
  unfold scalar, encode_codepoint, rfc3629. intro H.
  rewrite ?mask3, ?mask4, ?mask5, ?mask6, ?mask7, ?shr6, ?shr12, ?shr18.
  assert (L64 : forall x, x mod 64 < 64) by (intro; apply N.mod_lt; discriminate).
  assert (L32 : forall x, x mod 32 < 32) by (intro; apply N.mod_lt; discriminate).
  assert (L16 : forall x, x mod 16 < 16) by (intro; apply N.mod_lt; discriminate).
  assert (L8 : forall x, x mod 8 < 8) by (intro; apply N.mod_lt; discriminate).
  rewrite ?or80, ?orC0, ?orE0, ?orF0 by auto.
  destruct (cp <? 0x80) eqn:H1.
  { replace (cp <=? 0x7F) with true by lia. cbn [map].
    rewrite bN_byteN_small by lia. f_equal. lia. }
  replace (cp <=? 0x7F) with false by lia.
  destruct (cp <? 0x800) eqn:H2.
  { replace (cp <=? 0x7FF) with true by lia. cbn [map].
    rewrite !bN_byteN_small by lia. lists. }
  replace (cp <=? 0x7FF) with false by lia.
  destruct (cp <? 0xD800) eqn:H3.
  { replace (cp <=? 0xFFFF) with true by lia. cbn [map].
    rewrite !bN_byteN_small by lia. lists. }
  replace (cp <? 0xE000) with false by lia.
  destruct (cp <? 0x10000) eqn:H4.
  { replace (cp <=? 0xFFFF) with true by lia. cbn [map].
    rewrite !bN_byteN_small by lia. lists. }
  replace (cp <? 0x110000) with true by lia.
  replace (cp <=? 0xFFFF) with false by lia. cbn [map].
  rewrite !bN_byteN_small by lia. lists.
Qed.

Lemma encode_invalid cp : ~ scalar cp -> encode_codepoint cp = [].
Proof.
  unfold scalar, encode_codepoint. intro H.
  replace (cp <? 0x80) with false by lia.
  replace (cp <? 0x800) with false by lia.
  replace (cp <? 0xD800) with false by lia.
  destruct (cp <? 0xE000) eqn:E; [reflexivity|].
  replace (cp <? 0x10000) with false by lia.
  replace (cp <? 0x110000) with false by lia.
  reflexivity.
Qed.

Lemma encode_length cp : List.length (encode_codepoint cp) = List.length (map bN (encode_codepoint cp)).
Proof. rewrite map_length. reflexivity. Qed.

Lemma encode_len_bounds cp : scalar cp ->
  (1 <= List.length (encode_codepoint cp) <= 4)%nat.
Proof.
  intro H. rewrite encode_length, (encode_rfc cp H). unfold rfc3629.
  destruct (_ <=? 0x7F); [simpl; lia|].
  destruct (_ <=? 0x7FF); [simpl; lia|].
  destruct (_ <=? 0xFFFF); simpl; lia.
Qed.

Lemma or_6 a x : x < 64 -> N.lor (N.shiftl a 6) x = a * 64 + x.
Proof. intro H. rewrite lor_shift; [reflexivity|exact H]. Qed.

(** Any byte string that starts with the RFC bytes of [cp] decodes to [cp]. *)
Lemma decode_rfc cp s l : scalar cp ->
  map bN (firstn (List.length (rfc3629 cp)) s) = rfc3629 cp ->
  (List.length (rfc3629 cp) <= l)%nat ->
  decode_codepoint s l = Ok (Some (List.length (rfc3629 cp), cp))
  /\ codepoint_length s l = Ok (List.length (rfc3629 cp)).
Proof.
  intros Hs. unfold scalar in Hs.
  unfold rfc3629, decode_codepoint, codepoint_length.
  destruct (cp <=? 0x7F) eqn:H1; [|destruct (cp <=? 0x7FF) eqn:H2;
    [|destruct (cp <=? 0xFFFF) eqn:H3]]; cbn [List.length]; intros E Hl;
  replace (0 <? l)%nat with true by lia.
  - destruct s as [|b0 s]; [discriminate E|]. cbn [firstn map] in E.
    injection E as E0. unfold rd; cbn [nth_error bind].
    rewrite lead1, E0. replace (cp <? 128) with true by lia. split; reflexivity.
  - destruct s as [|b0 [|b1 s]]; try discriminate E. cbn [firstn map] in E.
    injection E as E0 E1. unfold rd; cbn [nth_error bind].
    rewrite lead1, lead2, E0.
    replace (192 + cp / 64 <? 128) with false by lia.
    replace ((192 <=? 192 + cp / 64) && (192 + cp / 64 <? 224)) with true by lia.
    replace (2 <=? l)%nat with true by lia. cbn [bind andb].
    rewrite mask5, mask6, E1. split; [|reflexivity]. do 3 f_equal.
    rewrite or_6 by lia. lia.
  - destruct s as [|b0 [|b1 [|b2 s]]]; try discriminate E. cbn [firstn map] in E.
    injection E as E0 E1 E2. unfold rd; cbn [nth_error bind].
    rewrite lead1, lead2, lead3, E0.
    replace (224 + cp / 4096 <? 128) with false by lia.
    replace ((192 <=? 224 + cp / 4096) && (224 + cp / 4096 <? 224)) with false by lia.
    replace ((224 <=? 224 + cp / 4096) && (224 + cp / 4096 <? 240)) with true by lia.
    replace (3 <=? l)%nat with true by lia. cbn [bind andb].
    rewrite mask4, !mask6, E1, E2. split; [|reflexivity]. do 3 f_equal.
    change 12 with (6 + 6). rewrite <- N.shiftl_shiftl.
    rewrite <- N.shiftl_lor. rewrite !or_6 by lia. lia.
  - destruct s as [|b0 [|b1 [|b2 [|b3 s]]]]; try discriminate E. cbn [firstn map] in E.
    injection E as E0 E1 E2 E3. unfold rd; cbn [nth_error bind].
    rewrite lead1, lead2, lead3, lead4, E0.
    replace (240 + cp / 262144 <? 128) with false by lia.
    replace ((192 <=? 240 + cp / 262144) && (240 + cp / 262144 <? 224)) with false by lia.
    replace ((224 <=? 240 + cp / 262144) && (240 + cp / 262144 <? 240)) with false by lia.
    replace ((240 <=? 240 + cp / 262144) && (240 + cp / 262144 <? 248)) with true by lia.
    replace (4 <=? l)%nat with true by lia. cbn [bind andb].
    rewrite mask3, !mask6, E1, E2, E3. split; [|reflexivity]. do 3 f_equal.
    change 18 with (12 + 6). change 12 with (6 + 6).
    rewrite <- !N.shiftl_shiftl.
    rewrite <- !N.shiftl_lor. rewrite !or_6 by lia. lia.
Qed.

Lemma encode_decode cp rest l : scalar cp ->
  (List.length (encode_codepoint cp) <= l)%nat ->
  decode_codepoint (encode_codepoint cp ++ rest) l
    = Ok (Some (List.length (encode_codepoint cp), cp))
  /\ codepoint_length (encode_codepoint cp ++ rest) l
     = Ok (List.length (encode_codepoint cp)).
Proof.
  intros Hs Hl.
  assert (E : List.length (encode_codepoint cp) = List.length (rfc3629 cp))
    by (rewrite encode_length, (encode_rfc cp Hs); reflexivity).
  rewrite E. apply decode_rfc; [exact Hs| |lia].
  rewrite <- E, firstn_app, Nat.sub_diag, firstn_all, firstn_O, app_nil_r.
  apply encode_rfc; exact Hs.
Qed.

Lemma encode_inj a b : scalar a -> scalar b ->
  encode_codepoint a = encode_codepoint b -> a = b.
Proof.
  intros Ha Hb E.
  destruct (encode_decode a [] _ Ha (le_n _)) as [Da _].
  destruct (encode_decode b [] _ Hb (le_n _)) as [Db _].
  rewrite E in Da. rewrite Da in Db. injection Db. auto.
Qed.

(** Safety: reads stay below [l]; the result only depends on the first [l] bytes. *)
Ltac fin := eexists; split; [reflexivity|]; split; [reflexivity|];
  split; [reflexivity|]; let HH := fresh in intros n cp HH; inversion HH; clear HH; subst.

Lemma decode_safe s l : (l <= List.length s)%nat ->
  exists r, decode_codepoint s l = Ok r
    /\ decode_codepoint (firstn l s) l = Ok r
    /\ codepoint_length s l = Ok (match r with Some (n, _) => n | None => 0%nat end)
    /\ (forall n cp, r = Some (n, cp) ->
          (1 <= n <= 4 /\ n <= l)%nat /\ cp < 2097152).
Proof.
  intro Hl. unfold decode_codepoint, codepoint_length.
  destruct (0 <? l)%nat eqn:H0.
  2:{ fin. }
  destruct l as [|l]; [lia|].
  destruct s as [|b0 s]; [simpl in Hl; lia|]. cbn [firstn].
  assert (R0 : forall t, rd (b0 :: t) 0 = Ok b0) by reflexivity.
  rewrite !R0. cbn [bind].
  assert (B64 : forall b, N.land (bN b) 0x3F < 64)
    by (intro; rewrite mask6; apply N.mod_lt; discriminate).
  rewrite lead1, lead2, lead3, lead4.
  destruct (bN b0 <? 128) eqn:H1.
  { fin; lia. }
  destruct ((192 <=? bN b0) && (bN b0 <? 224)) eqn:H2; cbn [andb].
  { destruct (2 <=? S l)%nat eqn:Hl2.
    - destruct s as [|b1 s]; [simpl in Hl; lia|]. destruct l as [|l]; [lia|].
      unfold rd. cbn [nth_error firstn bind].
      fin. split; [lia|]. rewrite or_6 by auto. rewrite mask5. specialize (B64 b1). lia.
    - replace ((224 <=? bN b0) && (bN b0 <? 240)) with false by lia.
      replace ((240 <=? bN b0) && (bN b0 <? 248)) with false by lia.
      cbn [andb]. fin. }
  destruct ((224 <=? bN b0) && (bN b0 <? 240)) eqn:H3; cbn [andb].
  { destruct (3 <=? S l)%nat eqn:Hl2.
    - destruct s as [|b1 [|b2 s]]; [simpl in Hl; lia|simpl in Hl; lia|].
      destruct l as [|[|l]]; [lia|lia|].
      unfold rd. cbn [nth_error firstn bind].
      fin. split; [lia|]. change 12 with (6 + 6). rewrite <- N.shiftl_shiftl, <- N.shiftl_lor.
      rewrite !or_6 by auto. rewrite mask4.
      pose proof (B64 b1). pose proof (B64 b2). lia.
    - replace ((240 <=? bN b0) && (bN b0 <? 248)) with false by lia.
      cbn [andb]. fin. }
  destruct ((240 <=? bN b0) && (bN b0 <? 248)) eqn:H4; cbn [andb].
  { destruct (4 <=? S l)%nat eqn:Hl2.
    - destruct s as [|b1 [|b2 [|b3 s]]]; try (simpl in Hl; lia).
      destruct l as [|[|[|l]]]; try lia.
      unfold rd. cbn [nth_error firstn bind].
      fin. split; [lia|]. change 18 with (12 + 6). change 12 with (6 + 6).
      rewrite <- !N.shiftl_shiftl, <- !N.shiftl_lor.
      rewrite !or_6 by auto. rewrite mask3.
      pose proof (B64 b1). pose proof (B64 b2). pose proof (B64 b3). lia.
    - fin. }
  fin.
Qed.

Lemma from_app (a b : bytes) : from (a ++ b) (List.length a) = b.
Proof. unfold from. rewrite skipn_app, skipn_all, Nat.sub_diag. reflexivity. Qed.

(** codepoint_count on encoded text. *)
Lemma count_loop_encoded cps : Forall scalar cps -> forall fuel c,
  let s := List.concat (map encode_codepoint cps) in
  (List.length s <= fuel)%nat ->
  codepoint_count_loop fuel s (List.length s) c = Ok (c + List.length cps)%nat.
Proof.
  induction 1 as [|cp cps Hcp Hcps IH]; intros fuel c; cbn [map List.concat].
  - intros _. destruct fuel; cbn; rewrite Nat.add_0_r; reflexivity.
  - intro Hf. pose proof (encode_len_bounds cp Hcp) as Hb.
    rewrite app_length in Hf |- *.
    destruct fuel as [|fuel]; [lia|]. cbn [codepoint_count_loop].
    replace (0 <? _)%nat with true by lia.
    destruct (encode_decode cp (List.concat (map encode_codepoint cps))
      (List.length (encode_codepoint cp) + List.length (List.concat (map encode_codepoint cps))) Hcp)%nat
      as [_ D]; [lia|].
    rewrite D. cbn [bind].
    replace (List.length (encode_codepoint cp) =? 0)%nat with false by lia.
    rewrite from_app.
    replace (List.length (encode_codepoint cp) +
      List.length (List.concat (map encode_codepoint cps)) -
      List.length (encode_codepoint cp))%nat with
      (List.length (List.concat (map encode_codepoint cps))) by lia.
    rewrite IH by lia. cbn [List.length]. f_equal. lia.
Qed.

Lemma count_loop_total fuel : forall s l c,
  (l <= List.length s)%nat -> (l <= fuel)%nat ->
  exists k, codepoint_count_loop fuel s l c = Ok (c + k)%nat
    /\ (k <= l)%nat /\ (l <= 4 * k)%nat.
Proof.
  induction fuel as [|fuel IH]; intros s l c Hs Hf; cbn [codepoint_count_loop].
  - destruct l as [|l]; [|lia]. exists 0%nat. cbn. rewrite Nat.add_0_r.
    repeat split; lia.
  - destruct (0 <? l)%nat eqn:H0.
    2:{ exists 0%nat. rewrite Nat.add_0_r. repeat split; lia. }
    destruct (decode_safe s l Hs) as (r & _ & _ & CL & Hr).
    rewrite CL. cbn [bind].
    set (n0 := match r with Some (n, _) => n | None => 0%nat end).
    assert (Hn : (n0 <= 4 /\ n0 <= l)%nat).
    { subst n0. destruct r as [[n cp]|]; [|lia]. specialize (Hr n cp eq_refl). lia. }
    set (n := if (n0 =? 0)%nat then 1%nat else n0).
    assert (Hn' : (1 <= n <= 4 /\ n <= l)%nat) by (subst n; destruct (n0 =? 0)%nat eqn:?; lia).
    destruct (IH (from s n) (l - n)%nat (c + 1)%nat) as (k & Hk & K1 & K2).
    { rewrite length_from. lia. }
    { lia. }
    exists (S k). rewrite Hk. split; [f_equal; lia|lia].
Qed.

Lemma codepoint_count_total s : exists k,
  codepoint_count s (List.length s) = Ok k
    /\ (k <= List.length s)%nat /\ (List.length s <= 4 * k)%nat.
Proof.
  unfold codepoint_count. destruct (count_loop_total (List.length s) s (List.length s) 0)
    as (k & H & H1 & H2); [lia|lia|]. exists k. auto.
Qed.

(** decode on encoded text. *)
Lemma cont_run_app (a b : bytes) l :
  (forall x, In x a -> 128 <= bN x < 192) ->
  (match b with [] => True | x :: _ => ~ (128 <= bN x < 192) end) ->
  l = (List.length a + List.length b)%nat ->
  cont_run (a ++ b) l = Ok (List.length a).
Proof.
  revert l; induction a as [|x a IH]; intros l Ha Hb Hl; subst l; cbn [app List.length Nat.add cont_run].
  - destruct b as [|x b]; [reflexivity|]. cbn [List.length cont_run].
    rewrite contb. replace ((128 <=? bN x) && (bN x <? 192)) with false by lia. reflexivity.
  - rewrite contb. pose proof (Ha x (or_introl eq_refl)).
    replace ((128 <=? bN x) && (bN x <? 192)) with true by lia.
    rewrite IH; [reflexivity| |exact Hb|reflexivity].
    intros y Hy. apply Ha. right. exact Hy.
Qed.

Lemma encode_shape cp : scalar cp -> exists b0 tl,
  encode_codepoint cp = b0 :: tl /\ ~ (128 <= bN b0 < 192)
  /\ (forall x, In x tl -> 128 <= bN x < 192).
Proof.
  intro H. pose proof (encode_rfc cp H) as E. unfold scalar in H.
  pose proof (encode_len_bounds cp H) as Hb.
  destruct (encode_codepoint cp) as [|b0 tl]; [simpl in Hb; lia|].
  exists b0, tl. split; [reflexivity|]. cbn [map] in E. unfold rfc3629 in E.
  destruct (cp <=? 0x7F) eqn:H1; [|destruct (cp <=? 0x7FF) eqn:H2;
    [|destruct (cp <=? 0xFFFF) eqn:H3]]; injection E as E0 E1; split; try lia;
    intros x Hx; apply (in_map bN) in Hx; rewrite E1 in Hx; simpl in Hx; lia.
Qed.

Lemma decode_loop_encoded cps : Forall scalar cps -> forall fuel,
  let s := List.concat (map encode_codepoint cps) in
  (List.length s <= fuel)%nat ->
  decode_loop fuel s (List.length s) = Ok cps.
Proof.
  induction 1 as [|cp cps Hcp Hcps IH]; intros fuel; cbn [map List.concat].
  - intros _. destruct fuel; reflexivity.
  - intro Hf. pose proof (encode_len_bounds cp Hcp) as Hb.
    rewrite app_length in Hf |- *.
    destruct fuel as [|fuel]; [lia|]. cbn [decode_loop].
    replace (0 <? _)%nat with true by lia.
    set (R := List.concat (map encode_codepoint cps)) in *.
    destruct (encode_shape cp Hcp) as (b0 & tl & E & _ & Htl).
    assert (Hrun : cont_run (from (encode_codepoint cp ++ R) 1)
        (List.length (encode_codepoint cp) + List.length R - 1) = Ok (List.length tl)).
    { rewrite E. cbn [app from skipn]. apply cont_run_app; [exact Htl| |].
      - subst R. destruct Hcps as [|c2 cps' Hc2 _]; [exact I|]. cbn [map List.concat].
        destruct (encode_shape c2 Hc2) as (b2 & t2 & E2 & N2 & _). rewrite E2. exact N2.
      - cbn [List.length]. lia. }
    rewrite Hrun. cbn [bind].
    assert (EL : S (List.length tl) = List.length (encode_codepoint cp)) by (rewrite E; reflexivity).
    rewrite EL.
    destruct (encode_decode cp R (List.length (encode_codepoint cp)) Hcp (le_n _)) as [D _].
    unfold decode_codepoint_cp, decode_codepoint_len. rewrite D. cbn [bind snd].
    rewrite from_app.
    replace (List.length (encode_codepoint cp) + List.length R -
             List.length (encode_codepoint cp))%nat with (List.length R) by lia.
    rewrite IH by lia. reflexivity.
Qed.

Lemma utf8_of_encoded cps s : utf8_of cps s -> s = List.concat (map encode_codepoint cps).
Proof.
  intros [Hsc Hs]. apply map_bN_inj. rewrite Hs, concat_map, map_map. f_equal.
  apply map_ext_Forall. eapply Forall_impl; [|exact Hsc].
  intros a Ha. symmetry. exact (encode_rfc a Ha).
Qed.

Lemma count_encoded cps s : utf8_of cps s ->
  codepoint_count s (List.length s) = Ok (List.length cps)
  /\ decode s (List.length s) = Ok cps.
Proof.
  intros H. pose proof (utf8_of_encoded cps s H) as E. destruct H as [Hsc _].
  rewrite E. split.
  - exact (count_loop_encoded cps Hsc _ 0%nat (le_n _)).
  - exact (decode_loop_encoded cps Hsc _ (le_n _)).
Qed.

(** A byte that cannot start a sequence (continuation byte or 0xF8..0xFF). *)
Lemma count_acc fuel : forall s l c, codepoint_count_loop fuel s l c
  = let* n := codepoint_count_loop fuel s l 0 in Ok (c + n)%nat.
Proof.
  induction fuel as [|fuel IH]; intros s l c; cbn [codepoint_count_loop];
    destruct (0 <? l)%nat; cbn [bind]; try reflexivity; try (f_equal; lia).
  destruct (codepoint_length s l) as [n| | |]; cbn [bind]; try reflexivity.
  rewrite IH, (IH _ _ (0 + 1)%nat).
  destruct (codepoint_count_loop fuel _ _ 0); cbn [bind]; try reflexivity. f_equal. lia.
Qed.

Lemma count_stray b s : (128 <= bN b < 192 \/ 248 <= bN b) ->
  exists k, codepoint_count s (List.length s) = Ok k
    /\ codepoint_count (b :: s) (List.length (b :: s)) = Ok (1 + k)%nat.
Proof.
  intro Hb. destruct (codepoint_count_total s) as (k & Hk & _). exists k. split; [exact Hk|].
  unfold codepoint_count. cbn [List.length codepoint_count_loop].
  replace (0 <? S (List.length s))%nat with true by reflexivity.
  assert (E : codepoint_length (b :: s) (S (List.length s)) = Ok 0%nat).
  { unfold codepoint_length. replace (0 <? S (List.length s))%nat with true by reflexivity.
    cbn [rd nth_error bind]. revert Hb. clear. destruct b; cbn; intro H; try reflexivity; lia. }
  rewrite E. cbn [bind Nat.eqb from skipn].
  rewrite count_acc. replace (S (List.length s) - 1)%nat with (List.length s) by lia.
  unfold codepoint_count in Hk. rewrite Hk. reflexivity.
Qed.
