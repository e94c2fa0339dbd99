(** * Whatever matches begins as the grammar says: if an expression matches at a
    position, it can match the empty text or can start with the byte found there. *)
From Verif Require Import Base BaseLemmas Utf8 Utf8Proofs Escape TrieM LineInfo Ope Ctx ErrLog Engine EngineLemmas RefSem RefMono Refine RefineOps EngineFacts FirstSetM FirstSpec.

(** Byte by byte facts, by computation over the 256 bytes. *)
Lemma all_bytes (P : byte -> bool) : forallb P (map byteN (map N.of_nat (seq 0 256))) = true -> forall b, P b = true.
Proof.
  intros H b. rewrite forallb_forall in H. apply H.
  replace b with (byteN (N.of_nat (N.to_nat (bN b)))) by (rewrite N2Nat.id; destruct b; reflexivity).
  apply in_map, in_map, in_seq. pose proof (Byte.to_N_bounded b). unfold bN. lia.
Qed.
Lemma tolower_high b : (0x7F < bN b)%N -> tolower b = b.
Proof.
  intros H. assert (X : (negb (0x7F <? bN b)%N || beq (tolower b) b) = true).
  { revert b H. intros b _. revert b. apply all_bytes. vm_compute. reflexivity. }
  apply N.ltb_lt in H. rewrite H in X. cbn in X. now apply Byte.byte_dec_bl in X.
Qed.
Lemma tolower_low b : (bN b <= 0x7F)%N -> (bN (tolower b) <= 0x7F)%N.
Proof.
  intros H. assert (X : (negb (bN b <=? 0x7F)%N || (bN (tolower b) <=? 0x7F)%N) = true).
  { revert b H. intros b _. revert b. apply all_bytes. vm_compute. reflexivity. }
  apply N.leb_le in H. rewrite H in X. cbn [negb orb] in X. now apply N.leb_le.
Qed.
Lemma tolower_zero b : bN (tolower b) = 0%N -> bN b = 0%N.
Proof.
  intros H. assert (X : (negb (bN (tolower b) =? 0)%N || (bN b =? 0)%N) = true).
  { revert b H. intros b _. revert b. apply all_bytes. vm_compute. reflexivity. }
  rewrite H in X. cbn in X. now apply N.eqb_eq.
Qed.
Lemma byteN_bN b : byteN (bN b) = b.
Proof. destruct b; reflexivity. Qed.
Lemma bN_byteN n : (n < 256)%N -> bN (byteN n) = n.
Proof.
  intros H. unfold byteN. rewrite N.mod_small by exact H.
  destruct (Byte.of_N n) as [b|] eqn:Hb.
  - unfold bN. now apply Byte.to_of_N.
  - exfalso. apply Byte.of_N_None_iff in Hb. lia.
Qed.

Lemma tolower_idem b : tolower (tolower b) = tolower b.
Proof.
  assert (X : beq (tolower (tolower b)) (tolower b) = true) by (revert b; apply all_bytes; vm_compute; reflexivity).
  now apply Byte.byte_dec_bl in X.
Qed.
Lemma in_range_true ic r cp : in_range ic r cp = Ok true ->
  if ic then (cp < 256)%N /\ (fst r < 256)%N /\ (snd r < 256)%N
             /\ (bN (tolower (byteN (fst r))) <= bN (tolower (byteN cp)) <= bN (tolower (byteN (snd r))))%N
  else (fst r <= cp <= snd r)%N.
Proof.
  unfold in_range, tolower_int. destruct ic.
  - destruct (cp <? 256)%N eqn:H1; cbn [bind]; [|discriminate].
    destruct (fst r <? 256)%N eqn:H2; cbn [bind]; [|discriminate].
    destruct (_ <=? _)%N eqn:H3; [|discriminate].
    destruct (snd r <? 256)%N eqn:H4; cbn [bind]; [|discriminate].
    intros [= H5]. apply N.ltb_lt in H1, H2, H4. apply N.leb_le in H3, H5. auto.
  - intros [= H]. apply andb_prop in H as [H1 H2]. apply N.leb_le in H1, H2. auto.
Qed.
Lemma in_ranges_true ic rs cp : in_ranges ic rs cp = Ok true -> exists r, In r rs /\ in_range ic r cp = Ok true.
Proof.
  induction rs as [|r rs IH]; cbn [in_ranges]; [discriminate|]. intros H. binv H.
  destruct a; [exists r; cbn; auto|]. destruct (IH H) as (r' & A & B). exists r'. cbn. auto.
Qed.
Lemma in_ranges_ascii ic rs cp : ascii_ranges rs = true -> in_ranges ic rs cp = Ok true ->
  (cp <= 0x7F)%N /\ exists lo hi, In (lo, hi) rs /\ (cp = 0%N -> lo = 0%N) /\ (ic = false -> (lo <= cp <= hi)%N).
Proof.
  intros Ha H. destruct (in_ranges_true _ _ _ H) as ([lo hi] & Hin & Hr). apply in_range_true in Hr.
  unfold ascii_ranges in Ha. rewrite forallb_forall in Ha. specialize (Ha _ Hin). cbn [fst snd] in *.
  apply andb_prop in Ha as [H1 H2]. apply N.leb_le in H1, H2. destruct ic.
  - destruct Hr as (A & B & C & D1 & D2).
    assert (Hlow : (cp <= 0x7F)%N).
    { destruct (N.le_gt_cases cp 0x7F) as [X|X]; [exact X|exfalso].
      assert (Y : bN (tolower (byteN cp)) = cp).
      { rewrite tolower_high; rewrite bN_byteN by exact A; [reflexivity|exact X]. }
      pose proof (tolower_low (byteN hi)) as Z. rewrite bN_byteN in Z by exact C. specialize (Z H2). lia. }
    split; [exact Hlow|]. exists lo, hi. split; [exact Hin|]. split; [|discriminate].
    intros ->. change (bN (tolower (byteN 0))) with 0%N in D1.
    assert (bN (tolower (byteN lo)) = 0%N) as X by lia. apply tolower_zero in X. rewrite bN_byteN in X by exact B. exact X.
  - split; [lia|]. exists lo, hi. split; [exact Hin|]. split; [intros ->; lia|auto].
Qed.
(** Is some character of the ranges [b] up to case? *)
Lemma case_found rs b :
  (exists lo hi b0, In (lo, hi) rs /\ (lo <= bN b0 <= hi)%N /\ tolower b0 = tolower b)
  \/ (forall lo hi b0, In (lo, hi) rs -> (lo <= bN b0 <= hi)%N -> tolower b0 <> tolower b).
Proof.
  set (all := map byteN (map N.of_nat (seq 0 256))).
  destruct (existsb (fun r => existsb (fun b0 => (fst r <=? bN b0)%N && (bN b0 <=? snd r)%N && beq (tolower b0) (tolower b)) all) rs) eqn:H.
  - left. apply existsb_exists in H as ([lo hi] & Hin & H). apply existsb_exists in H as (b0 & _ & H).
    apply andb_prop in H as [H H3]. apply andb_prop in H as [H1 H2]. apply N.leb_le in H1, H2. apply Byte.byte_dec_bl in H3.
    exists lo, hi, b0. auto.
  - right. intros lo hi b0 Hin Hb Heq.
    assert (X : existsb (fun r => existsb (fun b0 => (fst r <=? bN b0)%N && (bN b0 <=? snd r)%N && beq (tolower b0) (tolower b)) all) rs = true).
    { apply existsb_exists. exists (lo, hi). split; [exact Hin|]. apply existsb_exists. exists b0. split.
      - unfold all. replace b0 with (byteN (N.of_nat (N.to_nat (bN b0)))) by (rewrite N2Nat.id; destruct b0; reflexivity).
        apply in_map, in_map, in_seq. pose proof (Byte.to_N_bounded b0). unfold bN. lia.
      - cbn [fst snd]. destruct Hb as [H1 H2]. apply N.leb_le in H1, H2. rewrite H1, H2, Heq. cbn. apply Byte.byte_dec_lb. reflexivity. }
    congruence.
Qed.
Lemma dfind_In k d v : dfind k d = Some v -> exists k', In (k', v) d /\ k' = k.
Proof.
  induction d as [|[k0 v0] d IH]; cbn [dfind]; [discriminate|].
  destruct (bytes_eqb k0 k) eqn:H; intros X.
  - inv X. exists k0. split; [now left|]. now apply bytes_eqb_eq in H.
  - destruct (IH X) as (k' & A & B). exists k'. split; [now right|exact B].
Qed.

Section FirstSem.
  Context {V U : Type} {kp : keepvals}.
  Notation env := (env V U).
  Notation sv := (sv V).
  Implicit Types (E : env) (vs : sv) (m : mode) (sd : seed V).

  (** [c] describes what is found at [pos]. *)
  Definition found E (pos : nat) (c : sym) : Prop :=
    match c with
    | SByte b => nth_error (e_input E) pos = Some b
    | SAny | SOdd Case | SOdd Nested | SOdd Operand => True
    | SOdd Gap => exists w, e_ws E = Some w
    | SOdd NulByte => ~ ascii_text (e_input E)
    | SCall _ => False
    end.
  Definition begins E (o : ope) (pos n : nat) : Prop :=
    (n = 0 /\ may_be_empty (e_g E) o) \/ exists c, starts (e_g E) o c /\ found E pos c.
  Definition fsound E (o : ope) (pos : nat) (x : rv V) : Prop :=
    match x with Some (n, _) => begins E o pos n | None => True end.
  Definition seed_sound E sd : Prop :=
    match sd with Some (r, p, Some (n, _)) => begins E (Hld r) p n | _ => True end.

  Lemma begins_mono E o o' pos n :
    (may_be_empty (e_g E) o -> may_be_empty (e_g E) o') -> (forall c, starts (e_g E) o c -> starts (e_g E) o' c) ->
    begins E o pos n -> begins E o' pos n.
  Proof. intros H1 H2 [[A B]|(c & A & B)]; [left; auto|right; exists c; auto]. Qed.

  Lemma get_body_rule E r d b : get_body E r = Some (d, b) -> rule_body (e_g E) r d b.
  Proof.
    unfold get_body, rule_body. intros H. oinv H. oinv H. inv H. auto.
  Qed.

  (** Decoding at a position of plain text. *)
  Lemma decode_plain E pos n cp : plain_text (e_input E) -> pos < inlen E ->
    decode_codepoint_len (from (e_input E) pos) (left E pos) 0%N = Ok (n, cp) -> (cp <= 0x7F)%N ->
    (n = 0 /\ cp = 0%N /\ ~ ascii_text (e_input E)) \/ (n = 1 /\ exists b, nth_error (e_input E) pos = Some b /\ bN b = cp).
  Proof.
    intros Hp Hl Hd Hc. destruct (Nat.eq_dec n 0) as [->|Hn].
    - left. unfold decode_codepoint_len in Hd.
      assert (Hle : left E pos <= List.length (from (e_input E) pos)).
      { unfold left, inlen, from. rewrite skipn_length. lia. }
      destruct (decode_safe _ _ Hle) as (r & Hr & _ & _ & Hb). rewrite Hr in Hd. cbn [bind] in Hd.
      destruct r as [[n1 cp1]|].
      + inv Hd. destruct (Hb 0 cp eq_refl). lia.
      + inv Hd. split; [reflexivity|split; [reflexivity|]]. intros Ha.
        destruct (nth_error (e_input E) pos) as [b|] eqn:Hb0.
        2:{ apply nth_error_None in Hb0. unfold inlen in Hl. lia. }
        pose proof (Ha b (nth_error_In _ _ Hb0)) as Hlow.
        unfold decode_codepoint in Hr.
        assert (Hpos : (0 <? left E pos) = true) by (apply Nat.ltb_lt; unfold left; lia).
        rewrite Hpos in Hr. unfold rd, from in Hr. rewrite nth_error_skipn in Hr.
        replace (pos + 0) with pos in Hr by lia. rewrite Hb0 in Hr. cbn [bind] in Hr.
        rewrite lead1 in Hr. replace (bN b <? 128)%N with true in Hr by (symmetry; apply N.ltb_lt; lia). discriminate.
    - right. pose proof (Hp pos n cp Hl Hd Hn Hc) as ->. split; [reflexivity|].
      destruct (nth_error (e_input E) pos) as [b|] eqn:Hb0.
      2:{ apply nth_error_None in Hb0. unfold inlen in Hl. lia. }
      exists b. split; [reflexivity|].
      unfold decode_codepoint_len, decode_codepoint in Hd.
      assert (Hpos : (0 <? left E pos) = true) by (apply Nat.ltb_lt; unfold left; lia).
      rewrite Hpos in Hd. unfold rd, from in Hd. rewrite nth_error_skipn in Hd.
      replace (pos + 0) with pos in Hd by lia. rewrite Hb0 in Hd. cbn [bind] in Hd.
      rewrite lead1 in Hd. destruct (bN b <? 128)%N eqn:Hb1.
      + inv Hd. reflexivity.
      + exfalso. repeat match type of Hd with
          | (let* _ := (if ?c then _ else _) in _) = _ => destruct c
          | (let* _ := (let* _ := ?e in _) in _) = _ => destruct e; cbn [bind] in Hd
          end; cbn [bind] in Hd; try discriminate; inv Hd; lia.
  Qed.

  Lemma begins_cls E rs neg ic pos vs x : plain_text (e_input E) ->
    ref_cls E rs neg ic pos vs = Some x -> fsound E (Cls rs neg ic) pos x.
  Proof.
    intros Hp H. destruct x as [[n vs']|]; [|exact I]. cbn [fsound]. right.
    destruct neg. { exists SAny. split; [apply st_cls_wide; auto|exact I]. }
    destruct (ascii_ranges rs) eqn:Ha. 2:{ exists SAny. split; [apply st_cls_wide; auto|exact I]. }
    unfold ref_cls in H. destruct (left E pos =? 0) eqn:Hl; [discriminate|]. apply Nat.eqb_neq in Hl.
    oinv H. destruct a as [len cp]. oinv H. apply out_of_Some in Hm, Hm0. rewrite xorb_false_r in H.
    destruct a; [|discriminate]. inv H.
    destruct (in_ranges_ascii _ _ _ Ha Hm0) as (Hc & lo & hi & Hin & Hz & Hf).
    assert (Hlt : pos < inlen E) by (unfold left in Hl; lia).
    destruct (decode_plain E pos n cp Hp Hlt Hm Hc) as [(-> & -> & Hna)|(-> & b & Hb & <-)].
    - exists (SOdd NulByte). split; [|exact Hna]. eapply st_cls_nul; [exact Hin|auto].
    - destruct ic.
      + destruct (case_found rs b) as [(lo' & hi' & b0 & A & B & C)|C].
        * exists (SByte b). split; [|exact Hb]. eapply st_cls; eauto. cbn. auto.
        * exists (SOdd Case). split; [|exact I]. eapply st_cls_case; eauto.
      + exists (SByte b). split; [|exact Hb]. eapply st_cls; eauto. reflexivity.
  Qed.
  Lemma begins_chr E ch pos vs x : plain_text (e_input E) ->
    ref_chr E ch pos vs = Some x -> fsound E (Chr ch) pos x.
  Proof.
    intros Hp H. destruct x as [[n vs']|]; [|exact I]. cbn [fsound]. right.
    destruct (N.le_gt_cases ch 0x7F) as [Hc|Hc]. 2:{ exists SAny. split; [apply st_chr_wide; auto|exact I]. }
    unfold ref_chr in H. destruct (left E pos =? 0) eqn:Hl; [discriminate|]. apply Nat.eqb_neq in Hl.
    oinv H. destruct a as [len cp]. apply out_of_Some in Hm.
    destruct (cp =? ch)%N eqn:He; [|discriminate]. apply N.eqb_eq in He as ->. inv H.
    assert (Hlt : pos < inlen E) by (unfold left in Hl; lia).
    destruct (decode_plain E pos n ch Hp Hlt Hm Hc) as [(-> & -> & Hna)|(-> & b & Hb & <-)].
    - exists (SOdd NulByte). split; [apply st_chr_nul|exact Hna].
    - exists (SByte b). split; [now apply st_chr|exact Hb].
  Qed.
  Lemma begins_then E rec m pos n vs x o :
    ref_then (V:=V) (U:=U) rec E m pos n vs = Some x -> begins E o pos n ->
    (may_be_empty (e_g E) o -> starts (e_g E) o (SOdd Gap)) -> fsound E o pos x.
  Proof.
    unfold ref_then, ref_skip. intros H Hb Hg. oinv H. destruct a as [[k vs']|]; inv H; [|exact I]. cbn [fsound].
    destruct Hb as [[-> He]|Hr]; [|now right].
    destruct (e_ws E) eqn:Hw.
    - right. exists (SOdd Gap). split; [auto|]. cbn. eauto.
    - inv Hm. left. auto.
  Qed.
  Lemma begins_lit E rec m s ic pos vs x :
    ref_lit (V:=V) (U:=U) rec E m s ic pos vs = Some x -> fsound E (Lit s ic) pos x.
  Proof.
    intros H. unfold ref_lit in H. oinv H. apply out_of_Some in Hm. destruct a; [|inv H; exact I].
    oinv H. destruct a; [|inv H; exact I]. destruct s as [|b0 s].
    - eapply begins_then; [exact H| |intros; apply st_lit_gap]. left. split; [reflexivity|apply me_lit].
    - unfold ref_then in H. oinv H. destruct a as [[k vs']|]; inv H; [|exact I]. cbn [fsound]. right.
      replace (if ic then to_lower (b0 :: s) else b0 :: s)
        with ((if ic then tolower b0 else b0) :: (if ic then to_lower s else s)) in Hm by (destruct ic; reflexivity).
      destruct (left E pos) as [|l]; cbn [lit_loop] in Hm; [discriminate|].
      binv Hm. unfold rd in Hm2. destruct (nth_error (e_input E) pos) as [b|] eqn:Hb; inv Hm2.
      destruct (beq (if ic then tolower a else a) (if ic then tolower b0 else b0)) eqn:He; [|discriminate].
      apply Byte.byte_dec_bl in He. exists (SByte a). split; [|exact Hb]. apply st_lit. unfold same_char. destruct ic; exact He.
  Qed.
  Lemma begins_dic E rec m t pos vs x :
    ref_dic (V:=V) (U:=U) rec E m t pos vs = Some x -> fsound E (Dic t) pos x.
  Proof.
    intros H. unfold ref_dic in H. destruct (trie_match t (from (e_input E) pos)) as [i id] eqn:Ht.
    destruct (i =? 0) eqn:Hi; [inv H; exact I|]. apply Nat.eqb_neq in Hi. oinv H. destruct a; [|inv H; exact I].
    unfold ref_then in H. oinv H. destruct a as [[k vs']|]; inv H; [|exact I]. cbn [fsound]. right.
    unfold trie_match in Ht. set (text := from (e_input E) pos) in *.
    set (limit := Nat.min (List.length text) (t_max_len t)) in *.
    cbn [trie_loop] in Ht. destruct (1 <=? limit) eqn:H1. 2:{ inv Ht. congruence. }
    apply Nat.leb_le in H1.
    assert (Hl : 1 <= List.length text) by (unfold limit in H1; lia).
    destruct (dfind _ (t_dic t)) as [it|] eqn:Hf. 2:{ inv Ht. congruence. }
    destruct (dfind_In _ _ _ Hf) as (k0 & Hin & ->).
    destruct text as [|b text'] eqn:Htx; [cbn in Hl; lia|].
    assert (Hb : nth_error (e_input E) pos = Some b).
    { assert (nth_error text 0 = Some b) as X by (rewrite Htx; reflexivity). unfold text, from in X.
      rewrite nth_error_skipn in X. replace (pos + 0) with pos in X by lia. exact X. }
    exists (SByte b). split; [|exact Hb].
    destruct (t_ignore_case t) eqn:Hic.
    - destruct limit as [|lim]; [lia|]. cbn in Hin. eapply st_dic; [exact Hin|]. rewrite Hic. cbn. now rewrite tolower_idem.
    - cbn in Hin. eapply st_dic; [exact Hin|]. rewrite Hic. reflexivity.
  Qed.

  (** Lists of expressions. *)
  Lemma begins_seq E run l : (forall o pos vs x, In o l -> run o pos vs = Some x -> fsound E o pos x) ->
    forall pos kg l0 i vs x, Forall (may_be_empty (e_g E)) l0 ->
    ref_seq run l pos i vs = Some x -> i = 0 \/ begins E (Seq kg (l0 ++ l)) pos i ->
    fsound E (Seq kg (l0 ++ l)) pos x.
  Proof.
    intros Hrun. induction l as [|o l IH]; intros pos kg l0 i vs x H0 H Hi; cbn [ref_seq] in H.
    - inv H. cbn [fsound]. destruct Hi as [->|Hi]; [|exact Hi]. left. split; [reflexivity|].
      apply me_seq. rewrite app_nil_r. exact H0.
    - oinv H. destruct a as [[n vs1]|]; [|inv H; exact I].
      assert (Hin : In o (o :: l)) by now left. pose proof (Hrun o (pos + i) vs _ Hin Hm) as Hb.
      destruct Hi as [->|Hi].
      + replace (pos + 0) with pos in * by lia. cbn [fsound] in Hb. destruct Hb as [[-> He]|(c & Hc & Hf)].
        * cbn [Nat.add] in H. replace (l0 ++ o :: l) with ((l0 ++ [o]) ++ l) in * by (rewrite <- app_assoc; reflexivity).
          apply (IH (fun o' p v y Hy => Hrun o' p v y (or_intror Hy)) pos kg (l0 ++ [o]) 0 vs1 x); auto.
          apply Forall_app. auto.
        * assert (Hbeg : forall j, begins E (Seq kg (l0 ++ o :: l)) pos j).
          { intros j. right. exists c. split; [now apply st_seq|exact Hf]. }
          clear IH. revert H Hrun. generalize (0 + n). intros j H Hrun.
          destruct x as [[k vsk]|]; [|exact I]. cbn [fsound]. apply Hbeg.
      + destruct Hi as [[-> He]|(c & Hc & Hf)].
        * (* the whole sequence may be empty *)
          replace (pos + 0) with pos in * by lia. cbn [fsound] in Hb.
          destruct Hb as [[-> He']|(c & Hc & Hf)].
          -- cbn [Nat.add] in H. replace (l0 ++ o :: l) with ((l0 ++ [o]) ++ l) in * by (rewrite <- app_assoc; reflexivity).
             apply (IH (fun o' p v y Hy => Hrun o' p v y (or_intror Hy)) pos kg (l0 ++ [o]) 0 vs1 x); auto.
             apply Forall_app. auto.
          -- destruct x as [[k vsk]|]; [|exact I]. cbn [fsound]. right. exists c. split; [now apply st_seq|exact Hf].
        * destruct x as [[k vsk]|]; [|exact I]. cbn [fsound]. right. exists c. auto.
  Qed.
  Lemma begins_cho E run fl fs total l : (forall o pos vs x, In o l -> run o pos vs = Some x -> fsound E o pos x) ->
    forall l0 id pos vs x, ref_cho run total l id pos vs = Some x -> fsound E (Cho fl fs (l0 ++ l)) pos x.
  Proof.
    induction l as [|o l IH]; intros Hrun l0 id pos vs x H; cbn [ref_cho] in H; [inv H; exact I|].
    oinv H. destruct a as [[n vs1]|].
    - inv H. cbn [fsound]. pose proof (Hrun o pos vs _ (or_introl eq_refl) Hm) as Hb. cbn [fsound] in Hb.
      assert (Hin : In o (l0 ++ o :: l)) by (apply in_or_app; right; now left).
      eapply begins_mono; [| |exact Hb]; intros; [eapply me_cho|eapply st_cho]; eauto.
    - replace (l0 ++ o :: l) with ((l0 ++ [o]) ++ l) by (rewrite <- app_assoc; reflexivity).
      eapply IH; [|exact H]. intros; eapply Hrun; [right|]; eauto.
  Qed.
  Section Rep.
    Variables (E : env) (e : ope) (run : nat -> sv -> option (rv V)).
    Hypothesis Hrun : forall pos vs x, run pos vs = Some x -> fsound E e pos x.
    Let st pos := exists c, starts (e_g E) e c /\ found E pos c.
    Lemma begins_min n : forall pos i vs j vs', i = 0 \/ st pos -> ref_min run n pos i vs = Some (Some (j, vs')) ->
      (j = 0 /\ (n = 0 \/ may_be_empty (e_g E) e)) \/ (j = i /\ n = 0) \/ st pos.
    Proof.
      induction n as [|n IH]; intros pos i vs j vs' Hi H; cbn [ref_min] in H.
      - inv H. auto.
      - oinv H. destruct a as [[k vs1]|]; [|discriminate]. destruct Hi as [->|Hi]; [|auto].
        replace (pos + 0) with pos in Hm by lia. pose proof (Hrun _ _ _ Hm) as [[-> He]|Hc]; [|auto].
        destruct (IH _ _ _ _ _ (or_introl eq_refl) H) as [[-> _]|[[-> ->]|Hs]]; auto.
    Qed.
    Lemma begins_more fuel : forall room pos i vs j vs', i = 0 \/ st pos ->
      ref_more fuel run room pos i vs = Some (Some (j, vs')) -> j = 0 \/ st pos.
    Proof.
      induction fuel as [|fuel IH]; intros room pos i vs j vs' Hi H.
      - cbn [ref_more] in H. destruct room as [[|?]|]; inv H. exact Hi.
      - cbn [ref_more] in H. destruct room as [[|x]|]; [inv H; exact Hi| |].
        all: oinv H; destruct a as [[k vs1]|]; [|inv H; exact Hi].
        all: destruct Hi as [->|Hi]; [|now right]; replace (pos + 0) with pos in Hm by lia.
        all: pose proof (Hrun _ _ _ Hm) as [[-> He]|Hc]; [|now right]; eapply IH; [|exact H]; now left.
    Qed.
    Lemma begins_rep fuel mn mx sp pos vs x : ref_rep fuel run mn mx pos vs = Some x -> fsound E (Rep e mn mx sp) pos x.
    Proof.
      intros H. destruct x as [[j vs']|]; [|exact I]. cbn [fsound]. unfold ref_rep in H. oinv H.
      destruct a as [[i vs1]|]; [|discriminate].
      assert (Hst : st pos -> begins E (Rep e mn mx sp) pos j).
      { intros (c & A & B). right. exists c. split; [now apply st_rep|exact B]. }
      assert (Hz : j = 0 -> (mn = 0 \/ may_be_empty (e_g E) e) -> begins E (Rep e mn mx sp) pos j).
      { intros -> [->|He]; left; (split; [reflexivity|]); [apply me_rep0|now apply me_rep]. }
      destruct (begins_min _ _ _ _ _ _ (or_introl eq_refl) Hm) as [[-> Hn]|[[-> Hn]|Hs]]; [| |auto].
      all: assert (Hj : j = 0 \/ st pos) by
        (destruct mx as [x|]; [destruct (mn <? x)|]; try (eapply begins_more; [|exact H]; now left); inv H; now left).
      all: destruct Hj as [Hj|Hj]; [apply Hz; tauto|auto].
    Qed.
  End Rep.

  Section Main.
    Variable E : env.
    Hypothesis Hplain : plain_text (e_input E).
    Definition rec_sound (rec : ref_t (V:=V) (U:=U)) : Prop := forall sd fr m o pos vs x,
      seed_sound E sd -> rec E sd fr m o pos vs = Some x -> fsound E o pos x.

    Lemma value_len r d b pos n chvs y : ref_value E r d b pos n chvs = Some y -> fst y = n.
    Proof.
      unfold ref_value. intros H. cbv zeta in H. destruct (e_pred E r) as [p|].
      - destruct (p _ _ _) as [[ok ?] ?]. destruct ok; inv H; reflexivity.
      - inv H; reflexivity.
    Qed.
    Lemma begins_once rec sd m r d b pos y : rec_sound rec -> seed_sound E sd -> rule_body (e_g E) r d b ->
      ref_once rec E sd m r d b pos = Some (Some y) -> begins E (Hld r) pos (fst y).
    Proof.
      intros Hrec Hsd Hr H. unfold ref_once in H. oinv H. destruct a as [[n chvs]|]; [|discriminate].
      pose proof (Hrec _ _ _ _ _ _ _ Hsd Hm) as Hb. cbn [fsound] in Hb.
      oinv H. destruct a as [[n' chvs']|]; [|discriminate]. inv H.
      match goal with X : ref_value _ _ _ _ _ _ _ = Some y |- _ => apply value_len in X; rewrite X end.
      assert (Hh : begins E (Hld r) pos n).
      { eapply begins_mono; [| |exact Hb]; intros; [eapply me_hld|eapply st_hld]; eauto. }
      destruct (r_no_whitespace d) eqn:Hnw.
      - unfold ref_then in Hm0. oinv Hm0. destruct a as [[k vsk]|]; inv Hm0.
        destruct Hb as [[-> He]|(c & Hc & Hf)].
        2:{ right. exists c. split; [eapply st_hld; eauto|exact Hf]. }
        unfold ref_skip in Hm1. destruct (e_ws E) eqn:Hw.
        + right. exists (SOdd Gap). split; [eapply st_hld_gap; eauto|]. cbn. eauto.
        + inv Hm1. exact Hh.
      - inv Hm0. exact Hh.
    Qed.
    Lemma begins_grow fuel once r pos : (forall s y, seed_sound E (Some (r, pos, s)) -> once s = Some (Some y) -> begins E (Hld r) pos (fst y)) ->
      forall len val y, begins E (Hld r) pos len -> ref_grow fuel once len val = Some (Some y) -> begins E (Hld r) pos (fst y).
    Proof.
      intros Honce. induction fuel as [|fuel IH]; intros len val y Hl H; [discriminate|]. cbn [ref_grow] in H.
      oinv H. destruct a as [[n v]|]; [|inv H; exact Hl]. destruct (n <=? len); [inv H; exact Hl|].
      eapply IH; [|exact H]. apply (Honce (Some (len, val)) (n, v)); [exact Hl|exact Hm].
    Qed.
    Lemma begins_rule fuel rec m r d b pos y : rec_sound rec -> rule_body (e_g E) r d b ->
      ref_rule fuel rec E m r d b pos = Some (Some y) -> begins E (Hld r) pos (fst y).
    Proof.
      intros Hrec Hr H. unfold ref_rule in H. destruct (r_lr d).
      - oinv H. destruct a as [[len val]|]; [|discriminate].
        assert (Ho : forall s y, seed_sound E (Some (r, pos, s)) ->
          ref_once rec E (Some (r, pos, s)) m r d b pos = Some (Some y) -> begins E (Hld r) pos (fst y))
          by (intros; eapply begins_once; eauto).
        eapply begins_grow; [exact Ho| |exact H]. apply (Ho None (len, val)); [exact I|exact Hm].
      - eapply begins_once; eauto. exact I.
    Qed.
    Lemma begins_core fuel rec sd fr m o pos vs x : rec_sound rec -> seed_sound E sd ->
      ref_core fuel rec E sd fr m o pos vs = Some x -> fsound E o pos x.
    Proof.
      intros Hrec Hsd H.
      assert (Hun : forall o', (forall y, rec E sd fr m o' pos vs = Some y -> fsound E o' pos y)) by (intros; eapply Hrec; eauto).
      destruct o; cbn [ref_core] in H; try discriminate.
      - eapply (begins_seq E (rec E sd fr m) l) with (l0 := []); [|constructor|exact H|now left]. intros; eapply Hrec; eauto.
      - eapply (begins_cho E (rec E sd fr m)) with (l0 := []); [|exact H]. intros; eapply Hrec; eauto.
      - eapply begins_rep; [|exact H]. intros; eapply Hrec; eauto.
      - oinv H. inv H. destruct a; [|exact I]. left. split; [reflexivity|apply me_and].
      - oinv H. inv H. destruct a; [exact I|]. left. split; [reflexivity|apply me_not].
      - eapply begins_dic; eauto.
      - eapply begins_lit; eauto.
      - eapply begins_cls; eauto.
      - eapply begins_chr; eauto.
      - destruct x as [[n vs']|]; [|exact I]. right. exists SAny. split; [apply st_dot|exact I].
      - pose proof (Hun _ _ H) as Hb. destruct x as [[n vs']|]; [|exact I]. cbn [fsound] in *.
        eapply begins_mono; [| |exact Hb]; intros; [apply me_csc|apply st_csc]; auto.
      - pose proof (Hun _ _ H) as Hb. destruct x as [[n vs']|]; [|exact I]. cbn [fsound] in *.
        eapply begins_mono; [| |exact Hb]; intros; [apply me_cap|apply st_cap]; auto.
      - oinv H. pose proof (Hrec _ _ _ _ _ _ _ Hsd Hm) as Hb. destruct a as [[n vs1]|]; [|inv H; exact I]. cbn [fsound] in Hb.
        eapply begins_then; [exact H| |].
        + eapply begins_mono; [| |exact Hb]; intros; [apply me_tok|apply st_tok]; auto.
        + intros Ht. inv Ht. now apply st_tok_gap.
      - oinv H. pose proof (Hrec _ _ _ _ _ _ _ Hsd Hm) as Hb. destruct a as [[n vs1]|]; [|inv H; exact I]. inv H. cbn [fsound] in *.
        eapply begins_mono; [| |exact Hb]; intros; [apply me_ign|apply st_ign]; auto.
      - pose proof (Hun _ _ H) as Hb. destruct x as [[n vs']|]; [|exact I]. cbn [fsound] in *.
        eapply begins_mono; [| |exact Hb]; intros X.
        + inv X. eapply me_wkh; eauto.
        + intros Hc. inv Hc; [eapply st_wkh; eauto|eapply st_wkh_gap; eauto].
      - unfold ref_hld in H. oinv H. destruct a as [d b]. apply get_body_rule in Hm. destruct (r_is_macro d).
        + destruct (r_lr d); [discriminate|]. pose proof (Hrec _ _ _ _ _ _ _ Hsd H) as Hb.
          destruct x as [[n vs']|]; [|exact I]. cbn [fsound] in *.
          eapply begins_mono; [| |exact Hb]; intros; [eapply me_hld|eapply st_hld]; eauto.
        + oinv H. inv H. destruct a as [[n val]|]; [|exact I]. cbn [fsound].
          destruct sd as [[[r0 p0] s]|].
          * destruct ((r0 =? r) && (p0 =? pos)) eqn:He.
            -- apply andb_prop in He as [H1 H2]. apply Nat.eqb_eq in H1 as ->. apply Nat.eqb_eq in H2 as ->.
               inv Hm0. cbn in Hsd. exact Hsd.
            -- apply (begins_rule _ _ _ _ _ _ _ (n, val) Hrec Hm Hm0).
          * apply (begins_rule _ _ _ _ _ _ _ (n, val) Hrec Hm Hm0).
      - unfold ref_reference in H. destruct rule as [r|].
        + oinv H. assert (Hb : fsound E (Hld r) pos x).
          { destruct (r_is_macro a); [oinv H; destruct (r_lr a); [discriminate|]|]; eapply Hrec; eauto. }
          destruct x as [[n vs']|]; [|exact I]. cbn [fsound] in *.
          eapply begins_mono; [| |exact Hb]; intros X.
          * inv X. eapply me_ref; eauto.
          * intros Hc. inv Hc; [eapply st_ref; eauto|eapply st_ref_gap; eauto].
        + destruct x as [[n vs']|]; [|exact I]. right. exists SAny. split; [apply st_param|exact I].
      - destruct (m_ws m).
        + inv H. right. exists (SOdd Nested). split; [apply st_wsp_gap|exact I].
        + pose proof (Hrec _ _ _ _ _ _ _ Hsd H) as Hb. destruct x as [[n vs']|]; [|exact I]. cbn [fsound] in *.
          eapply begins_mono; [| |exact Hb]; intros; [apply me_wsp|apply st_wsp]; auto.
      - unfold ref_pre in H. oinv H. pose proof (Hun _ _ Hm) as Hb. destruct a as [[la va]|]; [|inv H; exact I].
        destruct x as [[n vs']|]; [|exact I]. cbn [fsound] in *. destruct Hb as [[_ Hb]|(c & Hc & Hf)].
        + right. exists (SOdd Operand). split; [now apply st_pre_gap|exact I].
        + right. exists c. split; [now apply st_pre|exact Hf].
    Qed.
    Theorem ref_begins k : forall sd fr m o pos vs x, seed_sound E sd ->
      ref k E sd fr m o pos vs = Some x -> fsound E o pos x.
    Proof.
      induction k as [|k IH]; intros sd fr m o pos vs x Hsd H; [discriminate|]. cbn [ref] in H.
      eapply begins_core; [|exact Hsd|exact H]. exact IH.
    Qed.
    Lemma seed_ok_sound sd : seed_ok E sd -> seed_sound E sd.
    Proof.
      induction 1 as [|r p d b Hb Hl Hm|r p s s' d b k m Hs IH Hb Ho]; [exact I|exact I|].
      destruct s' as [[n v]|]; [|exact I]. cbn.
      apply (begins_once (ref k) (Some (r, p, s)) m r d b p (n, v)); auto.
      - intros sd' fr m' o pos vs x. apply ref_begins.
      - now apply get_body_rule.
    Qed.
  End Main.
End FirstSem.
