(** * Reading grammar texts: literals, dictionaries, classes. *)
From Verif Require Import Base BaseLemmas Utf8 Utf8Spec Utf8Proofs Escape EscapeSpec EscapeProofs TrieM TrieSpec LineInfo Ope Ctx ErrLog Engine EngineLemmas Scope Bounds EngineFacts Top
  RefSem RefMono Refine RefineOps PegRef PrecSpec PrecM LoadM MetaM Run MetaRun MetaJudge MetaDies NotationSpec MetaLex MetaHead MetaChars.

Lemma chars_items l : chars_text l = List.concat (map source (flat_map char_items l)).
Proof. induction l as [|c l IH]; [reflexivity|]. unfold chars_text in *. cbn [map List.concat flat_map]. rewrite map_app, concat_app, IH. reflexivity. Qed.
Lemma char_wf c : char_ok c -> forallb wf_item (char_items c) = true.
Proof.
  destruct c as [c|i]; cbn [char_ok char_items].
  - intros [Hs H92]. assert (H : forall b, In b (utf8_bytes c) -> b <> backslash).
    { intros b Hb ->. destruct (utf8_chr c Hs) as [_ Hx]. apply (in_map bN) in Hb. rewrite Hx in Hb. unfold rfc3629 in Hb. change (bN backslash) with 92%N in Hb.
      revert Hb. destruct (N.leb_spec c 127); [intros [Hb|[]]; congruence|].
      assert (Hm : forall q, (q mod 64 < 64)%N) by (intro q; apply N.mod_lt; lia).
      repeat destruct (_ <=? _)%N; cbn [In]; intros Hb; decompose [or] Hb; try contradiction; lia. }
    induction (utf8_bytes c) as [|b l IH]; [reflexivity|]. cbn [map forallb wf_item]. rewrite IH by (intros; apply H; now right). rewrite andb_true_r. apply negb_true_iff.
    destruct (Byte.eqb b backslash) eqn:X; [|reflexivity]. apply Byte.byte_dec_bl in X. exfalso. exact (H b (or_introl eq_refl) X).
  - intros H. cbn [forallb]. rewrite andb_true_r. destruct i as [b|e|ds|ds|ds]; try exact H; [contradiction|..].
    + destruct ds as [|? [|? [|? [|? [|? [|? [|? ?]]]]]]]; try exact H. apply H.
    + destruct ds as [|? [|? [|? [|? ?]]]]; try exact H. apply H.
Qed.
Lemma plain_sep l rest : separated (map Plain l ++ rest) = separated rest.
Proof. induction l as [|b l IH]; [reflexivity|]. cbn [map app separated]. rewrite IH. unfold ends_before. now destruct (List.concat _). Qed.
Lemma char_resolved c : char_ok c -> resolved (char_text c) = Some (char_mean c).
Proof.
  intros H. unfold resolved, char_text, char_mean. rewrite (resolves_fun _ _ (resolves_items (char_items c) (char_wf c H) ltac:(destruct c as [c|i];
    [cbn [char_items]; rewrite <- (app_nil_r (map Plain _)), plain_sep; reflexivity|reflexivity]))). reflexivity.
Qed.
Lemma chars_resolved l : chars_ok l -> resolved (chars_text l) = Some (chars_mean l).
Proof.
  intros [H1 H2]. unfold resolved. rewrite chars_items, (resolves_fun _ _ (resolves_items (flat_map char_items l) ltac:(clear H2; induction H1 as [|c l Hc _ IH]; [reflexivity|];
    cbn [flat_map]; rewrite forallb_app, (char_wf c Hc); exact IH) H2)). reflexivity.
Qed.
Lemma ends_quote i x q r : quote q -> ends_before i x = true -> ends_before i (x ++ q :: r) = true.
Proof. intros Hq H. destruct x as [|b x]; [|exact H]. cbn [app ends_before]. destruct Hq as [-> | ->]; destruct i; reflexivity. Qed.
Lemma sep_head c l q r : char_ok c -> separated (flat_map char_items (c :: l)) = true -> quote q -> separates c (chars_text l ++ q :: r) /\ separated (flat_map char_items l) = true.
Proof.
  intros Hc H Hq. cbn [flat_map] in H. destruct c as [c|i]; cbn [char_items] in H.
  - rewrite plain_sep in H. split; [exact I|exact H].
  - cbn [app separated] in H. apply andb_true_iff in H as [H1 H2]. split; [|exact H2]. right. rewrite chars_items. now apply ends_quote.
Qed.
Lemma char_first c : char_ok c -> exists b t, char_text c = b :: t /\ (b = bsl \/ exists k, c = Letter k /\ ((k < 128)%N /\ bN b = k \/ (128 <= k)%N /\ (128 <= bN b)%N)).
Proof.
  destruct c as [k|i]; cbn [char_ok].
  - intros [Hs _]. destruct (chr_head _ _ (utf8_chr k Hs)) as (b & y & Hy & Hb). unfold char_text. cbn [char_items]. rewrite map_map, Hy. cbn [map List.concat source app]. exists b. eexists. split; [reflexivity|].
    right. exists k. split; [reflexivity|]. destruct Hb as [(A & B & _)|[A B]]; auto.
  - intros H. unfold char_text. cbn [char_items map List.concat]. destruct i as [b|e|ds|ds|ds]; [contradiction|..]; cbn [source app]; eexists; eexists; (split; [reflexivity|left; reflexivity]).
Qed.

Section Lits.
  Variables (g : grammar) (log : bool) (text : bytes).
  Notation E := (mk_env (meta_parser g log) text).
  Notation run := (run E meta_rules).
  Notation Reads := (Reads g log text).
  Notation ReadsS := (ReadsS g log text).
  Notation ReadsM := (ReadsM g log text).
  Notation Fails := (Fails g log text).
  Notation FailsS := (FailsS g log text).

  Lemma reads_char c r : char_ok c -> separates c r -> Reads (nt SChar) (char_text c) r None [Some (VStr (char_mean c))] [] keepd.
  Proof.
    intros H1 H2. destruct (reads_char_body g log text c r H1 H2) as [C HC]. pose proof (reads_nt g log text SChar _ r C [] [] keepd (Some (VStr (char_mean c))) keepd eq_refl HC) as X. apply X.
    intros vs d [_ _ S3 _]. unfold acts, run_action, value_of. cbn [has_action effect_of]. unfold tt in S3. rewrite S3, (char_resolved c H1). reflexivity.
  Qed.

  (** ** Quoted texts *)
  Definition qchar (q : byte) : ope := seq [npd (cls [q]); nt SChar].
  Lemma reads_q q r : quote q -> Reads (cls [q]) [q] r None [] [] keepd.
  Proof. intros [-> | ->]; (eapply reads_cls_b; reflexivity). Qed.
  Lemma fails_q q s : quote q -> ~ next_is q s -> Fails (cls [q]) s.
  Proof.
    intros Hq H. apply (fails_but g log text [q]); [destruct Hq as [-> | ->]; vm_compute; reflexivity|]. intros b [<- |[]]. exact H.
  Qed.
  Lemma char_not_q q c t : quote q -> char_ok c -> c <> Letter (bN q) -> ~ next_is q (char_text c ++ t).
  Proof.
    intros Hq Hc Hn X. destruct (char_first c Hc) as (b & y & Hy & Hb). rewrite Hy in X. injection X as ->. destruct Hb as [-> |(k & -> & [[_ <-]|[_ Hb]])].
    - destruct Hq; discriminate.
    - congruence.
    - destruct Hq as [-> | ->]; cbn in Hb; lia.
  Qed.
  Lemma chars_more q : quote q -> forall l r, Forall char_ok l -> separated (flat_map char_items l) = true -> ~ In (Letter (bN q)) l ->
    exists L, ReadsM (qchar q) None (chars_text l) (q :: r) L [] keepd.
  Proof.
    intros Hq. induction l as [|c l IH]; intros r H1 H2 H3.
    - exists []. apply rm_nil. apply fails_seq. apply fs_head. apply (fails_not g log text _ [q] r None [] [] keepd); [now apply reads_q|reflexivity].
    - inversion H1 as [|? ? Hc H4]; subst. destruct (sep_head c l q r Hc H2 Hq) as [S1 S2]. destruct (IH r H4 S2) as [L HL]; [intros X; apply H3; now right|].
      eexists. eapply rm_eq1; [eapply rm_c; [discriminate|apply reads_seq; eapply rs_c; [apply (reads_not g log text (cls [q]) (char_text c ++ chars_text l ++ q :: r))|eapply rs_c;
        [eapply (reads_char c (chars_text l ++ q :: r)); assumption|apply (rs_nil g log text (chars_text l ++ q :: r))|nrm]|nrm]|exact HL|nrm]|try nrm; reflexivity..].
      apply fails_q; [exact Hq|]. apply char_not_q; [exact Hq|exact Hc|]. intros ->. apply H3. now left.
  Qed.
  Definition close_of (ic : bool) (q : byte) : ope := if ic then lit [q; x69] else cls [q].
  Lemma lit_ope_is ic : lit_ope (close_of ic sq) (close_of ic dq) = cho (map (fun q => seq [cls [q]; tok (zom (qchar q)); close_of ic q; nt SSpacing]) [sq; dq]).
  Proof. reflexivity. Qed.
  Lemma reads_close ic q r : quote q -> Reads (close_of ic q) (q :: ic_text ic) r None [] [] keepd.
  Proof.
    intros Hq. destruct ic; [|now apply reads_q]. apply (reads_lit g log text [q; x69] r). apply valid2; [|reflexivity]. destruct Hq as [-> | ->]; reflexivity.
  Qed.
  Lemma reads_quotes ic q l s r : in_quotes q l -> spacing s r -> exists C L, Reads (lit_ope (close_of ic sq) (close_of ic dq)) (q :: chars_text l ++ q :: ic_text ic ++ s) r C L [chars_text l] keepd.
  Proof.
    intros (Hq & (H1 & H2) & H3) Hs. destruct (chars_more q Hq l (ic_text ic ++ s ++ r) H1 H2 H3) as [L HL].
    assert (HR : Reads (seq [cls [q]; tok (zom (qchar q)); close_of ic q; nt SSpacing]) (q :: chars_text l ++ q :: ic_text ic ++ s) r None L [chars_text l] keepd).
    { eapply reads_eq1; [apply reads_seq; eapply rs_c; [apply (reads_q q (chars_text l ++ q :: ic_text ic ++ s ++ r) Hq)|eapply rs_c; [eapply reads_tok; apply reads_zom; exact HL|
        eapply rs_c; [apply (reads_close ic q (s ++ r) Hq)|eapply rs_c; [eapply reads_spacing; exact Hs|apply rs_nil|nrm]|nrm]|nrm]|nrm]|nrm..]. }
    rewrite lit_ope_is. destruct Hq as [-> | ->].
    - eexists. exists L. apply reads_cho. eapply rc_here. exact HR.
    - eexists. exists L. apply reads_cho. apply rc_next; [|eapply rc_here; exact HR]. apply fails_seq, fs_head. apply fails_q; [now left|discriminate].
  Qed.
  Lemma fails_quotes q l t : in_quotes q l -> ~ next_is x69 t -> Fails (lit_ope (close_of true sq) (close_of true dq)) (q :: chars_text l ++ q :: t).
  Proof.
    intros (Hq & (H1 & H2) & H3) Ht. destruct (chars_more q Hq l t H1 H2 H3) as [L HL].
    assert (HF : Fails (seq [cls [q]; tok (zom (qchar q)); close_of true q; nt SSpacing]) (q :: chars_text l ++ q :: t)).
    { apply fails_seq. eapply fs_c; [apply (reads_q q (chars_text l ++ q :: t) Hq)|reflexivity| |reflexivity]. eapply fs_c; [eapply reads_tok; apply reads_zom; exact HL|reflexivity| |reflexivity].
      apply fs_head. apply fails_lit. intros t' X. injection X as ->. now apply Ht. }
    rewrite lit_ope_is. apply fails_cho. destruct Hq as [-> | ->].
    - apply fc_cons; [exact HF|]. apply fc_cons; [|apply fc_nil]. apply fails_seq, fs_head. apply fails_q; [now right|discriminate].
    - apply fc_cons; [apply fails_seq, fs_head; apply fails_q; [now left|discriminate]|]. apply fc_cons; [exact HF|apply fc_nil].
  Qed.
  Lemma front_tok vs t : map (tt text) (v_toks vs) = [t] -> front_token text vs = Some t.
  Proof. unfold front_token. destruct (v_toks vs) as [|a l]; intros H; [discriminate|]. injection H as H _. now f_equal. Qed.
  Lemma reads_quoted_s (s : sym) (v : bytes -> mval) ic w m r : sym_body s = lit_ope (close_of ic sq) (close_of ic dq) -> quiet s = true -> sym_ignored s = false ->
    (forall vs d t b, front_token text vs = Some t -> resolved t = Some b -> acts text s vs d = (Some (v b), d)) -> quoted ic w m r -> Reads (nt s) w r None [Some (v m)] [] keepd.
  Proof.
    intros Hb Hq Hi Hv H. destruct H as [q l s0 r Hin _ Hs]. destruct (reads_quotes ic q l s0 r Hin Hs) as (C & L & HR). rewrite <- Hb in HR.
    pose proof (reads_nt g log text s _ r C L [chars_text l] keepd (Some (v (chars_mean l))) keepd Hq HR) as X. rewrite Hi in X. apply X.
    intros vs d [_ S2 _ _]. eapply Hv; [apply front_tok; exact S2|]. apply chars_resolved. apply Hin.
  Qed.
  Lemma reads_literal ic w m r : quoted ic w m r -> Reads (nt (if ic then SLiteralI else SLiteral)) w r None [Some (VOpe (Lit m ic))] [] keepd.
  Proof.
    intros H. apply (reads_quoted_s _ (fun m => VOpe (Lit m ic)) ic); [destruct ic; reflexivity..| |exact H].
    intros vs d t b H1 H2. destruct ic; unfold acts, run_action, value_of; cbn [has_action effect_of]; rewrite H1; cbn [obind]; rewrite H2; reflexivity.
  Qed.
  Lemma reads_literal_d ic w m r : quoted ic w m r -> Reads (nt (if ic then SLiteralID else SLiteralD)) w r None [Some (VStr m)] [] keepd.
  Proof.
    intros H. apply (reads_quoted_s _ (fun m => VStr m) ic); [destruct ic; reflexivity..| |exact H].
    intros vs d t b H1 H2. destruct ic; unfold acts, run_action, value_of; cbn [has_action effect_of]; rewrite H1; cbn [obind]; rewrite H2; reflexivity.
  Qed.
  Lemma fails_literal_i w m r s : quoted false w m r -> sym_body s = lit_ope (close_of true sq) (close_of true dq) -> quiet s = true -> Fails (nt s) (w ++ r).
  Proof.
    intros [q l s0 r' Hin Hi Hs] Hb Hq. apply fails_nt; [exact Hq|]. rewrite Hb. replace ((q :: chars_text l ++ q :: ic_text false ++ s0) ++ r') with (q :: chars_text l ++ q :: (s0 ++ r')) by nrm.
    apply fails_quotes; [exact Hin|]. now apply Hi.
  Qed.

  (** ** Dictionaries *)
  Definition lit_d (ic : bool) : ope := nt (if ic then SLiteralID else SLiteralD).
  Definition bar_lit (ic : bool) : ope := seq [nt SPIPE; lit_d ic].
  Lemma fails_bar ic r : ~ next_is bar r -> Fails (bar_lit ic) r.
  Proof. intros H. apply (fails_but g log text [bar]); [destruct ic; vm_compute; reflexivity|]. intros b [<- |[]]. exact H. Qed.
  Lemma bars_split ic w ms r : bars ic w ms r -> exists w1 m w2 ms', w = w1 ++ w2 /\ ms = m :: ms' /\ quoted ic w1 m (w2 ++ r) /\ ReadsM (bar_lit ic) None w2 r (map vstr ms') [] keepd.
  Proof.
    induction 1 as [w m r H1 H2|w m s w' l r H1 H2 H3 IH].
    - exists w, m, [], []. split; [now rewrite app_nil_r|]. split; [reflexivity|]. split; [exact H1|]. apply rm_nil; now apply fails_bar.
    - destruct IH as (w1 & m' & w2 & ms' & -> & -> & A & B). exists w, m, (bar :: s ++ w1 ++ w2), (m' :: ms'). split; [reflexivity|]. split; [reflexivity|].
      split; [revert H1; nrm; auto|].
      eapply rm_eq1; [eapply rm_c; [discriminate|apply reads_seq; eapply rs_c; [apply (reads_punct g log text SPIPE bar s (w1 ++ w2 ++ r)); try reflexivity; revert H2; nrm; auto|
        eapply rs_c; [apply (reads_literal_d ic w1 m' (w2 ++ r) A)|apply (rs_nil g log text (w2 ++ r))|nrm]|nrm]|exact B|nrm]|nrm..].
  Qed.
  Definition dict_s (ic : bool) : sym := if ic then SDictionaryI else SDictionary.
  Lemma dict_body ic : sym_body (dict_s ic) = seq [lit_d ic; oom (bar_lit ic)]. Proof. destruct ic; reflexivity. Qed.
  Lemma reads_dictionary ic w ms r : bars ic w ms r -> 2 <= List.length ms -> Reads (nt (dict_s ic)) w r None [Some (VOpe (Dic (make_trie ms ic)))] [] keepd.
  Proof.
    intros H Hl. destruct H as [w m r H1 H2|w m s w' l r H1 H2 H3]; [cbn in Hl; lia|]. destruct (bars_split ic w' l r H3) as (w1 & m' & w2 & ms' & -> & -> & A & B).
    assert (HR : Reads (sym_body (dict_s ic)) (w ++ bar :: s ++ w1 ++ w2) r None (map vstr (m :: m' :: ms')) [] keepd).
    { rewrite dict_body. eapply reads_eq1; [apply reads_seq; eapply rs_c; [apply (reads_literal_d ic w m _ H1)|eapply rs_c; [eapply reads_oom; [apply reads_seq; eapply rs_c;
        [apply (reads_punct g log text SPIPE bar s (w1 ++ w2 ++ r)); try reflexivity; revert H2; nrm; auto|eapply rs_c; [apply (reads_literal_d ic w1 m' (w2 ++ r) A)|apply (rs_nil g log text (w2 ++ r))|nrm]|nrm]|exact B]
        |apply rs_nil|nrm]|nrm]|nrm..]. }
    pose proof (reads_nt g log text (dict_s ic) _ r None _ [] keepd (Some (VOpe (Dic (make_trie (m :: m' :: ms') ic)))) keepd ltac:(destruct ic; reflexivity) HR) as X.
    replace (sym_ignored (dict_s ic)) with false in X by (destruct ic; reflexivity). apply X.
    intros vs d [S1 _ _ _]. destruct ic; unfold dict_s; unfold acts, run_action, value_of, dic; cbn [has_action effect_of]; rewrite S1, all_strs; reflexivity.
  Qed.
  Lemma fails_dict_i w m r : quoted false w m r -> Fails (nt SDictionaryI) (w ++ r).
  Proof. intros H. apply fails_nt; [reflexivity|]. apply fails_seq, fs_head. eapply (fails_literal_i w m r SLiteralID H); reflexivity. Qed.
  Lemma fails_dict ic w m r : quoted ic w m r -> ~ next_is bar r -> Fails (nt (dict_s ic)) (w ++ r).
  Proof.
    intros H Hb. apply fails_nt; [destruct ic; reflexivity|]. rewrite dict_body. apply fails_seq. eapply fs_c; [apply (reads_literal_d ic w m r H)|reflexivity| |reflexivity].
    apply fs_head. apply (fails_rep1 g log text _ 0 None). now apply fails_bar.
  Qed.

  (** ** Classes *)
  Definition member : ope := seq [npd (chr x5d); nt SRange].
  Lemma code_of c : char_ok c -> scalar (code c) -> code_point (char_mean c) = Some (code c).
  Proof.
    intros Hc Hs. assert (Hm : char_mean c = utf8_bytes (code c)).
    { destruct c as [k|i]; unfold char_mean; cbn [char_items code].
      - rewrite map_map. cbn [denotes]. induction (utf8_bytes k) as [|b l IH]; [reflexivity|]. cbn [map List.concat app]. now rewrite IH.
      - cbn [map List.concat]. rewrite app_nil_r. destruct i as [b|e|ds|ds|ds]; cbn [denotes]; try reflexivity; [contradiction|]. cbn [char_ok wf_item] in Hc.
        destruct e; try discriminate Hc; reflexivity. }
    rewrite Hm. unfold code_point, decode_codepoint_cp, decode_codepoint_len. rewrite <- utf8_bytes_encode. destruct (encode_decode (code c) [] (List.length (encode_codepoint (code c))) Hs (le_n _)) as [D _].
    rewrite app_nil_r in D. rewrite D. reflexivity.
  Qed.
  Lemma range_acts vs d v : range_value vs = Some (Made v) -> acts text SRange vs d = (Some v, d).
  Proof. intros H. unfold acts, run_action. cbn [has_action]. rewrite H. reflexivity. Qed.
  Lemma reads_range j w r L v : Reads (sym_body SRange) w r (Some j) L [] keepd ->
    (forall vs, v_vals vs = L -> v_ch vs = j -> range_value vs = Some (Made v)) -> Reads (nt SRange) w r None [Some v] [] keepd.
  Proof.
    intros HR Hv. pose proof (reads_nt g log text SRange w r (Some j) L [] keepd (Some v) keepd eq_refl HR) as X. apply X.
    intros vs d [S1 _ _ S4]. apply range_acts. apply Hv; [exact S1|]. exact (S4 eq_refl j eq_refl).
  Qed.
  Lemma char_not b c t : char_ok c -> (bN b < 128)%N -> b <> bsl -> c <> Letter (bN b) -> ~ next_is b (char_text c ++ t).
  Proof.
    intros Hc Hb Hn H X. destruct (char_first c Hc) as (b' & y & Hy & Hb'). rewrite Hy in X. injection X as ->. destruct Hb' as [-> |(k & -> & [[_ <-]|[_ Hb']])]; try congruence. lia.
  Qed.
  Lemma char_valid c r : char_ok c -> separates c r -> valid_utf8 (char_text c).
  Proof. intros H1 H2. eapply reads_valid. exact (reads_char c r H1 H2). Qed.
  Lemma fails_class_escape_char c t : char_ok c -> Fails (nt SClassEscape) (char_text c ++ t).
  Proof.
    intros Hc. apply fails_nt; [reflexivity|]. apply fails_seq. change (cls (bs "dDwWsS")) with (Cls [(100,100);(68,68);(119,119);(87,87);(115,115);(83,83)]%N false false).
    destruct c as [k|i].
    - destruct (char_first _ Hc) as (b & y & Hy & Hb). apply fs_head. apply fails_chr; [reflexivity|]. rewrite Hy. intros X. injection X as ->. destruct Hc as [Hs H92].
      destruct Hb as [Hb|(k' & X & Hb)].
      + (* the first byte of a letter is no backslash *)
        destruct (chr_head _ _ (utf8_chr k Hs)) as (b' & y' & Hy' & Hb'). unfold char_text in Hy. cbn [char_items] in Hy. rewrite map_map, Hy' in Hy. cbn [map List.concat source app] in Hy. injection Hy as -> _.
        destruct Hb' as [(_ & H1 & _)|[_ H1]]; [apply H92; rewrite <- H1; reflexivity|cbn in H1; lia].
      + injection X as <-. destruct Hb as [[_ Hb]|[_ Hb]]; [apply H92; rewrite <- Hb; reflexivity|cbn in Hb; lia].
    - assert (Hb : exists e y, char_text (Escaped i) = bsl :: e :: y /\ in_cls [(100,100);(68,68);(119,119);(87,87);(115,115);(83,83)]%N (bN e) = false).
      { unfold char_text. cbn [char_items map List.concat]. destruct i as [b|e|ds|ds|ds]; [contradiction|..]; cbn [source app].
        - exists e. eexists. split; [reflexivity|]. cbn in Hc. destruct e; try discriminate Hc; reflexivity.
        - eexists. eexists. split; [reflexivity|reflexivity].
        - eexists. eexists. split; [reflexivity|reflexivity].
        - assert (Hw : wf_item (Oct ds) = true) by (destruct ds as [|? [|? [|? [|? ?]]]]; cbn in Hc |- *; try exact Hc; apply Hc). cbn [wf_item] in Hw.
          destruct ds as [|d ds]; [discriminate Hw|]. cbn [forallb] in Hw. exists d. eexists. split; [reflexivity|]. destruct d; try reflexivity; discriminate Hw. }
      destruct Hb as (e & y & -> & He). cbn [app]. apply bsl_then. apply fs_head. now apply fails_cls_e.
  Qed.
  Lemma fails_posix s : (forall t, s <> [x5b; x3a] ++ t) -> Fails (nt SPosixClass) s.
  Proof. intros H. apply fails_nt; [reflexivity|]. apply fails_seq, fs_head. now apply fails_lit. Qed.
  Lemma fails_dash c w t : char_ok c -> separates c t -> w = char_text c -> (~ next_is x2d t \/ exists t', t = x2d :: x5d :: t') ->
    Fails (seq [nt SChar; chr x2d; npd (chr x5d); nt SChar]) (w ++ t).
  Proof.
    intros Hc Hs -> Ht. apply fails_seq. eapply fs_c; [apply (reads_char c t Hc Hs)|reflexivity| |reflexivity]. destruct Ht as [Ht|(t' & ->)].
    - apply fs_head. apply fails_chr; [reflexivity|exact Ht].
    - eapply (fs_c g log text _ _ [x2d]); [apply reads_chr; reflexivity|reflexivity| |reflexivity]. apply fs_head.
      apply (fails_not g log text (chr x5d) [x5d] t' None [] [] keepd); [apply reads_chr; reflexivity|reflexivity].
  Qed.
  Lemma sep_dash c t : separates c (x2d :: t). Proof. destruct c as [|i]; [exact I|right; destruct i; reflexivity]. Qed.
  Lemma reads_r_char c r : single c -> separates c r -> (~ next_is x2d r \/ exists t, r = x2d :: x5d :: t) -> Reads (nt SRange) (char_text c) r None [Some (VRange (code c, code c))] [] keepd.
  Proof.
    intros (H1 & H2 & H3 & H4) Hs Ht. eapply reads_range.
    - apply reads_cho. apply rc_next; [now apply (fails_dash c)|]. apply rc_next; [now apply fails_class_escape_char|]. apply rc_next; [|eapply rc_here; now apply reads_char].
      apply fails_posix. intros t X. apply (char_not x5b c r H1); [reflexivity|discriminate|exact H4|]. rewrite X. reflexivity.
    - intros vs V1 V2. unfold range_value. rewrite V1, V2. cbn [val_at nth_error as_str obind]. rewrite (code_of c H1 H2). reflexivity.
  Qed.
  Lemma reads_r_range a b r : single a -> single b -> (code a <= code b)%N -> separates b r -> Reads (nt SRange) (char_text a ++ x2d :: char_text b) r None [Some (VRange (code a, code b))] [] keepd.
  Proof.
    intros (A1 & A2 & A3 & A4) (B1 & B2 & B3 & B4) Hle Hs. eapply reads_range.
    - apply reads_cho. eapply rc_here. eapply reads_eq1; [apply reads_seq; eapply rs_c; [apply (reads_char a (x2d :: char_text b ++ r) A1); apply sep_dash|eapply rs_c; [apply (reads_chr g log text x2d (char_text b ++ r)); reflexivity|
        eapply rs_c; [apply (reads_not g log text (chr x5d) (char_text b ++ r)); apply fails_chr; [reflexivity|]; apply char_not; [exact B1|reflexivity|discriminate|exact B3]|eapply rs_c; [apply (reads_char b r B1 Hs)|apply rs_nil|nrm]|nrm]|nrm]|nrm]|nrm..].
    - intros vs V1 V2. unfold range_value. rewrite V1, V2. cbn [app val_at nth_error as_str obind]. rewrite (code_of a A1 A2), (code_of b B1 B2). cbn [obind].
      replace (code b <? code a)%N with false by (symmetry; apply N.ltb_ge; lia). reflexivity.
  Qed.
  Lemma reads_r_letter e cl r : letter_class e = Some cl -> Reads (nt SRange) [x5c; e] r None [Some (VRanges cl)] [] keepd.
  Proof.
    intros H. assert (He : In e [x64; x44; x77; x57; x73; x53]) by (destruct e; try discriminate H; cbn; auto 10).
    assert (HE : Reads (nt SClassEscape) [x5c; e] r None [Some (VRanges cl)] [] keepd).
    { assert (HR : Reads (sym_body SClassEscape) [x5c; e] r None [] [] keepd).
      { change (sym_body SClassEscape) with (seq [chr bsl; Cls [(100,100);(68,68);(119,119);(87,87);(115,115);(83,83)]%N false false]).
        eapply reads_eq1; [apply reads_seq; eapply rs_c; [apply (reads_chr g log text bsl (e :: r)); reflexivity|eapply rs_c; [apply (reads_cls_b g log text _ e r)|apply rs_nil|nrm]|nrm]|nrm..];
          cbn in He; decompose [or] He; subst; try reflexivity; contradiction. }
      pose proof (reads_nt g log text SClassEscape _ r None [] [] keepd (Some (VRanges cl)) keepd eq_refl HR) as X. apply X.
      intros vs d [_ _ S3 _]. unfold acts, run_action, value_of. cbn [has_action effect_of]. unfold tt in S3. rewrite S3.
      assert (Hcl : class_escape [x5c; e] = Some cl).
      { cbn in He. decompose [or] He; subst; try contradiction; rewrite <- H; reflexivity. }
      rewrite Hcl. reflexivity. }
    eapply reads_range.
    - apply reads_cho. apply rc_next; [|eapply rc_here; exact HE]. apply fails_seq, fs_head. apply fails_nt; [reflexivity|].
      assert (Hf : forall rs l, forallb (fun r => snd r <? 128)%N rs = true -> in_cls rs (bN e) = false -> Fails (seq (chr bsl :: Cls rs false false :: l)) (bsl :: e :: r)).
      { intros rs l H1 H2. apply fails_seq. apply bsl_then. apply fs_head. now apply fails_cls_e. }
      cbn [sym_body]. fold esc_cls. rewrite esc_is, cls03, oct_cls, hex_cls. apply fails_cho.
      do 3 (apply fc_cons; [apply Hf; [reflexivity|cbn in He; decompose [or] He; subst; try reflexivity; contradiction]|]).
      do 2 (apply fc_cons; [apply fails_seq, fs_head, fails_lit; intros t X; injection X as -> _; cbn in He; decompose [or] He; try discriminate; contradiction|]).
      apply fc_cons; [|apply fc_nil]. apply fails_seq, fs_head. apply (fails_not g log text (chr bsl) [bsl] (e :: r) None [] [] keepd); [apply reads_chr; reflexivity|reflexivity].
    - intros vs V1 V2. unfold range_value. rewrite V1, V2. reflexivity.
  Qed.
  Lemma reads_r_named (neg : bool) n cl r : letters n = true -> named n = Some cl ->
    Reads (nt SRange) ([x5b; x3a] ++ (if neg then [x5e] else []) ++ n ++ [x3a; x5d]) r None [Some (VRanges (if neg then complement cl else cl))] [] keepd.
  Proof.
    intros Hl Hn. assert (Hne : n <> []) by (intros ->; discriminate Hn).
    assert (Hds : Forall (fun b => (bN b < 128)%N /\ in_cls [(97, 122)]%N (bN b) = true) n).
    { unfold letters in Hl. rewrite forallb_forall in Hl. apply Forall_forall. intros b Hb. specialize (Hl b Hb). unfold in_cls. cbn. lia. }
    assert (HP : Reads (nt SPosixClass) ([x5b; x3a] ++ (if neg then [x5e] else []) ++ n ++ [x3a; x5d]) r None [Some (VRanges (if neg then complement cl else cl))] [] keepd).
    { assert (HR : Reads (sym_body SPosixClass) ([x5b; x3a] ++ (if neg then [x5e] else []) ++ n ++ [x3a; x5d]) r None [] [] keepd).
      { change (sym_body SPosixClass) with (seq [lit [x5b; x3a]; opt (chr x5e); rep (Cls [(97, 122)]%N false false) 1 None; lit [x3a; x5d]]).
        assert (HO : Reads (opt (chr x5e)) (if neg then [x5e] else []) (n ++ [x3a; x5d] ++ r) None [] [] keepd).
        { destruct neg; [eapply reads_opt; apply reads_chr; reflexivity|]. apply reads_opt_none. apply fails_chr; [reflexivity|]. destruct n as [|b n]; [congruence|]. intros X. injection X as ->. discriminate Hl. }
        eapply reads_eq1; [apply reads_seq; eapply rs_c; [apply (reads_lit g log text [x5b; x3a] ((if neg then [x5e] else []) ++ n ++ [x3a; x5d] ++ r)); now apply valid2|eapply rs_c; [exact HO|
          eapply rs_c; [apply (reads_digits g log text [(97, 122)]%N 1 None n ([x3a; x5d] ++ r)); [reflexivity|exact Hds|destruct n; [congruence|cbn; lia]|exact I|right; intros b X; injection X as <-; reflexivity]|
          eapply rs_c; [apply (reads_lit g log text [x3a; x5d] r); now apply valid2|apply rs_nil|nrm]|nrm]|nrm]|nrm]|nrm..]. }
      pose proof (reads_nt g log text SPosixClass _ r None [] [] keepd (Some (VRanges (if neg then complement cl else cl))) keepd eq_refl HR) as X. apply X.
      intros vs d [_ _ S3 _]. unfold acts, run_action. cbn [has_action]. unfold tt in S3. rewrite S3.
      assert (Hp : posix_class ([x5b; x3a] ++ (if neg then [x5e] else []) ++ n ++ [x3a; x5d]) = Some (Made (VRanges (if neg then complement cl else cl)))).
      { unfold posix_class, named in *. destruct neg; cbn [app nth_error obind].
        - cbn [beq]. change (beq x5e x5e) with true. cbn match. cbn [List.length]. rewrite app_length. cbn [List.length]. destruct n as [|b n]; [congruence|]. cbn [List.length].
          replace (S (S (S (S (List.length n) + 2))) <? 5) with false by (symmetry; apply Nat.ltb_ge; lia).
          replace (S (S (S (S (List.length n) + 2))) - 5) with (List.length (b :: n)) by (cbn; lia).
          unfold sub, from. cbn [skipn app]. change (b :: n ++ [x3a; x5d]) with ((b :: n) ++ [x3a; x5d]). rewrite firstn_app, Nat.sub_diag, firstn_all. cbn [firstn]. rewrite app_nil_r, Hn. reflexivity.
        - destruct n as [|b n]; [congruence|]. cbn [app nth_error obind]. assert (Hb : beq b x5e = false) by (apply beq_neq; intros ->; discriminate Hl). rewrite Hb. cbn match. cbn [List.length]. rewrite app_length. cbn [List.length].
          replace (S (S (S (List.length n + 2))) <? 4) with false by (symmetry; apply Nat.ltb_ge; lia).
          replace (S (S (S (List.length n + 2))) - 4) with (List.length (b :: n)) by (cbn; lia).
          unfold sub, from. cbn [skipn app]. change (b :: n ++ [x3a; x5d]) with ((b :: n) ++ [x3a; x5d]). rewrite firstn_app, Nat.sub_diag, firstn_all. cbn [firstn]. rewrite app_nil_r, Hn. reflexivity. }
      rewrite Hp. reflexivity. }
    eapply reads_range.
    - apply reads_cho. apply rc_next; [|apply rc_next; [|eapply rc_here; exact HP]].
      + apply fails_seq. cbn [app]. set (t := (if neg then [x5e] else []) ++ n ++ [x3a; x5d]). change ((x5b :: x3a :: t) ++ r) with (char_text (Letter 91) ++ x3a :: t ++ r).
        eapply fs_c; [apply (reads_char (Letter 91) (x3a :: t ++ r)); [split; [unfold scalar; lia|discriminate]|exact I]|reflexivity| |reflexivity]. apply fs_head. apply fails_chr; [reflexivity|discriminate].
      + apply fails_nt; [reflexivity|]. apply fails_seq, fs_head, fails_chr; [reflexivity|discriminate].
    - intros vs V1 V2. unfold range_value. rewrite V1, V2. reflexivity.
  Qed.
End Lits.
