(** * Reading grammar texts: classes, loops, labels. *)
From Verif Require Import Base BaseLemmas Utf8 Utf8Spec Utf8Proofs Escape EscapeSpec EscapeProofs TrieM TrieSpec LineInfo Ope Ctx ErrLog Engine EngineLemmas Scope Bounds EngineFacts Top
  RefSem RefMono Refine RefineOps PegRef PrecSpec PrecM LoadM MetaM Run MetaRun MetaJudge MetaDies NotationSpec MetaLex MetaHead MetaChars MetaLits.

Section Terms.
  Variables (g : grammar) (log : bool) (text : bytes).
  Notation E := (mk_env (meta_parser g log) text).
  Notation Reads := (Reads g log text).
  Notation ReadsS := (ReadsS g log text).
  Notation ReadsM := (ReadsM g log text).
  Notation Fails := (Fails g log text).
  Notation FailsS := (FailsS g log text).

  (** ** Classes *)
  Lemma reads_member w r v : Reads (nt SRange) w r None [v] [] keepd -> ~ next_is x5d (w ++ r) -> Reads member w r None [v] [] keepd.
  Proof.
    intros H Hn. eapply reads_eq1; [apply reads_seq; eapply rs_c; [apply (reads_not g log text (chr x5d) (w ++ r)); apply fails_chr; [reflexivity|exact Hn]|eapply rs_c; [exact H|apply rs_nil|nrm]|nrm]|nrm..].
  Qed.
  Lemma members_more w rs r : members w rs r -> exists L, ReadsM member None w r L [] keepd /\ collect_ranges L = Some rs /\
    (w <> [] -> exists w1 w2 L1 L2, w = w1 ++ w2 /\ L = L1 ++ L2 /\ Reads member w1 (w2 ++ r) None L1 [] keepd /\ ReadsM member None w2 r L2 [] keepd).
  Proof.
    assert (Hstep : forall w1 w2 r v L2 rs1 rs2, Reads member w1 (w2 ++ r) None [Some v] [] keepd -> ReadsM member None w2 r L2 [] keepd -> collect_ranges L2 = Some rs2 ->
      (v = VRanges rs1 \/ exists x, v = VRange x /\ rs1 = [x]) -> exists L, ReadsM member None (w1 ++ w2) r L [] keepd /\ collect_ranges L = Some (rs1 ++ rs2) /\
    (w1 ++ w2 <> [] -> exists w1' w2' L1 L2, w1 ++ w2 = w1' ++ w2' /\ L = L1 ++ L2 /\ Reads member w1' (w2' ++ r) None L1 [] keepd /\ ReadsM member None w2' r L2 [] keepd)).
    { intros w1 w2 r0 v L2 rs1 rs2 H1 H2 H3 H4. exists ([Some v] ++ L2). split; [eapply rm_eq1; [eapply rm_c; [discriminate|exact H1|exact H2|nrm]|nrm..]|]. split.
      - cbn [app]. destruct H4 as [-> |(x & -> & ->)]; cbn [collect_ranges]; rewrite H3; reflexivity.
      - intros _. exists w1, w2, [Some v], L2. auto. }
    induction 1 as [r H|c w rs r H1 H2 H3 H4 IH|a b w rs r H1 H2 H3 H4 H5 IH|e cl w rs r H1 H2 IH|neg n cl w rs r H1 H2 H3 IH].
    - exists []. split; [|split; [reflexivity|congruence]]. apply rm_nil. apply fails_seq, fs_head. destruct r as [|b r]; [discriminate H|]. injection H as ->.
      apply (fails_not g log text (chr x5d) [x5d] r None [] [] keepd); [apply reads_chr; reflexivity|reflexivity].
    - destruct IH as (L2 & A & B & _). apply (Hstep _ w r (VRange (code c, code c)) L2 [(code c, code c)] rs); eauto. apply reads_member; [now apply reads_r_char|].
      apply char_not; [apply H1|reflexivity|discriminate|apply H1].
    - destruct IH as (L2 & A & B & _). replace (char_text a ++ x2d :: char_text b ++ w) with ((char_text a ++ x2d :: char_text b) ++ w) by nrm.
      apply (Hstep _ w r (VRange (code a, code b)) L2 [(code a, code b)] rs); eauto. apply reads_member; [now apply reads_r_range|].
      nrm. apply char_not; [apply H1|reflexivity|discriminate|apply H1].
    - destruct IH as (L2 & A & B & _). change (x5c :: e :: w) with ([x5c; e] ++ w). apply (Hstep _ w r (VRanges cl) L2 cl rs); eauto. apply reads_member; [now apply reads_r_letter|discriminate].
    - destruct IH as (L2 & A & B & _). replace ([x5b; x3a] ++ (if neg : bool then [x5e] else []) ++ n ++ [x3a; x5d] ++ w) with (([x5b; x3a] ++ (if neg then [x5e] else []) ++ n ++ [x3a; x5d]) ++ w) by nrm.
      apply (Hstep _ w r (VRanges (if neg then complement cl else cl)) L2 _ rs); eauto. apply reads_member; [now apply reads_r_named|discriminate].
  Qed.
  Lemma reads_class_body w rs r : members w rs r -> w <> [] -> exists L, Reads class_body w r None L [w] keepd /\ collect_ranges L = Some rs.
  Proof.
    intros H Hw. destruct (members_more w rs r H) as (L & _ & HL & H2). destruct (H2 Hw) as (w1 & w2 & L1 & L2 & -> & -> & A & B). exists (L1 ++ L2). split; [|exact HL].
    eapply reads_eq1; [eapply reads_tok; eapply reads_oom; [exact A|exact B]|nrm..].
  Qed.
  Definition cls_s (neg ic : bool) : sym := match neg, ic with false, false => SClass | false, true => SClassI | true, false => SNegatedClass | true, true => SNegatedClassI end.
  Definition cls_open (neg : bool) : list ope := if neg then [lit (bs "[^")] else [chr x5b; npd (chr x5e)].
  Definition cls_close (ic : bool) : ope := if ic then lit (bs "]i") else chr x5d.
  Lemma cls_body neg ic : sym_body (cls_s neg ic) = seq (cls_open neg ++ [class_body; cls_close ic; nt SSpacing]). Proof. destruct neg, ic; reflexivity. Qed.
  Definition cls_text (neg : bool) : bytes := x5b :: if neg then [x5e] else [].
  (** The opening, with any continuation that itself reads or fails. *)
  Lemma open_then neg l w r w2 L2 T2 : (neg = false -> ~ next_is x5e (w2 ++ r)) -> w = cls_text neg ++ w2 -> ReadsS l w2 r L2 T2 keepd -> ReadsS (cls_open neg ++ l) w r L2 T2 keepd.
  Proof.
    intros Hn -> H. destruct neg; cbn [cls_open cls_text app].
    - exact (rs_c g log text _ l [x5b; x5e] (w2 ++ r) None [] [] keepd w2 r L2 T2 keepd (reads_lit g log text (bs "[^") (w2 ++ r) (valid2 x5b x5e eq_refl eq_refl)) H eq_refl).
    - refine (rs_c g log text _ _ [x5b] (w2 ++ r) None [] [] keepd w2 r L2 T2 keepd (reads_chr g log text x5b (w2 ++ r) eq_refl) _ eq_refl).
      refine (rs_c g log text _ l [] (w2 ++ r) None [] [] keepd w2 r L2 T2 keepd (reads_not g log text (chr x5e) (w2 ++ r) _) H eq_refl). apply fails_chr; [reflexivity|]. now apply Hn.
  Qed.
  Lemma open_fails neg l t : (neg = false -> ~ next_is x5e t) -> FailsS l t -> FailsS (cls_open neg ++ l) (cls_text neg ++ t).
  Proof.
    intros Hn H. destruct neg; cbn [cls_open cls_text app].
    - eapply (fs_c g log text _ _ [x5b; x5e]); [apply (reads_lit g log text (bs "[^")); now apply valid2|reflexivity|exact H|reflexivity].
    - eapply (fs_c g log text _ _ [x5b]); [apply reads_chr; reflexivity|reflexivity| |reflexivity]. eapply (fs_c g log text _ _ []); [apply reads_not; apply fails_chr; [reflexivity|now apply Hn]|reflexivity|exact H|reflexivity].
  Qed.
  Lemma reads_class neg ic w rs s r : members w rs (x5d :: ic_text ic ++ s ++ r) -> w <> [] -> (neg = false -> ~ next_is x5e w) -> spacing s r ->
    Reads (nt (cls_s neg ic)) (cls_text neg ++ w ++ x5d :: ic_text ic ++ s) r None [Some (VOpe (Cls rs neg ic))] [] keepd.
  Proof.
    intros H Hw Hn Hs. destruct (reads_class_body w rs _ H Hw) as (L & HB & HL).
    assert (HR : Reads (sym_body (cls_s neg ic)) (cls_text neg ++ w ++ x5d :: ic_text ic ++ s) r None L [w] keepd).
    { rewrite cls_body. apply reads_seq. apply (open_then neg _ _ r (w ++ x5d :: ic_text ic ++ s)); [intros X; specialize (Hn X); destruct w; [congruence|exact Hn]|reflexivity|].
      assert (HC : Reads (cls_close ic) (x5d :: ic_text ic) (s ++ r) None [] [] keepd).
      { destruct ic; [apply (reads_lit g log text (bs "]i")); now apply valid2|apply reads_chr; reflexivity]. }
      pose proof (rs_c g log text _ _ _ _ _ _ _ _ _ _ _ _ _ HB (rs_c g log text _ _ _ _ _ _ _ _ _ _ _ _ _ HC (rs_c g log text _ _ _ _ _ _ _ _ _ _ _ _ _ (reads_spacing g log text s r Hs) (rs_nil g log text r) ltac:(nrm)) ltac:(nrm)) ltac:(nrm)) as X.
      rewrite !app_nil_r in X. exact X. }
    pose proof (reads_nt g log text (cls_s neg ic) _ r None L [w] keepd (Some (VOpe (Cls rs neg ic))) keepd ltac:(destruct neg, ic; reflexivity) HR) as X.
    replace (sym_ignored (cls_s neg ic)) with false in X by (destruct neg, ic; reflexivity). apply X.
    intros vs d [S1 _ _ _]. destruct neg, ic; unfold cls_s; unfold acts, run_action, value_of; cbn [has_action effect_of]; rewrite S1, HL; reflexivity.
  Qed.
  Lemma fails_class_i neg w rs s r : members w rs (x5d :: s ++ r) -> w <> [] -> (neg = false -> ~ next_is x5e w) -> ~ next_is x69 (s ++ r) ->
    Fails (nt (cls_s neg true)) ((cls_text neg ++ w ++ x5d :: s) ++ r).
  Proof.
    intros H Hw Hn Hi. destruct (reads_class_body w rs _ H Hw) as (L & HB & HL). apply fails_nt; [destruct neg; reflexivity|]. rewrite cls_body. apply fails_seq.
    replace ((cls_text neg ++ w ++ x5d :: s) ++ r) with (cls_text neg ++ w ++ x5d :: s ++ r) by nrm.
    apply open_fails; [intros X; specialize (Hn X); destruct w; [congruence|exact Hn]|]. eapply fs_c; [exact HB|reflexivity| |reflexivity]. apply fs_head. apply fails_lit. intros t X. injection X as X. apply Hi. now rewrite X.
  Qed.
  Lemma fails_class_neg ic w t : w <> [] -> ~ next_is x5e w -> Fails (nt (cls_s true ic)) (x5b :: w ++ t).
  Proof.
    intros Hw Hn. apply fails_nt; [destruct ic; reflexivity|]. rewrite cls_body. apply fails_seq, fs_head. apply fails_lit. intros t' X. injection X as X. destruct w; [congruence|]. injection X as -> _. now apply Hn.
  Qed.

  (** ** Loops *)
  Lemma reads_byte s b w r : quiet s = true -> has_action s = true -> sym_ignored s = false -> sym_body s = seq [chr b; nt SSpacing] -> (bN b < 128)%N ->
    (forall vs b, first_byte (span_text text (v_sv vs)) = Some b -> value_of s text vs = Some (Made (VByte b))) -> (forall vs d, effect_of s text vs d = d) ->
    (forall vs d, run_action s text vs d None = match value_of s text vs with Some (Made v) => (Some v, effect_of s text vs d) | Some Throws => (None, with_fail Thrown d) | None => (None, with_fail Broken d) end) ->
    spacing w r -> Reads (nt s) (b :: w) r None [Some (VByte b)] [] keepd.
  Proof.
    intros H1 H2 H3 H4 H5 H6 H7 H8 Hs. pose proof (reads_punct_body g log text b w r H5 Hs) as HR. rewrite <- H4 in HR.
    pose proof (reads_nt g log text s _ r None [] [] keepd (Some (VByte b)) keepd H1 HR) as X. rewrite H3 in X. apply X.
    intros vs d [_ _ S3 _]. unfold acts. rewrite H2, H8, (H6 vs b) by (unfold tt in S3; rewrite S3; reflexivity). now rewrite H7.
  Qed.
  Definition digr : ranges := [(48, 57)]%N.
  Lemma digit_cls b : in_cls digr (bN b) = digit b. Proof. unfold in_cls, digr, digit. cbn [existsb fst snd]. now rewrite orb_false_r. Qed.
  Lemma dec_value : forall ds acc t, forallb digit ds = true -> (forall b, next_is b t -> digit b = false) ->
    digits_of (ds ++ t) acc = value_from dec_digits 10 acc ds.
  Proof.
    induction ds as [|d ds IH]; intros acc t H Ht.
    - cbn [app value_from]. destruct t as [|b t]; [reflexivity|]. cbn [digits_of]. specialize (Ht b eq_refl). unfold digit in Ht. now rewrite Ht.
    - cbn [forallb] in H. apply andb_true_iff in H as [H1 H2]. cbn [app digits_of value_from]. unfold digit in H1. rewrite H1.
      rewrite (IH _ t H2 Ht). f_equal. f_equal. destruct d; try discriminate H1; reflexivity.
  Qed.
  Lemma reads_number w n r : number w n r -> Reads (nt SNumber) w r None [Some (VNum n)] [] keepd.
  Proof.
    intros [ds s r' Hd Hds Hv He Hs].
    assert (HR : Reads (sym_body SNumber) (ds ++ s) r' None [] [] keepd).
    { change (sym_body SNumber) with (seq [rep (Cls digr false false) 1 None; nt SSpacing]).
      eapply reads_eq1; [apply reads_seq; eapply rs_c; [apply (reads_digits g log text digr 1 None ds (s ++ r')); [reflexivity| |destruct ds; [congruence|cbn; lia]|exact I|right; intros b Hb; rewrite digit_cls; auto]|
        eapply rs_c; [eapply reads_spacing; exact Hs|apply rs_nil|nrm]|nrm]|nrm..].
      rewrite forallb_forall in Hds. apply Forall_forall. intros b Hb. rewrite digit_cls. specialize (Hds b Hb). split; [unfold digit in Hds; lia|exact Hds]. }
    pose proof (reads_nt g log text SNumber _ r' None [] [] keepd (Some (VNum (EscapeSpec.value_of dec_digits 10 ds))) keepd eq_refl HR) as X. apply X.
    intros vs d [_ S2 S3 _]. unfold acts, run_action, value_of. cbn [has_action effect_of obind]. unfold token_text. destruct (v_toks vs); [|discriminate S2]. unfold tt in S3. rewrite S3.
    unfold to_number. rewrite (dec_value ds 0 s Hds) by (intros b Hb; apply He; destruct s; [discriminate Hb|exact Hb]).
    fold (EscapeSpec.value_of dec_digits 10 ds). replace (EscapeSpec.value_of dec_digits 10 ds <? 2 ^ 64)%N with true by (symmetry; apply N.ltb_lt; lia). reflexivity.
  Qed.
  Lemma number_first w n r : number w n r -> exists b t, w = b :: t /\ digit b = true.
  Proof. intros [ds s r' Hd Hds _ _ _]. destruct ds as [|b ds]; [congruence|]. exists b. eexists. split; [reflexivity|]. cbn in Hds. now apply andb_true_iff in Hds as [H _]. Qed.
  Lemma fails_number s : (forall b, next_is b s -> digit b = false) -> Fails (nt SNumber) s.
  Proof.
    intros H. apply fails_nt; [reflexivity|]. apply fails_seq, fs_head. change (oom (cls (bs "0-9"))) with (rep (Cls digr false false) 1 None). apply (fails_rep1 g log text _ 0 None).
    apply fails_cls_b; [reflexivity|]. intros b Hb. rewrite digit_cls. auto.
  Qed.
  Lemma reads_comma s r : spacing s r -> Reads (nt SCOMMA) (x2c :: s) r None [] [] keepd.
  Proof. intros H. apply (reads_punct g log text SCOMMA x2c s r); try reflexivity. exact H. Qed.
  Lemma fails_comma s : ~ next_is x2c s -> Fails (nt SCOMMA) s.
  Proof. intros H. apply (fails_but g log text [x2c]); [vm_compute; reflexivity|]. intros b [<- |[]]. exact H. Qed.
  Lemma bound_small n : (n < 2 ^ 64 - 1)%N -> bound_of n = Some (N.to_nat n).
  Proof. intros H. unfold bound_of. replace (n =? 2 ^ 64 - 1)%N with false by (symmetry; apply N.eqb_neq; lia). reflexivity. Qed.
  Lemma number_small w n r : number w n r -> (n < 2 ^ 64 - 1)%N. Proof. now intros [ds s r' _ _ H _ _]. Qed.
  Lemma reads_bounds w mn mx r : bounds w mn mx r -> Reads (nt SRepetitionRange) w r None [Some (VBounds mn mx)] [] keepd.
  Proof.
    intros H. assert (HR : exists j L, Reads (sym_body SRepetitionRange) w r (Some j) L [] keepd /\
      forall vs, v_vals vs = L -> v_ch vs = j -> value_of SRepetitionRange text vs = Some (Made (VBounds mn mx))).
    { destruct H as [w n r H1 H2|w n s r H1 H2 H3|s w n r H1 H2|w n s w' m r H1 H2 H3].
      - exists 2. eexists. split.
        + apply reads_cho. do 2 (apply rc_next; [apply fails_seq; eapply fs_c; [apply (reads_number w n r H1)|reflexivity| |reflexivity]; apply fs_head; now apply fails_comma|]). eapply rc_here. apply (reads_number w n r H1).
        + intros vs V1 V2. unfold value_of. rewrite V1, V2. cbn [val_at nth_error as_num obind]. rewrite (bound_small n (number_small _ _ _ H1)). reflexivity.
      - exists 1. eexists. split.
        + apply reads_cho. apply rc_next.
          * apply fails_seq. eapply fs_c; [apply (reads_number w n _ H1)|reflexivity| |nrm]. eapply fs_c; [apply (reads_comma s r H2)|reflexivity| |reflexivity]. apply fs_head. now apply fails_number.
          * eapply rc_here. eapply reads_eq1; [apply reads_seq; eapply rs_c; [apply (reads_number w n _ H1)|eapply rs_c; [apply (reads_comma s r H2)|apply rs_nil|nrm]|nrm]|nrm..].
        + intros vs V1 V2. unfold value_of. rewrite V1, V2. reflexivity.
      - exists 3. eexists. split.
        + apply reads_cho. assert (Hf : Fails (nt SNumber) ((x2c :: s ++ w) ++ r)) by (apply fails_number; intros b Hb; injection Hb as <-; reflexivity).
          do 2 (apply rc_next; [apply fails_seq, fs_head; exact Hf|]). apply rc_next; [exact Hf|]. eapply rc_here.
          eapply reads_eq1; [apply reads_seq; eapply rs_c; [apply (reads_comma s (w ++ r) H1)|eapply rs_c; [apply (reads_number w n r H2)|apply rs_nil|nrm]|nrm]|nrm..].
        + intros vs V1 V2. unfold value_of. rewrite V1, V2. cbn [app val_at nth_error as_num obind]. rewrite (bound_small n (number_small _ _ _ H2)). reflexivity.
      - exists 0. eexists. split.
        + apply reads_cho. eapply rc_here. eapply reads_eq1; [apply reads_seq; eapply rs_c; [apply (reads_number w n _ H1)|eapply rs_c; [apply (reads_comma s (w' ++ r) H2)|eapply rs_c; [apply (reads_number w' m r H3)|apply rs_nil|nrm]|nrm]|nrm]|nrm..].
        + intros vs V1 V2. unfold value_of. rewrite V1, V2. cbn [app val_at nth_error as_num obind]. rewrite (bound_small m (number_small _ _ _ H3)). reflexivity. }
    destruct HR as (j & L & HR & Hv). pose proof (reads_nt g log text SRepetitionRange w r (Some j) L [] keepd (Some (VBounds mn mx)) keepd eq_refl HR) as X. apply X.
    intros vs d [S1 _ _ S4]. unfold acts, run_action. cbn [has_action]. rewrite (Hv vs S1 (S4 eq_refl j eq_refl)). reflexivity.
  Qed.
  Lemma fails_repetition r : (forall s t b, r = x7b :: s ++ t -> spacing s t -> next_is b t -> digit b = false /\ b <> x2c) -> Fails (nt SRepetition) r.
  Proof.
    intros H. apply fails_valid. intros Hv. destruct r as [|b r]; [apply (dies_fails g log text 40 None); reflexivity|]. destruct (beq b x7b) eqn:Hb.
    2:{ apply (fails_but g log text [x7b]); [vm_compute; reflexivity|]. intros b' [<- |[]] X. injection X as ->. discriminate. }
    apply beq_eq in Hb as ->. destruct (spacing_total _ r (le_n _)) as (s & t & -> & Hs & _); [eapply valid_byte; [exact Hv|reflexivity]|]. apply fails_nt; [reflexivity|]. apply fails_seq.
    eapply fs_c; [apply (reads_punct g log text SBeginBracket x7b s t); try reflexivity; exact Hs|reflexivity| |reflexivity]. apply fs_head. apply fails_nt; [reflexivity|].
    assert (Hn : Fails (nt SNumber) t) by (apply fails_number; intros b Hb; exact (proj1 (H s t b eq_refl Hs Hb))).
    apply fails_cho. do 2 (apply fc_cons; [apply fails_seq, fs_head; exact Hn|]). apply fc_cons; [exact Hn|]. apply fc_cons; [|apply fc_nil]. apply fails_seq, fs_head. apply fails_comma.
    intros X. now destruct (H s t x2c eq_refl Hs X).
  Qed.
  Lemma fails_loop r : no_loop r -> Fails (nt SLoop) r.
  Proof.
    intros (H1 & H2 & H3 & H4). apply fails_nt; [reflexivity|]. apply fails_cho.
    apply fc_cons; [apply (fails_but g log text [x3f]); [vm_compute; reflexivity|]; intros b [<- |[]]; exact H1|].
    apply fc_cons; [apply (fails_but g log text [x2a]); [vm_compute; reflexivity|]; intros b [<- |[]]; exact H2|].
    apply fc_cons; [apply (fails_but g log text [x2b]); [vm_compute; reflexivity|]; intros b [<- |[]]; exact H3|].
    apply fc_cons; [now apply fails_repetition|apply fc_nil].
  Qed.
  Definition loop_ope (k : loop_kind) (o : ope) : ope := match k with LOpt => opt o | LZom => zom o | LOom => oom o | LRep mn mx => rep o mn mx end.
  Lemma reads_loop l fl r : NotationSpec.loop l fl r -> exists (L : vals), Reads (opt (nt SLoop)) l r None L [] keepd /\
    (L = [] /\ (forall o, fl o = o) \/ exists k, L = [Some (VLoop k)] /\ forall o, fl o = loop_ope k o).
  Proof.
    assert (Hk : forall j k l r L, Reads (sym_body SLoop) l r (Some j) L [] keepd -> (forall vs, v_vals vs = L -> v_ch vs = j -> value_of SLoop text vs = Some (Made (VLoop k))) ->
      Reads (opt (nt SLoop)) l r None [Some (VLoop k)] [] keepd).
    { intros j k l0 r0 L HR Hv. eapply reads_opt. pose proof (reads_nt g log text SLoop l0 r0 (Some j) L [] keepd (Some (VLoop k)) keepd eq_refl HR) as X. apply X.
      intros vs d [S1 _ _ S4]. unfold acts, run_action. cbn [has_action]. rewrite (Hv vs S1 (S4 eq_refl j eq_refl)). reflexivity. }
    intros H. destruct H as [r H|s r H|s r H|s r H|s w mn mx s' r H1 H2 H3].
    - exists []. split; [apply reads_opt_none; now apply fails_loop|left; split; reflexivity].
    - exists [Some (VLoop LOpt)]. split; [|right; exists LOpt; split; reflexivity]. eapply (Hk 0).
      + apply reads_cho. eapply rc_here. apply (reads_byte SQUESTION x3f s r); try reflexivity; [intros vs b Hb; unfold value_of; rewrite Hb; reflexivity|exact H].
      + intros vs V1 V2. unfold value_of. rewrite V2. reflexivity.
    - exists [Some (VLoop LZom)]. split; [|right; exists LZom; split; reflexivity]. eapply (Hk 1).
      + apply reads_cho. apply rc_next; [apply (dies_fails g log text 40 (Some x2a)); [vm_compute; reflexivity|reflexivity]|]. eapply rc_here. apply (reads_byte SSTAR x2a s r); try reflexivity; [intros vs b Hb; unfold value_of; rewrite Hb; reflexivity|exact H].
      + intros vs V1 V2. unfold value_of. rewrite V2. reflexivity.
    - exists [Some (VLoop LOom)]. split; [|right; exists LOom; split; reflexivity]. eapply (Hk 2).
      + apply reads_cho. do 2 (apply rc_next; [apply (dies_fails g log text 40 (Some x2b)); [vm_compute; reflexivity|reflexivity]|]). eapply rc_here. apply (reads_byte SPLUS x2b s r); try reflexivity; [intros vs b Hb; unfold value_of; rewrite Hb; reflexivity|exact H].
      + intros vs V1 V2. unfold value_of. rewrite V2. reflexivity.
    - exists [Some (VLoop (LRep mn mx))]. split; [|right; exists (LRep mn mx); split; reflexivity]. eapply (Hk 3).
      + apply reads_cho. do 3 (apply rc_next; [apply (dies_fails g log text 40 (Some x7b)); [vm_compute; reflexivity|reflexivity]|]). eapply rc_here.
        change [Some (VBounds mn mx)] with [front [Some (VBounds mn mx)]].
        eapply (reads_pass g log text SRepetition); try reflexivity.
        eapply reads_eq1; [apply reads_seq; eapply rs_c; [apply (reads_punct g log text SBeginBracket x7b s (w ++ x7d :: s' ++ r)); try reflexivity; exact H1|eapply rs_c; [apply (reads_bounds w mn mx _ H2)|
          eapply rs_c; [apply (reads_punct g log text SEndBracket x7d s' r); try reflexivity; exact H3|apply rs_nil|nrm]|nrm]|nrm]|nrm..].
      + intros vs V1 V2. unfold value_of. rewrite V1, V2. reflexivity.
  Qed.

  (** ** Labels and predicates *)
  Lemma reads_label b fb r : label b fb r -> exists (L : vals), Reads (opt (seq [nt SLABEL; nt SIdentifier])) b r None L [] keepd /\
    (L = [] /\ (forall o, fb o = o) \/ exists n, L = [vstr n] /\ forall o, fb o = Cho true [] [o; Rcv (ref_ recover_name true [ref_ n false []])]).
  Proof.
    intros H. destruct H as [r [H1 H2]|m s n s' r Hm H1 H2 H3 H4].
    - exists []. split; [|left; split; reflexivity]. apply reads_opt_none. apply fails_seq, fs_head. apply fails_nt; [reflexivity|]. apply fails_seq, fs_head. apply fails_cho.
      apply fc_cons; [apply fails_chr; [reflexivity|exact H1]|]. apply fc_cons; [apply fails_lit; exact H2|apply fc_nil].
    - exists [vstr n]. split; [|right; exists n; split; reflexivity]. eapply reads_opt.
      assert (HM : exists C, Reads (cho [chr x5e; lit MetaM.up_double]) m (s ++ n ++ s' ++ r) C [] [] keepd).
      { destruct Hm as [-> | ->].
        - eexists. apply reads_cho. eapply rc_here. apply reads_chr. reflexivity.
        - eexists. apply reads_cho. apply rc_next; [apply fails_chr; [reflexivity|discriminate]|]. eapply rc_here. apply reads_lit. eapply chr_valid. apply up2_chr. }
      destruct HM as [C HM]. eapply reads_eq1; [apply reads_seq; eapply rs_c; [eapply (reads_drop g log text SLABEL); try reflexivity; apply reads_seq; eapply rs_c; [exact HM|eapply rs_c; [eapply reads_spacing; exact H1|apply rs_nil|nrm]|nrm]|
        eapply rs_c; [apply (reads_ident g log text n s' r); assumption|apply rs_nil|nrm]|nrm]|nrm..].
  Qed.
  Lemma reads_mark m fm r : mark m fm r -> (forall b, In b [x26; x21] -> ~ next_is b r) -> exists (L : vals), Reads (opt (cho [nt SAND; nt SNOT])) m r None L [] keepd /\
    (L = [] /\ (forall o, fm o = o) \/ exists b, L = [Some (VByte b)] /\ forall o, fm o = if beq b x26 then And o else Not o).
  Proof.
    intros H Hr. destruct H as [r|s r H|s r H].
    - exists []. split; [|left; split; reflexivity]. apply reads_opt_none. apply (fails_but g log text [x26; x21]); [vm_compute; reflexivity|exact Hr].
    - exists [Some (VByte x26)]. split; [|right; exists x26; split; reflexivity]. eapply reads_opt. apply reads_cho. eapply rc_here. apply (reads_byte SAND x26 s r); try reflexivity; [intros vs b Hb; unfold value_of; rewrite Hb; reflexivity|exact H].
    - exists [Some (VByte x21)]. split; [|right; exists x21; split; reflexivity]. eapply reads_opt. apply reads_cho.
      apply rc_next; [apply (dies_fails g log text 40 (Some x21)); [vm_compute; reflexivity|reflexivity]|]. eapply rc_here. apply (reads_byte SNOT x21 s r); try reflexivity; [intros vs b Hb; unfold value_of; rewrite Hb; reflexivity|exact H].
  Qed.
End Terms.
