(** * Reading grammar texts: characters, literals and dictionaries. *)
From Verif Require Import Base BaseLemmas Utf8 Utf8Spec Utf8Proofs Escape EscapeSpec EscapeProofs TrieM TrieSpec LineInfo Ope Ctx ErrLog Engine EngineLemmas Scope Bounds EngineFacts Top
  RefSem RefMono Refine RefineOps PegRef PrecSpec PrecM LoadM MetaM Run MetaRun MetaJudge MetaDies NotationSpec MetaLex MetaHead.

Definition hexr : ranges := [(48, 57); (97, 102); (65, 70)]%N.
Definition octr : ranges := [(48, 55)]%N.
Lemma hex_cls : hex = Cls hexr false false. Proof. vm_compute. reflexivity. Qed.
Lemma oct_cls : cls (bs "0-7") = Cls octr false false. Proof. vm_compute. reflexivity. Qed.
Lemma hex_dig b : in_cls hexr (bN b) = is_digit_of hex_digits b. Proof. destruct b; reflexivity. Qed.
Lemma oct_dig b : in_cls octr (bN b) = is_digit_of oct_digits b. Proof. destruct b; reflexivity. Qed.
Lemma hex_asc b : is_digit_of hex_digits b = true -> (bN b < 128)%N. Proof. destruct b; intros H; try reflexivity; discriminate H. Qed.
Lemma oct_asc b : is_digit_of oct_digits b = true -> (bN b < 128)%N. Proof. destruct b; intros H; try reflexivity; discriminate H. Qed.
Lemma oct_dec b : is_digit_of dec_digits b = false -> is_digit_of oct_digits b = false. Proof. destruct b; intros H; try reflexivity; discriminate H. Qed.

Section Chars.
  Variables (g : grammar) (log : bool) (text : bytes).
  Notation E := (mk_env (meta_parser g log) text).
  Notation run := (run E meta_rules).
  Notation Reads := (Reads g log text).
  Notation ReadsS := (ReadsS g log text).
  Notation ReadsM := (ReadsM g log text).
  Notation ReadsN := (ReadsN g log text).
  Notation Fails := (Fails g log text).
  Notation FailsS := (FailsS g log text).
  Notation at_ := (at_ text).

  Lemma reads_cls_b rs b r : (bN b < 128)%N -> in_cls rs (bN b) = true -> Reads (Cls rs false false) [b] r None [] [] keepd.
  Proof. intros H1 H2. eapply reads_cls; [apply chr_ascii; exact H1|exact H2]. Qed.
  Lemma fails_cls_b rs s : forallb (fun r => snd r <? 128)%N rs = true -> (forall b, next_is b s -> in_cls rs (bN b) = false) -> Fails (Cls rs false false) s.
  Proof.
    intros H1 H2. destruct (hd_error s) as [b|] eqn:Hb; eapply (dies_fails g log text 1); try exact Hb; cbn [dies]; [|reflexivity]. destruct (bN b <? 128)%N; [|exact H1].
    now rewrite (H2 b Hb).
  Qed.

  (** ** Runs of digits *)
  Lemma digits_min rs : forall ds r, Forall (fun b => (bN b < 128)%N /\ in_cls rs (bN b) = true) ds -> ReadsN (Cls rs false false) (List.length ds) ds r [] [] keepd.
  Proof.
    induction ds as [|d ds IH]; intros r H; [apply rn_nil|]. inversion H as [|? ? [H1 H2] H3]; subst.
    exact (rn_cons g log text _ _ [d] ds r None [] [] keepd [] [] keepd (reads_cls_b rs d _ H1 H2) (IH r H3)).
  Qed.
  Lemma digits_more rs (Hrs : forallb (fun r => snd r <? 128)%N rs = true) : forall ds room r, Forall (fun b => (bN b < 128)%N /\ in_cls rs (bN b) = true) ds ->
    (room = Some (List.length ds) \/ (forall b, next_is b r -> in_cls rs (bN b) = false) /\ match room with Some q => List.length ds <= q | None => True end) ->
    ReadsM (Cls rs false false) room ds r [] [] keepd.
  Proof.
    induction ds as [|d ds IH]; intros room r H Hr.
    - destruct Hr as [-> |[Hr _]]; [apply rm_full|]. apply rm_nil. now apply fails_cls_b.
    - inversion H as [|? ? [H1 H2] H3]; subst. apply (rm_cons g log text _ room [d] ds r None [] [] keepd [] [] keepd).
      + destruct Hr as [-> |[_ Hr]]; [discriminate|]. destruct room; [|discriminate]. cbn in Hr. intros X. injection X as ->. lia.
      + now apply reads_cls_b.
      + apply IH; [exact H3|]. destruct Hr as [-> |[Hr Hq]]; [left; reflexivity|right]. split; [exact Hr|]. destruct room; cbn in *; [lia|exact I].
  Qed.
  Lemma reads_digits rs mn mx ds r : forallb (fun r => snd r <? 128)%N rs = true -> Forall (fun b => (bN b < 128)%N /\ in_cls rs (bN b) = true) ds -> mn <= List.length ds ->
    match mx with Some q => mn <= q /\ List.length ds <= q | None => True end ->
    (mx = Some (List.length ds) \/ forall b, next_is b r -> in_cls rs (bN b) = false) -> Reads (rep (Cls rs false false) mn mx) ds r None [] [] keepd.
  Proof.
    intros Hrs Hd Hmn Hmx Hend. rewrite <- (firstn_skipn mn ds) in Hd |- *. apply Forall_app in Hd as [Hd1 Hd2].
    pose proof (reads_rep g log text (Cls rs false false) mn mx (firstn mn ds) (skipn mn ds) r [] [] keepd [] [] keepd) as X. cbn [app] in X. apply X.
    - replace mn with (List.length (firstn mn ds)) at 1 by (rewrite firstn_length; lia). now apply digits_min.
    - apply digits_more; [exact Hrs|exact Hd2|]. rewrite skipn_length. unfold room_after. destruct Hend as [-> |Hend].
      + left. f_equal.
      + right. split; [exact Hend|]. destruct mx; [lia|exact I].
  Qed.
  Lemma fails_digits rs mn mx ds r : forallb (fun r => snd r <? 128)%N rs = true -> Forall (fun b => (bN b < 128)%N /\ in_cls rs (bN b) = true) ds -> List.length ds < mn ->
    (forall b, next_is b r -> in_cls rs (bN b) = false) -> Fails (rep (Cls rs false false) mn mx) (ds ++ r).
  Proof.
    intros Hrs Hd Hl Hr pos vs d [|k] x d' Ha HR; [contradiction|]. apply rep_run in HR as (k1 & y & d1 & A & B).
    assert (X : y = None /\ d1 = d).
    { clear B. rewrite <- (Nat.add_0_r pos) in Ha. revert mn Hl Ha A. generalize 0. revert vs d. induction ds as [|b ds IH]; intros vs d i mn Hl Ha A.
      - destruct mn as [|mn]; [cbn in Hl; lia|]. destruct A as (z & d2 & A & B). destruct (fails_cls_b rs r Hrs Hr _ _ _ _ _ _ Ha A) as [-> ->]. exact B.
      - destruct mn as [|mn]; [cbn in Hl; lia|]. destruct A as (z & d2 & A & B). inversion Hd as [|? ? [H1 H2] H3]; subst.
        destruct (reads_cls_b rs b (ds ++ r) H1 H2) as [V1 H4]. change ((b :: ds) ++ r) with ([b] ++ ds ++ r) in Ha.
        destruct (H4 _ _ _ _ _ _ Ha A) as (-> & vs1 & -> & _). destruct (at_app g log text _ _ _ Ha V1) as [Ha2 _]. rewrite <- Nat.add_assoc in Ha2.
        exact (IH H3 _ _ _ mn ltac:(cbn in Hl; lia) Ha2 B). }
    destruct X as [-> ->]. exact B.
  Qed.
  Lemma hexes ds : forallb (is_digit_of hex_digits) ds = true -> Forall (fun b => (bN b < 128)%N /\ in_cls hexr (bN b) = true) ds.
  Proof. intros H. rewrite forallb_forall in H. apply Forall_forall. intros b Hb. split; [apply hex_asc; auto|]. rewrite hex_dig. auto. Qed.

  (** ** One character *)
  Definition char_mean (c : char) : bytes := List.concat (map denotes (char_items c)).
  Lemma valid2 a b : (bN a < 128)%N -> (bN b < 128)%N -> valid_utf8 [a; b].
  Proof. intros H1 H2. apply (valid_app [a] [b]); eapply chr_valid; apply chr_ascii; assumption. Qed.
  Definition esc_cls : ope := cls (bs "fnrtv'" ++ [dq] ++ bs "[]" ++ [bsl] ++ bs "^-").
  Definition escr : ranges := Eval vm_compute in match esc_cls with Cls rs _ _ => rs | _ => [] end.
  Lemma esc_is : esc_cls = Cls escr false false. Proof. vm_compute. reflexivity. Qed.
  Lemma esc_simple e : is_digit_of simple_table e = in_cls escr (bN e). Proof. destruct e; reflexivity. Qed.
  Lemma cls03 : cls (bs "0-3") = Cls [(48, 51)]%N false false. Proof. vm_compute. reflexivity. Qed.
  Lemma bsl_then l e t : FailsS l (e :: t) -> FailsS (chr bsl :: l) (bsl :: e :: t).
  Proof. intros H. eapply (fs_c g log text _ _ [bsl]); [apply reads_chr; reflexivity|reflexivity|exact H|reflexivity]. Qed.
  Lemma fails_cls_e rs e t : forallb (fun r => snd r <? 128)%N rs = true -> in_cls rs (bN e) = false -> Fails (Cls rs false false) (e :: t).
  Proof. intros H1 H2. apply fails_cls_b; [exact H1|]. intros b Hb. injection Hb as <-. exact H2. Qed.

  Lemma reads_char_body c r : char_ok c -> separates c r -> exists C, Reads (sym_body SChar) (char_text c) r C [] [] keepd.
  Proof.
    intros Hok Hsep. cbn [sym_body]. fold esc_cls. rewrite esc_is, cls03, oct_cls, hex_cls. destruct c as [c|i]; [|destruct i as [b|e|ds|ds|ds]].
    - (* a letter *)
      destruct Hok as [Hs H92]. assert (Ht : char_text (Letter c) = utf8_bytes c).
      { unfold char_text, char_items. rewrite map_map. cbn [source]. induction (utf8_bytes c) as [|b l IH]; [reflexivity|]. cbn [map List.concat app]. now rewrite IH. }
      rewrite Ht. pose proof (utf8_chr c Hs) as Hx. destruct (chr_head _ _ Hx) as (b & y & Hy & Hb). assert (Hb92 : b <> bsl).
      { intros ->. destruct Hb as [(_ & H1 & _)|[_ H1]]; [apply H92; rewrite <- H1; reflexivity|cbn in H1; lia]. }
      assert (Hd : forall o, dies_but [bsl] o = true -> Fails o (utf8_bytes c ++ r)).
      { intros o Ho. apply (fails_but g log text [bsl]); [exact Ho|]. rewrite Hy. intros b' [<- |[]] X. injection X as ->. now apply Hb92. }
      eexists. apply reads_cho. do 5 (apply rc_next; [apply Hd; vm_compute; reflexivity|]). eapply rc_here.
      eapply reads_eq1; [apply reads_seq; eapply rs_c; [apply (reads_not g log text (chr bsl) (utf8_bytes c ++ r)); apply Hd; vm_compute; reflexivity|eapply rs_c; [eapply reads_dot; exact Hx|apply rs_nil|nrm]|nrm]|nrm..].
    - contradiction.
    - (* simple *)
      cbn in Hok. change (char_text (Escaped (Simple e))) with [bsl; e]. assert (He : (bN e < 128)%N) by (destruct e; try reflexivity; discriminate Hok).
      rewrite esc_simple in Hok. eexists. apply reads_cho. eapply rc_here.
      eapply reads_eq1; [apply reads_seq; eapply rs_c; [apply (reads_chr g log text bsl (e :: r)); reflexivity|eapply rs_c; [apply (reads_cls_b escr e r He Hok)|apply rs_nil|nrm]|nrm]|nrm..].
    - (* hex *)
      cbn [char_ok wf_item] in Hok. apply andb_true_iff in Hok as [Hok H2]. apply andb_true_iff in Hok as [H0 H1]. apply Nat.leb_le in H1, H2.
      replace (char_text (Escaped (Hex ds))) with ([bsl; x78] ++ ds) by (unfold char_text; cbn; now rewrite app_nil_r). pose proof (hexes ds H0) as Hds.
      eexists. apply reads_cho. do 3 (apply rc_next; [apply fails_seq; apply bsl_then; apply fs_head; apply fails_cls_e; reflexivity|]). eapply rc_here.
      destruct ds as [|d [|d2 [|? ?]]]; cbn in H1, H2; try lia; inversion Hds as [|? ? [A1 A2] A3]; subst.
      + destruct Hsep as [Hsep|Hsep]; [discriminate|]. eapply reads_eq1; [apply reads_seq; eapply rs_c; [apply (reads_lit g log text [bsl; x78] (d :: r)); now apply valid2|eapply rs_c; [apply (reads_cls_b hexr d r A1 A2)|
          eapply rs_c; [apply (reads_opt_none g log text _ r)|apply rs_nil|nrm]|nrm]|nrm]|nrm..].
        apply fails_cls_b; [reflexivity|]. intros b Hb. rewrite hex_dig. destruct r; [discriminate|]. injection Hb as ->. cbn in Hsep. now apply negb_true_iff.
      + inversion A3 as [|? ? [B1 B2] B3]; subst. eapply reads_eq1; [apply reads_seq; eapply rs_c; [apply (reads_lit g log text [bsl; x78] (d :: d2 :: r)); now apply valid2|eapply rs_c; [apply (reads_cls_b hexr d (d2 :: r) A1 A2)|
          eapply rs_c; [eapply reads_opt; apply (reads_cls_b hexr d2 r B1 B2)|apply rs_nil|nrm]|nrm]|nrm]|nrm..].
    - (* unicode *)
      assert (Hw : wf_item (Uni ds) = true /\ (forall d e a b c f, ds = [d; e; a; b; c; f] -> d = x30 \/ d = x31 /\ e = x30)).
      { destruct ds as [|d [|e [|a [|b [|c [|f [|? ?]]]]]]]; cbn in Hok; try (split; [exact Hok|]; discriminate). split; [apply Hok|]. intros ? ? ? ? ? ? X. injection X as <- <- _ _ _ _. apply Hok. }
      destruct Hw as [Hw H6]. cbn [wf_item] in Hw. apply andb_true_iff in Hw as [Hw H2]. apply andb_true_iff in Hw as [H0 H1]. apply Nat.leb_le in H1, H2. pose proof (hexes ds H0) as Hds.
      replace (char_text (Escaped (Uni ds))) with ([bsl; x75] ++ ds) by (unfold char_text; cbn; now rewrite app_nil_r).
      assert (Hin : exists C, Reads (cho [seq [cho [seq [chr x30; Cls hexr false false]; lit (bs "10")]; rep (Cls hexr false false) 4 (Some 4)]; rep (Cls hexr false false) 4 (Some 5)]) ds r C [] [] keepd).
      { destruct ds as [|d [|e ds]]; try (cbn in H1; lia). inversion Hds as [|? ? [A1 A2] A3]; subst. inversion A3 as [|? ? [B1 B2] B3]; subst. cbn [List.length] in H1, H2.
        assert (Hpre : forall t, (d = x30 \/ d = x31 /\ e = x30) -> exists C, Reads (cho [seq [chr x30; Cls hexr false false]; lit (bs "10")]) [d; e] t C [] [] keepd).
        { intros t [-> |[-> ->]].
          - eexists. apply reads_cho. eapply rc_here. eapply reads_eq1; [apply reads_seq; eapply rs_c; [apply (reads_chr g log text x30 (e :: t)); reflexivity|eapply rs_c; [apply (reads_cls_b hexr e t B1 B2)|apply rs_nil|nrm]|nrm]|nrm..].
          - eexists. apply reads_cho. apply rc_next; [apply fails_seq, fs_head, fails_chr; [reflexivity|discriminate]|]. eapply rc_here. apply (reads_lit g log text [x31; x30] t). now apply valid2. }
        destruct (Nat.eq_dec (List.length ds) 4) as [H4|H4].
        - destruct ds as [|d1 [|d2 [|d3 [|d4 [|? ?]]]]]; cbn in H4; try lia. destruct (Hpre ([d1; d2; d3; d4] ++ r) (H6 _ _ _ _ _ _ eq_refl)) as [C Hp].
          eexists. apply reads_cho. eapply rc_here. eapply reads_eq1; [apply reads_seq; eapply rs_c; [exact Hp|eapply rs_c; [apply (reads_digits hexr 4 (Some 4) [d1; d2; d3; d4] r); [reflexivity|exact B3|cbn; lia|cbn; lia|left; reflexivity]|apply rs_nil|nrm]|nrm]|nrm..].
        - assert (Hend : forall b, next_is b r -> in_cls hexr (bN b) = false).
          { destruct Hsep as [Hsep|Hsep]; [exfalso; destruct ds as [|? [|? [|? [|? [|? ?]]]]]; cbn in Hsep, H4; try discriminate Hsep; lia|].
            intros b Hb. rewrite hex_dig. destruct r; [discriminate|]. injection Hb as ->. cbn in Hsep. now apply negb_true_iff. }
          eexists. apply reads_cho. apply rc_next; [|eapply rc_here; apply (reads_digits hexr 4 (Some 5) (d :: e :: ds) r); [reflexivity|exact Hds|cbn; lia|cbn; lia|right; exact Hend]].
          apply fails_seq. assert (Hcase : (d = x30 \/ d = x31 /\ e = x30) \/ ~ (d = x30 \/ d = x31 /\ e = x30)).
          { destruct (beq d x30) eqn:X1; [apply beq_eq in X1; auto|]. apply beq_neq in X1. destruct (beq d x31) eqn:X2; [apply beq_eq in X2|apply beq_neq in X2; right; intros [X|[X _]]; auto].
            destruct (beq e x30) eqn:X3; [apply beq_eq in X3; auto|apply beq_neq in X3; right; intros [X|[_ X]]; auto]. }
          destruct Hcase as [Hc|Hc].
          + destruct (Hpre (ds ++ r) Hc) as [C Hp]. eapply fs_c; [exact Hp|reflexivity| |reflexivity]. apply fs_head. apply fails_digits; [reflexivity|exact B3|lia|exact Hend].
          + apply fs_head. apply fails_cho. apply fc_cons; [|apply fc_cons; [|apply fc_nil]].
            * apply fails_seq, fs_head, fails_chr; [reflexivity|]. intros X. injection X as ->. auto.
            * apply fails_lit. intros t X. injection X as -> -> _. auto. }
      destruct Hin as [C Hin]. eexists. apply reads_cho. do 3 (apply rc_next; [apply fails_seq; apply bsl_then; apply fs_head; apply fails_cls_e; reflexivity|]).
      apply rc_next; [apply fails_seq, fs_head, fails_lit; intros t X; discriminate|]. eapply rc_here.
      eapply reads_eq1; [apply reads_seq; eapply rs_c; [apply (reads_lit g log text [bsl; x75] (ds ++ r)); now apply valid2|eapply rs_c; [exact Hin|apply rs_nil|nrm]|nrm]|nrm..].
    - (* octal *)
      assert (Hw : wf_item (Oct ds) = true /\ (forall d e a, ds = [d; e; a] -> In d [x30; x31; x32; x33])).
      { destruct ds as [|d [|e [|a [|? ?]]]]; cbn in Hok; try (split; [exact Hok|]; discriminate). split; [apply Hok|]. intros ? ? ? X. injection X as <- _ _. apply Hok. }
      destruct Hw as [Hw H3]. cbn [wf_item] in Hw. apply andb_true_iff in Hw as [Hw H2]. apply andb_true_iff in Hw as [H0 H1]. apply Nat.leb_le in H1, H2.
      replace (char_text (Escaped (Oct ds))) with ([bsl] ++ ds) by (unfold char_text; cbn; now rewrite app_nil_r).
      assert (Hds : Forall (fun b => (bN b < 128)%N /\ in_cls octr (bN b) = true) ds).
      { rewrite forallb_forall in H0. apply Forall_forall. intros b Hb. split; [apply oct_asc; auto|]. rewrite oct_dig. auto. }
      assert (Hne : forall d t, is_digit_of oct_digits d = true -> Fails (Cls escr false false) (d :: t)).
      { intros d t Hd. apply fails_cls_e; [reflexivity|]. rewrite <- esc_simple. destruct d; try reflexivity; discriminate Hd. }
      destruct ds as [|d ds]; [cbn in H1; lia|]. cbn [forallb] in H0. apply andb_true_iff in H0 as [Hd0 _]. inversion Hds as [|? ? [A1 A2] A3]; subst.
      assert (H00 : Fails (seq [chr bsl; Cls escr false false]) (([bsl] ++ d :: ds) ++ r)) by (apply fails_seq; apply bsl_then; apply fs_head; now apply Hne).
      destruct (Nat.eq_dec (List.length ds) 2) as [Hl|Hl].
      + destruct ds as [|e [|a [|? ?]]]; cbn in Hl; try lia. inversion A3 as [|? ? [B1 B2] B3]; subst. inversion B3 as [|? ? [D1 D2] D3]; subst. eexists. apply reads_cho. apply rc_next; [exact H00|]. eapply rc_here.
        eapply reads_eq1; [apply reads_seq; eapply rs_c; [apply (reads_chr g log text bsl (d :: e :: a :: r)); reflexivity|eapply rs_c; [apply (reads_cls_b [(48, 51)]%N d (e :: a :: r) A1)|
           eapply rs_c; [apply (reads_cls_b octr e (a :: r) B1 B2)|eapply rs_c; [apply (reads_cls_b octr a r D1 D2)|apply rs_nil|nrm]|nrm]|nrm]|nrm]|nrm..].
        specialize (H3 _ _ _ eq_refl). cbn in H3. decompose [or] H3; subst; try reflexivity; contradiction.
      + assert (Hend : forall b, next_is b r -> in_cls octr (bN b) = false).
        { destruct Hsep as [Hsep|Hsep]; [exfalso; destruct ds as [|? [|? [|? ?]]]; cbn in Hsep, Hl; try discriminate Hsep; lia|].
          intros b Hb. rewrite oct_dig. apply oct_dec. destruct r; [discriminate|]. injection Hb as ->. cbn in Hsep. now apply negb_true_iff. }
        eexists. apply reads_cho. apply rc_next; [exact H00|]. apply rc_next.
        { apply fails_seq. apply bsl_then. destruct (in_cls [(48, 51)]%N (bN d)) eqn:X; [|apply fs_head; now apply fails_cls_e].
          eapply (fs_c g log text _ _ [d]); [now apply reads_cls_b|reflexivity| |reflexivity]. destruct ds as [|e ds]; [apply fs_head; now apply fails_cls_b|].
          inversion A3 as [|? ? [B1 B2] B3]; subst. eapply (fs_c g log text _ _ [e]); [now apply reads_cls_b|reflexivity| |reflexivity]. destruct ds; [|cbn in H2, Hl; lia]. apply fs_head; now apply fails_cls_b. }
        eapply rc_here. destruct ds as [|e [|? ?]]; [| |cbn in H2, Hl; lia].
        * eapply reads_eq1; [apply reads_seq; eapply rs_c; [apply (reads_chr g log text bsl (d :: r)); reflexivity|eapply rs_c; [apply (reads_cls_b octr d r A1 A2)|
            eapply rs_c; [apply (reads_opt_none g log text _ r); now apply fails_cls_b|apply rs_nil|nrm]|nrm]|nrm]|nrm..].
        * inversion A3 as [|? ? [B1 B2] B3]; subst. eapply reads_eq1; [apply reads_seq; eapply rs_c; [apply (reads_chr g log text bsl (d :: e :: r)); reflexivity|eapply rs_c; [apply (reads_cls_b octr d (e :: r) A1 A2)|
            eapply rs_c; [eapply reads_opt; apply (reads_cls_b octr e r B1 B2)|apply rs_nil|nrm]|nrm]|nrm]|nrm..].
  Qed.
End Chars.
