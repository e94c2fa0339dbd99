(** * The annotations decide as the plain operators do: the link between
    SetupFirstSets and the conditions [anns] of the engine theorems. *)
From Verif Require Import Base BaseLemmas Utf8 Utf8Proofs Escape TrieM Ope Ctx ErrLog Engine EngineLemmas Scope RefSem RefMono Refine RefineOps GrammarCond Top FirstSetM FirstSpec FirstSem FirstProofs FirstSetup.

Fixpoint runlen (s : bitset) (t : bytes) : nat :=
  match t with [] => 0 | b :: t' => if btest s b then S (runlen s t') else 0 end.
Lemma runlen_le s t : runlen s t <= List.length t.
Proof. induction t as [|b t IH]; cbn; [lia|]. destruct (btest s b); lia. Qed.
Lemma skipn_cons_nth (t : bytes) p b : nth_error t p = Some b -> skipn p t = b :: skipn (S p) t.
Proof. revert t. induction p as [|p IH]; intros [|x t] H; cbn in *; try discriminate; [inv H; reflexivity|]. now apply IH. Qed.
Lemma skipn_none (t : bytes) p : nth_error t p = None -> skipn p t = [].
Proof. intros H. apply skipn_all2. now apply nth_error_None. Qed.
Lemma scan_runlen s inp limit : forall pos, pos + limit <= List.length inp ->
  scan_while s inp pos limit = Ok (Nat.min limit (runlen s (skipn pos inp))).
Proof.
  induction limit as [|l IH]; intros pos H; [reflexivity|]. cbn [scan_while]. unfold rd.
  destruct (nth_error inp pos) as [b|] eqn:Hb. 2:{ apply nth_error_None in Hb. lia. }
  cbn [bind]. rewrite (skipn_cons_nth _ _ _ Hb). cbn [runlen]. destruct (btest s b); [|reflexivity].
  rewrite IH by lia. cbn [bind]. replace (pos + 1) with (S pos) by lia. reflexivity.
Qed.
Lemma in_ranges_plain rs cp lo hi : In (lo, hi) rs -> (lo <= cp <= hi)%N -> in_ranges false rs cp = Ok true.
Proof.
  intros Hin Hr. induction rs as [|r rs IH]; [destruct Hin|]. cbn [in_ranges]. unfold in_range. cbn [bind].
  destruct ((fst r <=? cp) && (cp <=? snd r))%N eqn:H; [reflexivity|]. destruct Hin as [->|Hin]; [|now apply IH].
  exfalso. cbn [fst snd] in H. destruct Hr as [H1 H2]. apply N.leb_le in H1, H2. rewrite H1, H2 in H. discriminate.
Qed.

Section Ann.
  Context {V U : Type} {kp : keepvals}.
  Notation env := (env V U).
  Notation sv := (sv V).
  Implicit Types (E : env) (vs : sv) (m : mode) (sd : seed V).

  Lemma decode_ascii E pos b : nth_error (e_input E) pos = Some b -> (bN b <= 0x7F)%N ->
    decode_codepoint_len (from (e_input E) pos) (left E pos) 0%N = Ok (1, bN b).
  Proof.
    intros Hb Hl. unfold decode_codepoint_len, decode_codepoint.
    assert (Hlt : pos < List.length (e_input E)) by (apply nth_error_Some; congruence).
    assert (Hpos : (0 <? left E pos) = true) by (apply Nat.ltb_lt; unfold left, inlen; lia).
    rewrite Hpos. unfold rd, from. rewrite nth_error_skipn. replace (pos + 0) with pos by lia. rewrite Hb. cbn [bind].
    rewrite lead1. replace (bN b <? 128)%N with true by (symmetry; apply N.ltb_lt; lia). reflexivity.
  Qed.

  Lemma cls_step E rs ic s odd pos vs x : plain_text (e_input E) -> (odd = false -> ascii_text (e_input E)) ->
    ascii_bitset rs false ic = Some s -> (ic = true -> class_exact rs) ->
    (odd = true -> forall lo hi, In (lo, hi) rs -> lo <> 0%N) ->
    ref_cls E rs false ic pos vs = Some x ->
    x = match nth_error (e_input E) pos with
        | Some b => if btest s b then Some (1, vs) else None
        | None => None
        end.
  Proof.
    intros Hp Ho Hs Hex Hn H. unfold ref_cls in H.
    destruct (nth_error (e_input E) pos) as [b|] eqn:Hb.
    2:{ apply nth_error_None in Hb. replace (left E pos) with 0 in H by (unfold left, inlen; lia). cbn in H. congruence. }
    assert (Hlt : pos < inlen E) by (apply nth_error_Some; congruence).
    replace (left E pos =? 0) with false in H by (symmetry; apply Nat.eqb_neq; unfold left; lia).
    oinv H. destruct a as [len cp]. oinv H. apply out_of_Some in Hm, Hm0. rewrite xorb_false_r in H. inv H.
    destruct (ascii_bitset_spec rs ic s b Hs) as [Ha Hspec].
    destruct (btest s b) eqn:Hbt.
    - destruct (proj1 Hspec eq_refl) as (lo & hi & b0 & Hin & Hr & Hc).
      assert (Hlo : (bN b0 <= 0x7F)%N).
      { unfold ascii_ranges in Ha. rewrite forallb_forall in Ha. specialize (Ha _ Hin). cbn in Ha. apply andb_prop in Ha as [_ Ha].
        apply N.leb_le in Ha. lia. }
      assert (Hb7 : (bN b <= 0x7F)%N).
      { unfold same_char in Hc. destruct ic; [|subst; exact Hlo].
        destruct (N.le_gt_cases (bN b) 0x7F) as [X|X]; [exact X|exfalso]. pose proof (tolower_low b0 Hlo) as Y.
        rewrite <- Hc, (tolower_high b X) in Y. lia. }
      rewrite (decode_ascii E pos b Hb Hb7) in Hm. inv Hm.
      assert (Hok : in_ranges ic rs (bN b) = Ok true).
      { destruct ic.
        - apply (Hex eq_refl). exists lo, hi, b0. unfold same_char in Hc. auto.
        - unfold same_char in Hc. subst b0. eapply in_ranges_plain; eauto. }
      rewrite Hok in Hm0. inv Hm0. reflexivity.
    - destruct a; [|reflexivity]. exfalso. destruct (in_ranges_ascii _ _ _ Ha Hm0) as (Hc & lo & hi & Hin & Hz & Hf).
      destruct (decode_plain E pos len cp Hp Hlt Hm Hc) as [(-> & -> & Hna)|(-> & b' & Hb' & <-)].
      + destruct odd; [|now apply Hna, Ho]. eapply Hn; eauto.
      + rewrite Hb in Hb'. inv Hb'. assert (X : false = true); [|discriminate X]. apply Hspec. destruct ic.
        * apply (Hex eq_refl) in Hm0 as (l & h & b0 & A & B & C). exists l, h, b0. cbn. auto.
        * exists lo, hi, b'. cbn. auto.
  Qed.

  Section Span.
    Variables (E : env) (s : bitset) (run : nat -> sv -> option (rv V)).
    Hypothesis Hrun : forall p vs x, run p vs = Some x ->
      x = match nth_error (e_input E) p with
          | Some b => if btest s b then Some (1, vs) else None
          | None => None
          end.
    Lemma span_min n : forall pos i vs x, ref_min run n pos i vs = Some x ->
      x = if n <=? runlen s (skipn (pos + i) (e_input E)) then Some (i + n, vs) else None.
    Proof.
      induction n as [|n IH]; intros pos i vs x H; cbn [ref_min] in H.
      - inv H. cbn. now rewrite Nat.add_0_r.
      - oinv H. pose proof (Hrun _ _ _ Hm) as Hx. destruct (nth_error (e_input E) (pos + i)) as [b|] eqn:Hb.
        + rewrite (skipn_cons_nth _ _ _ Hb). cbn [runlen]. destruct (btest s b); subst a; [|inv H; reflexivity].
          apply IH in H. replace (S (pos + i)) with (pos + (i + 1)) by lia. replace (i + S n) with (i + 1 + n) by lia. exact H.
        + rewrite (skipn_none _ _ Hb). subst a. inv H. reflexivity.
    Qed.
    Lemma span_more fuel : forall room pos i vs x, ref_more fuel run room pos i vs = Some x ->
      x = Some (i + match room with Some q => Nat.min q (runlen s (skipn (pos + i) (e_input E))) | None => runlen s (skipn (pos + i) (e_input E)) end, vs).
    Proof.
      induction fuel as [|fuel IH]; intros room pos i vs x H.
      - cbn [ref_more] in H. destruct room as [[|q]|]; inv H. cbn. now rewrite Nat.add_0_r.
      - cbn [ref_more] in H. destruct room as [[|q]|]; [inv H; cbn; now rewrite Nat.add_0_r| |].
        all: oinv H; pose proof (Hrun _ _ _ Hm) as Hx; destruct (nth_error (e_input E) (pos + i)) as [b|] eqn:Hb;
          [rewrite (skipn_cons_nth _ _ _ Hb); cbn [runlen]; destruct (btest s b); subst a|rewrite (skipn_none _ _ Hb); subst a; inv H; cbn; now rewrite ?Nat.min_0_r, Nat.add_0_r].
        1,3: apply IH in H; rewrite H; cbn [option_map pred]; replace (pos + (i + 1)) with (S (pos + i)) by lia; do 2 f_equal; lia.
        all: inv H; do 2 f_equal; lia.
    Qed.
    Lemma span_rep fuel mn mx pos vs x : (forall q, mx = Some q -> mn <= q) -> pos <= inlen E ->
      ref_rep fuel run mn mx pos vs = Some x ->
      exists i, scan_while s (e_input E) pos (span_limit E mx pos) = Ok i /\ x = (if i <? mn then None else Some (i, vs)).
    Proof.
      intros Hmx Hle H.
      assert (Hrl : runlen s (skipn pos (e_input E)) <= left E pos).
      { pose proof (runlen_le s (skipn pos (e_input E))). rewrite skipn_length in H0. unfold left, inlen. exact H0. }
      eexists. split.
      { apply scan_runlen. unfold span_limit, left, inlen in *. destruct mx; lia. }
      unfold ref_rep in H. oinv H. pose proof (span_min _ _ _ _ _ Hm) as Hmin. cbn [Nat.add] in Hmin. rewrite Nat.add_0_r in Hmin.
      set (rl := runlen s (skipn pos (e_input E))) in *.
      assert (Hlim : Nat.min (span_limit E mx pos) rl = match mx with Some q => Nat.min q rl | None => rl end).
      { unfold span_limit. destruct mx; lia. }
      rewrite Hlim. clear Hlim.
      destruct (mn <=? rl) eqn:Hc; subst a.
      - apply Nat.leb_le in Hc. assert (Hsk : mn + runlen s (skipn (pos + mn) (e_input E)) = rl).
        { clear -Hc. unfold rl in *. clear rl. revert Hc. generalize (e_input E). intros t. revert pos t. induction mn as [|mn IH]; intros pos t Hc.
          - now rewrite Nat.add_0_r.
          - destruct (nth_error t pos) as [b|] eqn:Hb.
            + rewrite (skipn_cons_nth _ _ _ Hb) in *. cbn [runlen] in *. destruct (btest s b); [|lia].
              replace (pos + S mn) with (S pos + mn) by lia. rewrite <- (IH (S pos) t) by lia. lia.
            + rewrite (skipn_none _ _ Hb) in Hc. cbn in Hc. lia. }
        assert (Hfin : x = Some (match mx with Some q => Nat.min q rl | None => rl end, vs)).
        { destruct mx as [q|].
          - specialize (Hmx q eq_refl). destruct (mn <? q) eqn:Hq.
            + apply span_more in H. rewrite H. do 2 f_equal. lia.
            + apply Nat.ltb_ge in Hq. inv H. do 2 f_equal. lia.
          - apply span_more in H. rewrite H. do 2 f_equal. lia. }
        rewrite Hfin. destruct mx as [q|].
        + specialize (Hmx q eq_refl). replace (Nat.min q rl <? mn) with false by (symmetry; apply Nat.ltb_ge; lia). reflexivity.
        + replace (rl <? mn) with false by (symmetry; apply Nat.ltb_ge; lia). reflexivity.
      - apply Nat.leb_gt in Hc. inv H. destruct mx as [q|].
        + replace (Nat.min q rl <? mn) with true by (symmetry; apply Nat.ltb_lt; lia). reflexivity.
        + replace (rl <? mn) with true by (symmetry; apply Nat.ltb_lt; lia). reflexivity.
    Qed.
  End Span.

  (** ** All annotations of an annotated grammar *)
  Section All.
    Variable g : grammar.                      (* the bare grammar *)
    Variable E : env.                          (* running with the annotated one *)
    Variable odd : bool.
    Hypothesis Hge : forall o, may_be_empty (e_g E) o -> may_be_empty g (strip o).
    Hypothesis Hgs : forall o c, starts (e_g E) o c -> starts g (strip o) c.
    Hypothesis Hplain : plain_text (e_input E).
    Hypothesis Hodd : odd = false -> ascii_text (e_input E).
    Hypothesis Hreg : regular_alternatives g (is_some (e_ws E)) odd.
    Hypothesis Hspan : regular_spans g odd.
    (* keyword guards are treated separately *)
    Hypothesis Hkw : forall r d b kg l l' kw, rule_body g r d b -> sub_ope (Seq kg l) b -> map strip l' = l ->
      kw_guard_of g l = Some kw -> ann_seq E (Some kw) l'.

    Lemma good_ann_cho r d b fl fs l : rule_body g r d b -> sub_ope (Cho fl [] (map strip l)) b ->
      Forall2 (good g) fs (map strip l) -> ann_cho E fs l.
    Proof.
      intros Hb Hsub Hf id o pos Ho Hp Hskip k sd fr m vs x Hsd Href.
      destruct x as [[n vs']|]; [exfalso|reflexivity].
      pose proof (ref_begins E Hplain k sd fr m o pos vs _ (seed_ok_sound E Hplain sd Hsd) Href) as Hbeg. cbn [fsound] in Hbeg.
      unfold fs_skip in Hskip. destruct (left E pos =? 0); [discriminate|].
      destruct (nth_error fs id) as [f|] eqn:Hfid; [|discriminate].
      destruct (fs_any_char f) eqn:Hany; [discriminate|]. destruct (fs_can_be_empty f) eqn:Hemp; [discriminate|]. cbn [orb] in Hskip.
      binv Hskip. inv Hskip. apply negb_true_iff in H0. unfold rd in Hm.
      destruct (nth_error (e_input E) pos) as [b0|] eqn:Hb0; inv Hm.
      assert (Hgood : good g f (strip o)).
      { clear -Hf Hfid Ho. revert id fs Hf Hfid Ho. induction l as [|y l IH]; intros [|id] fs Hf Hfid Ho; cbn in *; try discriminate; inv Hf; cbn in Hfid.
        - inv Hfid. inv Ho. assumption.
        - eapply IH; eauto. }
      destruct Hgood as [G1 G2].
      assert (Hin : In (strip o) (map strip l)) by (apply in_map; eapply nth_error_In; eauto).
      destruct (Hreg r d b fl [] (map strip l) (strip o) Hb Hsub Hin) as (R1 & [R2 R5] & R3 & R4).
      destruct Hbeg as [[-> He]|(c & Hc & Hfound)].
      - apply Hge in He. apply G1 in He. congruence.
      - apply Hgs in Hc. pose proof (G2 c Hc) as Hcov.
        destruct c as [b1| |w|q]; cbn in Hcov, Hfound; [congruence|congruence| |exact Hfound].
        destruct w; cbn in Hfound; auto.
        + destruct Hfound as [w Hw]. apply R3; [rewrite Hw; reflexivity|exact Hc].
        + apply R4; [|exact Hc]. destruct odd; [reflexivity|]. exfalso. now apply Hfound, Hodd.
    Qed.
    Lemma sub_self o : sub_ope o o.
    Proof. destruct o; cbn; auto. Qed.
    Lemma good_anns : forall o, good_ann g o -> forall r d b, rule_body g r d b -> (forall y, sub_ope y (strip o) -> sub_ope y b) -> anns E o.
    Proof.
      assert (Hlist : forall l r d b, Forall (fun o => good_ann g o -> forall r d b, rule_body g r d b -> (forall y, sub_ope y (strip o) -> sub_ope y b) -> anns E o) l ->
        Forall (good_ann g) l -> rule_body g r d b ->
        (forall y, (fix any l := match l with [] => False | a :: l' => sub_ope y a \/ any l' end) (map strip l) -> sub_ope y b) -> Forall (anns E) l).
      { induction l as [|o1 l IH]; intros r d b H1 H2 Hb Hs; [constructor|]. inv H1. inv H2. constructor.
        - match goal with X : good_ann g o1 -> _ |- _ => eapply X; eauto end. intros y Hy. apply Hs. cbn. now left.
        - eapply IH; eauto. intros y Hy. apply Hs. cbn. now right. }
      induction o using ope_ind'; cbn [good_ann anns]; intros Hga r0 d b Hb Hsub; try exact I;
        try (eapply IHo; [exact Hga|exact Hb|]; intros y Hy; apply Hsub; cbn; right; exact Hy).
      - destruct Hga as [Hkg Hl]. apply good_ann_all in Hl. split.
        + destruct Hkg as [->|Hkg]; [exact I|]. destruct kg as [kw|]; [|exact I].
          eapply Hkw; [exact Hb| |reflexivity|symmetry; exact Hkg]. apply Hsub. cbn [strip]. apply sub_self.
        + apply anns_all. eapply Hlist; eauto. intros y Hy. apply Hsub. cbn. right. exact Hy.
      - destruct Hga as [Hfs Hl]. apply good_ann_all in Hl. split.
        + destruct Hfs as [->|Hfs].
          * intros id o pos Ho Hp Hs. exfalso. unfold fs_skip in Hs. destruct (_ =? 0); [discriminate|].
            destruct id; cbn in Hs; discriminate.
          * eapply good_ann_cho; [exact Hb| |exact Hfs]. apply Hsub. cbn [strip]. apply sub_self.
        + apply anns_all. eapply Hlist; eauto. intros y Hy. apply Hsub. cbn. right. exact Hy.
      - destruct Hga as [Hsp Ho]. split.
        + destruct Hsp as [->|(rs & neg & ic & -> & Heq)]; [exact I|]. destruct sp as [s|]; [|exact I].
          destruct neg; [discriminate|]. symmetry in Heq.
          destruct (ascii_bitset_spec rs ic s x00 Heq) as [Ha _].
          destruct (Hspan r0 d b rs ic mn mx None Hb) as (S1 & S2 & S3); [apply Hsub; cbn [strip]; apply sub_self|exact Ha|].
          intros k sd fr m pos vs x Hsd Hle Href.
          eapply (span_rep E s (ref k E sd fr m (Cls rs false ic))); [|exact S1|exact Hle|exact Href].
          intros p vs' x' Hx. destruct k as [|k]; [discriminate|]. cbn [ref ref_core] in Hx.
          eapply cls_step; eauto.
        + eapply IHo; [exact Ho|exact Hb|]. intros y Hy. apply Hsub. cbn. right. exact Hy.
      - apply anns_all. rewrite forallb_forall in Hga. apply Forall_forall. intros a Hin. apply bare_anns. auto.
    Qed.
  End All.
End Ann.
