(** * Facts about textbook PEGs: determinism, suffixes, totality of well-founded
    grammars, an interpreter. *)
From Verif Require Import Base BaseLemmas Utf8 Utf8Spec Utf8Proofs EngineLemmas TrieSpec PegSpec.

Lemma same_length ic x y : same_text ic x = same_text ic y -> List.length x = List.length y.
Proof.
  intros H. apply (f_equal (@List.length _)) in H. destruct ic; cbn in H; rewrite ?map_length in H; exact H.
Qed.
Lemma app_same_len {A} (a b x y : list A) : List.length a = List.length b -> a ++ x = b ++ y -> a = b /\ x = y.
Proof.
  revert b. induction a as [|h a IH]; intros [|h' b] Hl H; cbn in *; try discriminate; auto.
  inv H. destruct (IH b) as [-> ->]; auto.
Qed.
(** Two code points at the start of the same text. *)
Lemma chr_unique cp cp' x x' s s' : scalar cp -> scalar cp' -> map bN x = rfc3629 cp -> map bN x' = rfc3629 cp' ->
  x ++ s = x' ++ s' -> cp = cp' /\ x = x' /\ s = s'.
Proof.
  intros Hc Hc' Hx Hx' H.
  assert (Ex : x = encode_codepoint cp) by (apply map_bN_inj; rewrite Hx; symmetry; now apply encode_rfc).
  assert (Ex' : x' = encode_codepoint cp') by (apply map_bN_inj; rewrite Hx'; symmetry; now apply encode_rfc).
  assert (Hd : decode_codepoint (x ++ s) (List.length (x ++ s)) = Ok (Some (List.length x, cp))).
  { rewrite Ex. apply encode_decode; [assumption|]. rewrite app_length. lia. }
  assert (Hd' : decode_codepoint (x' ++ s') (List.length (x' ++ s')) = Ok (Some (List.length x', cp'))).
  { rewrite Ex'. apply encode_decode; [assumption|]. rewrite app_length. lia. }
  rewrite H in Hd. rewrite Hd in Hd'. inversion Hd'. subst cp'. split; [reflexivity|].
  apply app_same_len; auto.
Qed.
Lemma chr_nonempty cp x : scalar cp -> map bN x = rfc3629 cp -> x <> [].
Proof.
  intros Hc Hx ->. pose proof (encode_len_bounds cp Hc) as H. rewrite encode_length, (encode_rfc cp Hc), <- Hx in H. cbn in H. lia.
Qed.

Section Facts.
  Context {NT : Type}.
  Variable G : NT -> pexp NT.
  Notation peg := (peg G).

  Ltac detf := match goal with
    | IH : forall r', peg ?a ?s r' -> _, H : peg ?a ?s _ |- _ => apply IH in H; try discriminate; inv H; auto
    end.
  Lemma peg_det e s r : peg e s r -> forall r', peg e s r' -> r = r'.
  Proof.
    induction 1 as [s|ic w x s Hx|ic w s Hn|ok cp x s Hs Hx Ho|ok cp x s Hs Hx Ho|ok|n s r _ IH|a b s t r _ IHa _ IHb
      |a b s _ IHa|a b s t _ IHa|a b s r _ IHa _ IHb|a s _ IHa|a s t r _ IHa _ IHb|a s t _ IHa|a s _ IHa]; intros r' H'.
    - inv H'. reflexivity.
    - inversion H' as [|? ? x' s' Hx' E1 E2 E3|? ? s' Hn' E1 E2 E3| | | | | | | | | | | |]; subst.
      + symmetry in E2. apply app_same_len in E2 as [_ ->]; [reflexivity|]. apply same_length in Hx, Hx'. lia.
      + exfalso. eapply Hn'; eauto.
    - inversion H' as [|? ? x' s' Hx' E1 E2 E3|? ? s' Hn' E1 E2 E3| | | | | | | | | | | |]; subst; [|reflexivity].
      exfalso. eapply Hn; eauto.
    - inversion H' as [| | |? cp' x' s' Hs' Hx' Ho' E1 E2 E3|? cp' x' s' Hs' Hx' Ho' E1 E2 E3|? E1 E2 E3| | | | | | | | |]; subst.
      + symmetry in E2. destruct (chr_unique _ _ _ _ _ _ Hs Hs' Hx Hx' E2) as (? & ? & ?); subst; auto.
      + symmetry in E2. destruct (chr_unique _ _ _ _ _ _ Hs Hs' Hx Hx' E2) as (? & ? & ?); subst; auto. congruence.
      + destruct x; [|discriminate]. exfalso. eapply chr_nonempty; eauto.
    - inversion H' as [| | |? cp' x' s' Hs' Hx' Ho' E1 E2 E3|? cp' x' s' Hs' Hx' Ho' E1 E2 E3|? E1 E2 E3| | | | | | | | |]; subst; auto.
      symmetry in E2. destruct (chr_unique _ _ _ _ _ _ Hs Hs' Hx Hx' E2) as (? & ? & ?); subst; auto. congruence.
    - inversion H' as [| | |? cp' x' s' Hs' Hx' Ho' E1 E2 E3|? cp' x' s' Hs' Hx' Ho' E1 E2 E3|? E1 E2 E3| | | | | | | | |]; subst; auto.
      destruct x'; [|discriminate]. exfalso. eapply chr_nonempty; eauto.
    - inv H'. auto.
    - inv H'; detf. 
    - inv H'; [detf|reflexivity].
    - inv H'; [detf|detf].
    - inv H'; detf.
    - inv H'; detf.
    - inv H'; detf.
    - inv H'; [reflexivity|detf].
    - inv H'; [detf|reflexivity].
  Qed.

  (** The rest is a suffix. *)
  Lemma peg_suffix e s r : peg e s r -> forall t, r = Some t -> exists x, s = x ++ t.
  Proof.
    induction 1; intros t' Ht; inversion Ht; subst; eauto; try (now exists []).
    - destruct (IHpeg1 _ eq_refl) as [x ->], (IHpeg2 _ eq_refl) as [y ->]. exists (x ++ y). now rewrite app_assoc.
    - destruct (IHpeg1 _ eq_refl) as [x ->], (IHpeg2 _ eq_refl) as [y ->]. exists (x ++ y). now rewrite app_assoc.
  Qed.
  Lemma peg_shorter e s t : peg e s (Some t) -> t = s \/ List.length t < List.length s.
  Proof.
    intros H. destruct (peg_suffix _ _ _ H t eq_refl) as [x ->]. destruct x; [now left|right].
    cbn. rewrite app_length. lia.
  Qed.

  (** ** Well-formed text stays well-formed *)
  Lemma utf8_cons cp cps x s : scalar cp -> map bN x = rfc3629 cp -> utf8_of cps s -> utf8_of (cp :: cps) (x ++ s).
  Proof.
    intros Hc Hx [A B]. split; [now constructor|]. rewrite map_app, Hx, B. reflexivity.
  Qed.
  Lemma utf8_uncons cps s : utf8_of cps s -> cps <> [] -> exists cp cps' x s', cps = cp :: cps' /\ s = x ++ s'
    /\ scalar cp /\ map bN x = rfc3629 cp /\ utf8_of cps' s'.
  Proof.
    intros H Hn. pose proof (utf8_of_encoded _ _ H) as Hs. destruct H as [A B]. destruct cps as [|cp cps]; [congruence|].
    inversion A as [|? ? Hcp Hcps]. subst. exists cp, cps, (encode_codepoint cp), (List.concat (map encode_codepoint cps)).
    split; [reflexivity|]. split; [reflexivity|]. split; [assumption|]. split; [now apply encode_rfc|].
    split; [assumption|]. rewrite concat_map, map_map. f_equal. apply map_ext_Forall.
    eapply Forall_impl; [|exact Hcps]. intros. now apply encode_rfc.
  Qed.
  Lemma valid_app_inv cps : forall w t, utf8_of cps w -> valid_utf8 (w ++ t) -> valid_utf8 t.
  Proof.
    induction cps as [|cp cps IH]; intros w t Hw [cps' Ht].
    - destruct Hw as [_ Hw]. cbn in Hw. destruct w; [|discriminate]. now exists cps'.
    - apply utf8_uncons in Hw as (cp1 & cps1 & x & w' & E1 & -> & Hc & Hx & Hw'); [|discriminate]. inv E1.
      destruct cps' as [|cp2 cps2].
      { destruct Ht as [_ Ht]. cbn in Ht. apply map_eq_nil in Ht. destruct x; [|discriminate]. exfalso. eapply chr_nonempty; eauto. }
      apply utf8_uncons in Ht as (cp3 & cps3 & x' & t' & E2 & Ht & Hc' & Hx' & Hv); [|discriminate]. inv E2.
      rewrite <- app_assoc in Ht. destruct (chr_unique _ _ _ _ _ _ Hc Hc' Hx Hx' Ht) as (? & ? & ?); subst.
      eapply IH; [exact Hw'|]. now exists cps3.
  Qed.
  Lemma valid_chr s : valid_utf8 s -> s = [] \/ exists cp x t, s = x ++ t /\ scalar cp /\ map bN x = rfc3629 cp /\ valid_utf8 t.
  Proof.
    intros [cps H]. destruct cps as [|cp cps].
    - left. destruct H as [_ H]. cbn in H. destruct s; [reflexivity|discriminate].
    - right. apply utf8_uncons in H as (cp1 & cps1 & x & t & E1 & -> & Hc & Hx & Hv); [|discriminate].
      exists cp1, x, t. repeat split; auto. now exists cps1.
  Qed.
  (** Case folding keeps code point boundaries. *)
  Lemma fold_high b : (128 <= bN (fold_case b))%N -> fold_case b = b.
  Proof. destruct b; cbn; intros; try reflexivity; exfalso; lia. Qed.
  Lemma fold_high' b : (128 <= bN b)%N -> fold_case b = b.
  Proof. destruct b; cbn; intros; try reflexivity; exfalso; lia. Qed.
  Lemma fold_low b : (bN b < 128)%N -> (bN (fold_case b) < 128)%N.
  Proof. destruct b; cbn; lia. Qed.
  Lemma rfc_low cp : (cp <= 0x7F)%N -> rfc3629 cp = [cp].
  Proof. intros H. unfold rfc3629. apply N.leb_le in H. now rewrite H. Qed.
  Lemma rfc_high cp : scalar cp -> (0x7F < cp)%N -> Forall (fun n => 128 <= n)%N (rfc3629 cp).
  Proof.
    intros Hs H. unfold rfc3629. destruct (N.leb_spec cp 0x7F); [lia|].
    destruct (cp <=? 0x7FF)%N; [|destruct (cp <=? 0xFFFF)%N]; repeat constructor; lia.
  Qed.
  Lemma valid_fold cps : forall w x, utf8_of cps w -> map fold_case x = map fold_case w -> valid_utf8 x.
  Proof.
    induction cps as [|cp cps IH]; intros w x Hw Hx.
    - destruct Hw as [_ Hw]. cbn in Hw. destruct w; [|discriminate]. destruct x; [|discriminate]. exists []. split; [constructor|reflexivity].
    - apply utf8_uncons in Hw as (cp1 & cps1 & y & w' & E1 & -> & Hc & Hy & Hw'); [|discriminate]. inv E1.
      rewrite map_app in Hx. apply map_eq_app in Hx as (x1 & x2 & -> & Hx1 & Hx2).
      destruct (IH w' x2 Hw' Hx2) as [cps2 Hv2].
      assert (exists cp', scalar cp' /\ map bN x1 = rfc3629 cp') as (cp' & Hs' & Hr').
      { destruct (N.le_gt_cases cp1 0x7F) as [Hl|Hl].
        - rewrite (rfc_low cp1 Hl) in Hy. destruct y as [|b [|? ?]]; try discriminate. inv Hy.
          destruct x1 as [|b1 [|? ?]]; try discriminate. cbn in Hx1. inversion Hx1 as [Hb].
          assert (bN b1 < 128)%N.
          { destruct (N.lt_ge_cases (bN b1) 128) as [Hq|Hq]; [assumption|]. rewrite (fold_high' b1 Hq) in Hb. subst b1.
            pose proof (fold_low b ltac:(lia)). lia. }
          exists (bN b1). split; [left; lia|]. rewrite rfc_low by lia. reflexivity.
        - pose proof (rfc_high cp1 Hc Hl) as Hh. rewrite <- Hy in Hh. exists cp1. split; [assumption|]. rewrite <- Hy.
          clear -Hh Hx1. revert x1 Hx1. induction y as [|b y IHy]; intros [|b1 x1] Hx1; try discriminate; [reflexivity|].
          cbn in *. inversion Hh as [|? ? Hb Hh']. inversion Hx1 as [[Hb1 Hx1']]. subst.
          rewrite (fold_high' b Hb) in Hb1.
          rewrite (fold_high b1) in Hb1 by (rewrite Hb1; assumption). rewrite Hb1. f_equal. apply IHy; assumption. }
      exists (cp' :: cps2). now apply utf8_cons.
  Qed.
  Lemma valid_lit ic w x t : valid_utf8 w -> same_text ic x = same_text ic w -> valid_utf8 (x ++ t) -> valid_utf8 t.
  Proof.
    intros [cps Hw] Hx Hv. destruct ic; cbn in Hx.
    - destruct (valid_fold cps w x Hw Hx) as [cps' Hx']. eapply valid_app_inv; eauto.
    - subst x. eapply valid_app_inv; eauto.
  Qed.
  Variable R : NT -> Prop.
  Lemma peg_valid e s r : peg e s r -> (forall n, R n -> well_formed_exp G R (G n)) ->
    well_formed_exp G R e -> valid_utf8 s -> forall t, r = Some t -> valid_utf8 t.
  Proof.
    intros H HG. induction H; intros He Hv t' Ht; inversion Ht; subst; cbn [well_formed_exp] in He; auto.
    - match goal with A : same_text _ _ = _ |- _ => exact (valid_lit _ _ _ _ He A Hv) end.
    - destruct (valid_chr _ Hv) as [E|(cp' & x' & t & E & Hc & Hx & Hz)].
      + apply app_eq_nil in E as [-> _]. exfalso. eapply chr_nonempty; eauto.
      + match goal with A : scalar cp, B : map bN x = _ |- _ => destruct (chr_unique _ _ _ _ _ _ A Hc B Hx E) as (? & ? & ?); subst; assumption end.
    - destruct He. eauto.
    - destruct He. eauto.
    - destruct He. eauto.
    - destruct He. eapply IHpeg2; [|eapply IHpeg1|]; eauto. split; assumption.
  Qed.

  (** ** Totality *)
  Definition total (e : pexp NT) (s : bytes) : Prop := exists r, peg e s r.
  Lemma lit_total ic w s : total (PLit ic w) s.
  Proof.
    set (x := firstn (List.length w) s).
    destruct (list_eq_dec Byte.byte_eq_dec (same_text ic x) (same_text ic w)) as [E|E].
    - exists (Some (skipn (List.length w) s)). rewrite <- (firstn_skipn (List.length w) s) at 1. now constructor.
    - exists None. constructor. intros y t -> Hy. apply E. unfold x. rewrite <- Hy. f_equal.
      rewrite <- (same_length _ _ _ Hy). rewrite firstn_app, firstn_all, Nat.sub_diag. cbn. apply app_nil_r.
  Qed.
  Lemma step_total e s : (forall n, R n -> well_formed_exp G R (G n)) ->
    (forall s' e', valid_utf8 s' -> List.length s' < List.length s -> well_formed_exp G R e' -> total e' s') ->
    valid_utf8 s -> well_formed_exp G R e -> (forall n, left_call G e n -> total (PNT n) s) -> total e s.
  Proof.
    intros HG Hs Hv. induction e as [|ic w|ok|n|a IHa b IHb|a IHa b IHb|a IHa|a IHa]; intros He Hl; cbn [well_formed_exp left_call] in *.
    - eexists. constructor.
    - apply lit_total.
    - destruct (valid_chr s Hv) as [->|(cp & x & t & -> & Hc & Hx & Ht)]; [eexists; apply peg_chr_end|].
      destruct (ok cp) eqn:Ho; eexists; [eapply peg_chr|eapply peg_chr_no]; eauto.
    - apply Hl. reflexivity.
    - destruct He as [Ha Hb]. destruct (IHa Ha (fun n H => Hl n (or_introl H))) as [[t|] Ht].
      + destruct (peg_shorter _ _ _ Ht) as [->|Hlt].
        * destruct (IHb Hb) as [r Hr]; [|eexists; eapply peg_seq; eauto].
          intros n Hn. apply Hl. right. split; [now exists s|assumption].
        * destruct (Hs t b) as [r Hr]; auto; [eapply peg_valid; eauto|]. eexists; eapply peg_seq; eauto.
      + eexists. apply peg_seq_no. exact Ht.
    - destruct He as [Ha Hb]. destruct (IHa Ha (fun n H => Hl n (or_introl H))) as [[t|] Ht].
      + eexists. apply peg_alt1. exact Ht.
      + destruct (IHb Hb (fun n H => Hl n (or_intror H))) as [r Hr]. eexists. apply peg_alt2; eauto.
    - pose proof He as [Hn Ha]. destruct (IHa Ha Hl) as [[t|] Ht].
      + destruct (peg_shorter _ _ _ Ht) as [->|Hlt]; [exfalso; apply Hn; now exists s|].
        destruct (Hs t (PStar a)) as [r Hr]; auto; [eapply peg_valid; eauto|]. eexists. eapply peg_star; eauto.
      + eexists. apply peg_star_end. exact Ht.
    - destruct (IHa He Hl) as [[t|] Ht]; eexists; [eapply peg_not|apply peg_not_no]; eauto.
  Qed.
  Theorem peg_total : well_formed G R -> forall e s, valid_utf8 s -> well_formed_exp G R e -> exists r, peg e s r.
  Proof.
    intros HW e s. remember (List.length s) as n eqn:Hn. revert e s Hn.
    induction n as [n IH] using (well_founded_induction lt_wf). intros e s Hn Hv He.
    assert (HG : forall n, R n -> well_formed_exp G R (G n)) by (intros; now apply HW).
    assert (Hs : forall s' e', valid_utf8 s' -> List.length s' < List.length s -> well_formed_exp G R e' -> total e' s').
    { intros s' e' Hv' Hlt He'. eapply IH; eauto. lia. }
    assert (HN : forall m, R m -> total (PNT m) s).
    { intros m Hm. destruct (HW m Hm) as [_ Ha]. revert Hm. induction Ha as [m _ IHm]. intros Hm.
      destruct (step_total (G m) s HG Hs Hv (HG m Hm)) as [r Hr].
      - intros m' Hl. apply IHm; [assumption|]. clear -Hl Hm HG. specialize (HG m Hm).
        revert HG Hl. generalize (G m). induction p; cbn [well_formed_exp left_call]; intros Hw Hl; try tauto. now subst.
      - eexists. apply peg_nt. exact Hr. }
    eapply step_total; eauto. intros m Hl. apply HN. clear -Hl He.
    revert He Hl. induction e; cbn [well_formed_exp left_call]; intros Hw Hl; try tauto. now subst.
  Qed.
End Facts.

(** ** Expressions that always consume *)
Section Consumes.
  Context {NT : Type}.
  Variable G : NT -> pexp NT.
  Lemma app_nil_of {A} (x s : list A) : x ++ s = s -> x = [].
  Proof. intros H. apply (app_inv_tail s x []). exact H. Qed.
  Lemma chr_consumes ok : ~ can_be_empty G (PChr ok).
  Proof.
    intros [s H]. remember (PChr ok) as e eqn:He. remember (Some s) as r eqn:Hr.
    destruct H; try discriminate. inversion Hr as [Hs].
    assert (x = []) as -> by (eapply app_nil_of; eauto). cbn in H0. unfold rfc3629 in H0.
    repeat (destruct (_ <=? _)%N in H0; [discriminate|]). discriminate.
  Qed.
  Lemma lit_consumes ic b w : ~ can_be_empty G (PLit ic (b :: w)).
  Proof.
    intros [s H]. remember (PLit ic (b :: w)) as e eqn:He. remember (Some s) as r eqn:Hr.
    destruct H; try discriminate. inversion Hr as [Hs]. inversion He; subst.
    assert (x = []) as -> by (eapply app_nil_of; eauto). destruct ic; discriminate.
  Qed.
  Lemma seq_empty a b : can_be_empty G (PSeq a b) -> can_be_empty G a /\ can_be_empty G b.
  Proof.
    intros [s H]. inversion H; subst.
    match goal with H1 : peg _ a s (Some ?t), H2 : peg _ b ?t _ |- _ =>
      destruct (peg_suffix _ _ _ _ H1 t eq_refl) as [x Hx]; destruct (peg_suffix _ _ _ _ H2 s eq_refl) as [y Hy] end.
    assert (t = s) as ->.
    { subst t. destruct x; [exact (eq_sym Hx)|]. apply (f_equal (@List.length _)) in Hx. rewrite !app_length in Hx. cbn in Hx. lia. }
    split; eexists; eauto.
  Qed.
  Lemma seq_consumes a b : ~ can_be_empty G a -> ~ can_be_empty G (PSeq a b).
  Proof. intros Ha H. apply Ha. now apply seq_empty in H. Qed.
  Lemma alt_empty a b : can_be_empty G (PAlt a b) -> can_be_empty G a \/ can_be_empty G b.
  Proof. intros [s H]. inversion H; subst; [left|right]; eexists; eauto. Qed.
  Lemma nt_empty n : can_be_empty G (PNT n) -> can_be_empty G (G n).
  Proof. intros [s H]. inversion H; subst. eexists; eauto. Qed.
End Consumes.
