(** * A PEG derivation is followed by the reference semantics. *)
From Verif Require Import Base BaseLemmas Utf8 Utf8Spec Utf8Proofs Escape EscapeProofs TrieM TrieSpec TrieProofs LineInfo Ope Ctx ErrLog Engine EngineLemmas
  Frame Mono EngineSpec Cut EngineFacts Scope Bounds RefSem RefMono RefWord PegSpec PegFacts DicDen PegDen PegWord.

(** ** Derivations with a height *)
Section Height.
  Context {NT : Type}.
  Variable G : NT -> pexp NT.
  Fixpoint ph (k : nat) (e : pexp NT) (s : bytes) (r : option bytes) : Prop :=
    match k with
    | O => False
    | S k' =>
      match e with
      | PEps => r = Some s
      | PLit _ _ | PChr _ => peg G e s r
      | PNT n => ph k' (G n) s r
      | PSeq a b => (ph k' a s None /\ r = None) \/ exists t, ph k' a s (Some t) /\ ph k' b t r
      | PAlt a b => (exists t, ph k' a s (Some t) /\ r = Some t) \/ (ph k' a s None /\ ph k' b s r)
      | PStar a => (ph k' a s None /\ r = Some s) \/ exists t, ph k' a s (Some t) /\ ph k' (PStar a) t r
      | PNot a => (ph k' a s None /\ r = Some s) \/ exists t, ph k' a s (Some t) /\ r = None
      end
    end.
  Lemma ph_mono k : forall k' e s r, k <= k' -> ph k e s r -> ph k' e s r.
  Proof.
    induction k as [|k IH]; intros [|k'] e s r Hk H; try lia; [destruct H|destruct H|].
    assert (IH' : forall e s r, ph k e s r -> ph k' e s r) by (intros; apply IH; [lia|assumption]).
    destruct e; cbn [ph] in *; auto.
    - destruct H as [[A B]|(t & A & B)]; eauto 6.
    - destruct H as [(t & A & B)|[A B]]; eauto 6.
    - destruct H as [[A B]|(t & A & B)]; eauto 6.
    - destruct H as [[A B]|(t & A & B)]; eauto 6.
  Qed.
  Lemma peg_ph e s r : peg G e s r -> exists k, ph k e s r.
  Proof.
    assert (M : forall k1 k2 e s r, ph k1 e s r -> ph (k1 + k2) e s r) by (intros; eapply ph_mono; [|eassumption]; lia).
    assert (M' : forall k1 k2 e s r, ph k2 e s r -> ph (k1 + k2) e s r) by (intros; eapply ph_mono; [|eassumption]; lia).
    induction 1 as [s|ic w x s Hx|ic w s Hn|ok cp x s Hs Hx Ho|ok cp x s Hs Hx Ho|ok|n s r _ IH|a b s t r _ IHa _ IHb
      |a b s _ IHa|a b s t _ IHa|a b s r _ IHa _ IHb|a s _ IHa|a s t r _ IHa _ IHb|a s t _ IHa|a s _ IHa];
      try destruct IHa as [k1 IHa]; try destruct IHb as [k2 IHb]; try destruct IH as [k1 IH].
    - exists 1. reflexivity.
    - exists 1. cbn. now constructor.
    - exists 1. cbn. now constructor.
    - exists 1. cbn. econstructor; eauto.
    - exists 1. cbn. eapply peg_chr_no; eauto.
    - exists 1. cbn. constructor.
    - exists (S k1). exact IH.
    - exists (S (k1 + k2)). cbn. right. eauto.
    - exists (S k1). cbn. eauto.
    - exists (S k1). cbn. eauto.
    - exists (S (k1 + k2)). cbn. right. eauto.
    - exists (S k1). cbn. eauto.
    - exists (S (k1 + k2)). cbn [ph]. right. eauto.
    - exists (S k1). cbn. eauto.
    - exists (S k1). cbn. eauto.
  Qed.
  Lemma ph_peg k : forall e s r, ph k e s r -> peg G e s r.
  Proof.
    induction k as [|k IH]; intros e s r H; [destruct H|]. destruct e; cbn [ph] in H.
    - subst. constructor.
    - exact H.
    - exact H.
    - apply peg_nt. auto.
    - destruct H as [[A ->]|(t & A & B)]; [apply peg_seq_no; auto|eapply peg_seq; eauto].
    - destruct H as [(t & A & ->)|[A B]]; [apply peg_alt1; auto|apply peg_alt2; auto].
    - destruct H as [[A ->]|(t & A & B)]; [apply peg_star_end; auto|eapply peg_star; eauto].
    - destruct H as [[A ->]|(t & A & ->)]; [apply peg_not_no; auto|eapply peg_not; eauto].
  Qed.
End Height.

Section PegRef.
  Context {V U : Type}.
  Notation env := (env V U).
  Notation sv := (sv V).
  Implicit Types (E : env) (vs : sv) (m : mode).

  Section One.
    Variable E : env.
    Variable isw : bytes -> option bool.
    Hypothesis Hpred : forall r, e_pred E r = None.
    Notation G := (peg_word (e_g E) (e_ws E) (e_word E) isw).
    Notation D fr m o := (bounded (den (e_g E) (e_ws E) fr m o)).
    Notation inp := (e_input E).
    (** The boundary after a literal is the %word check. *)
    Hypothesis Hbound : forall k s pos r, ph G k (PNT (WBound s)) (from inp (pos + List.length s)) r ->
      pos + List.length s <= List.length inp ->
      exists j b, word_lit (ref j) E s pos = Some b /\ r = if b then Some (from inp (pos + List.length s)) else None.
    (** So is the boundary after a word of a dictionary. *)
    Hypothesis Hdend : forall k pos r, ph G k (PNT WEnd) (from inp pos) r -> pos <= List.length inp ->
      exists j b, word_dic (ref j) E pos = Some b /\ r = if b then Some (from inp pos) else None.
    Notation run k fr m o := (ref k E None fr m o).

    (** The reference result [y] at [pos] is the PEG result [r]. *)
    Definition agree (pos : nat) (r : option bytes) (y : rv V) : Prop :=
      match r, y with
      | None, None => True
      | Some t, Some (n, _) => pos + n <= List.length inp /\ t = from inp (pos + n)
      | _, _ => False
      end.
    Definition follows (k : nat) (fr : fram) m (o : ope) : Prop :=
      forall k' s r, k' <= k -> ph G k' (D fr m o) s r ->
      forall pos vs, pos <= List.length inp -> s = from inp pos ->
      exists j y, run j fr m o pos vs = Some y /\ agree pos r y.

    Lemma bounded_seqs (f : ope -> pexp nt) l : bounded (PSeqs (map f l)) = PSeqs (map (fun o => bounded (f o)) l).
    Proof. induction l as [|o l IH]; [reflexivity|]. cbn. f_equal. exact IH. Qed.
    Lemma bounded_alts (f : ope -> pexp nt) l : bounded (PAlts (map f l)) = PAlts (map (fun o => bounded (f o)) l).
    Proof. induction l as [|o l IH]; [reflexivity|]. cbn. f_equal. exact IH. Qed.
    Lemma bounded_times n (e : pexp nt) : bounded (PTimes n e) = PTimes n (bounded e).
    Proof. induction n as [|n IH]; [reflexivity|]. cbn. now f_equal. Qed.
    Lemma bounded_upto n (e : pexp nt) : bounded (PUpTo n e) = PUpTo n (bounded e).
    Proof. induction n as [|n IH]; [reflexivity|]. cbn. now rewrite IH. Qed.
    Lemma bounded_repeat mn mx (e : pexp nt) : bounded (PRepeat mn mx e) = PRepeat mn mx (bounded e).
    Proof. unfold PRepeat. destruct mx as [x|]; [destruct (mn <? x)|]; cbn; now rewrite ?bounded_times, ?bounded_upto. Qed.
    Lemma from_from (s : bytes) a b : from (from s a) b = from s (a + b).
    Proof. unfold from. revert s. induction a as [|a IH]; intros s; [reflexivity|]. destruct s; cbn; [now rewrite skipn_nil|apply IH]. Qed.
    Lemma lift {j j' fr m o pos vs y} : j <= j' -> run j fr m o pos vs = Some y -> run j' fr m o pos vs = Some y.
    Proof. intros H. now apply ref_mono. Qed.
    Lemma lift_then {j j' m pos n vs y} : j <= j' -> ref_then (ref j) E m pos n vs = Some y -> ref_then (ref j') E m pos n vs = Some y.
    Proof. intros H. apply sub_Some. apply s_then. intros. now apply ref_sub. Qed.
    Lemma app_from (x t : bytes) pos : pos <= List.length inp -> from inp pos = x ++ t ->
      pos + List.length x <= List.length inp /\ t = from inp (pos + List.length x) /\ sub inp pos (List.length x) = x.
    Proof.
      intros Hp H. assert (Hl : List.length (from inp pos) = List.length inp - pos) by apply from_length.
      rewrite H, app_length in Hl. split; [lia|]. split.
      - rewrite <- from_from, H. unfold from. rewrite skipn_app, skipn_all, Nat.sub_diag. reflexivity.
      - unfold sub. fold (from inp pos). rewrite H, firstn_app, firstn_all, Nat.sub_diag. cbn. apply app_nil_r.
    Qed.

    Lemma f_pchr ok s r pos vs : peg G (PChr ok) s r -> pos <= List.length inp -> s = from inp pos ->
      (s = [] /\ r = None /\ left E pos = 0) \/
      exists cp n, 0 < left E pos /\ decode_codepoint_len (from inp pos) (left E pos) 0%N = Ok (n, cp)
        /\ codepoint_length (from inp pos) (left E pos) = Ok n /\ 0 < n
        /\ agree pos r (if ok cp then Some (n, vs) else None).
    Proof.
      intros H Hp Hs. assert (Hl : left E pos = List.length (from inp pos)) by (rewrite from_length; reflexivity).
      assert (K : forall cp x t, scalar cp -> map bN x = rfc3629 cp -> from inp pos = x ++ t ->
        0 < left E pos /\ decode_codepoint_len (from inp pos) (left E pos) 0%N = Ok (List.length x, cp)
        /\ codepoint_length (from inp pos) (left E pos) = Ok (List.length x) /\ 0 < List.length x
        /\ pos + List.length x <= List.length inp /\ t = from inp (pos + List.length x)).
      { intros cp x t Hc Hx Hf. destruct (app_from x t pos Hp Hf) as (A & B & _).
        assert (Ex : x = encode_codepoint cp) by (apply map_bN_inj; rewrite Hx; symmetry; now apply encode_rfc).
        pose proof (chr_nonempty _ _ Hc Hx) as Hne.
        assert (Hx0 : 0 < List.length x) by (destruct x; [congruence|cbn; lia]).
        destruct (encode_decode cp t (left E pos) Hc) as [D1 D2].
        { rewrite <- Ex, Hl, Hf, app_length. lia. }
        rewrite <- Ex in D1, D2. rewrite Hf.
        split; [rewrite Hl, Hf, app_length; lia|]. unfold decode_codepoint_len. rewrite D1. cbn. auto. }
      inversion H as [| | |? cp x t Hc Hx Ho E1 E2 E3|? cp x t Hc Hx Ho E1 E2 E3|? E1 E2 E3| | | | | | | | |]; subst.
      - right. symmetry in E2 || idtac. destruct (K cp x t Hc Hx) as (A & B & C & D & F & I); [congruence|].
        exists cp, (List.length x). rewrite Ho. cbn. auto 8.
      - right. destruct (K cp x t Hc Hx) as (A & B & C & D & F & I); [congruence|].
        exists cp, (List.length x). rewrite Ho. cbn. auto 8.
      - left. rewrite Hl. rewrite <- E2. auto.
    Qed.
    Lemma in_ranges_class rs cp neg : exists b, in_ranges false rs cp = Ok b /\ xorb b neg = in_class rs neg cp.
    Proof.
      unfold in_class. induction rs as [|r rs (b & Hb & Hx)]; [exists false; split; [reflexivity|]; now destruct neg|].
      cbn [in_ranges existsb]. unfold in_range. cbn [bind]. destruct ((_ <=? _)%N && _).
      - exists true. split; [reflexivity|]. now destruct neg.
      - exists b. auto.
    Qed.

    Lemma f_plit (ic : bool) (w s : bytes) r pos vs : peg G (PLit ic w) s r -> pos <= List.length inp -> s = from inp pos ->
      exists b, lit_loop inp pos (left E pos) (if ic then to_lower w else w) ic = Ok b
        /\ agree pos r (if b then Some (List.length w, vs) else None).
    Proof.
      intros H Hp Hs.
      destruct (lit_loop_iff inp ic (if ic then to_lower w else w) pos (left E pos)) as (b & Hb & Hi); [unfold left, inlen; lia|].
      exists b. split; [exact Hb|].
      assert (Hi' : b = true <-> same_text ic (sub inp pos (List.length w)) = same_text ic w).
      { unfold same_text. destruct ic; [|exact Hi]. rewrite to_lower_length in Hi. rewrite !to_lower_fold in Hi. exact Hi. }
      clear Hi. inversion H as [|? ? x t Hx E1 E2 E3|? ? t Hn E1 E2 E3| | | | | | | | | | | |]; subst.
      - assert (Hf : from inp pos = x ++ t) by congruence. destruct (app_from x t pos Hp Hf) as (A & B & C).
        pose proof (same_length _ _ _ Hx) as Hl. rewrite Hl in *. rewrite C in Hi'.
        destruct b; [|destruct Hi' as [_ Hi']; discriminate (Hi' Hx)]. cbn. auto.
      - destruct b; [|exact I]. exfalso. destruct Hi' as [Hi' _]. specialize (Hi' eq_refl).
        eapply Hn; [|exact Hi']. unfold sub. symmetry. apply firstn_skipn.
    Qed.

    Lemma f_pskip k : (forall k1 fr m o, k1 < k -> follows k1 fr m o) ->
      forall k1 m s r pos vs, k1 <= k -> ph G k1 (PNT (WMain (NSkip m))) s r -> pos <= List.length inp -> s = from inp pos ->
      exists j y, ref_skip (ref j) E m pos vs = Some y /\ agree pos r y.
    Proof.
      intros IH k1 m s r pos vs Hk H Hp Hs. destruct k1 as [|k1]; [destruct H|]. cbn [ph peg_word peg_of bounded] in H. unfold ref_skip.
      destruct (e_ws E) as [w|] eqn:Hw.
      - destruct (m_tok m).
        + exists 0, (Some (0, vs)). split; [reflexivity|]. destruct k1; [destruct H|]. cbn in H. subst. cbn. rewrite Nat.add_0_r. auto.
        + rewrite <- Hw in H. destruct (IH k1 no_frame m w ltac:(lia) k1 s r (le_n _) H pos vs Hp Hs) as (j & y & A & B). eauto.
      - exists 0, (Some (0, vs)). split; [reflexivity|]. destruct k1; [destruct H|]. cbn in H. subst. cbn. rewrite Nat.add_0_r. auto.
    Qed.
    Lemma f_pthen k : (forall k1 fr m o, k1 < k -> follows k1 fr m o) ->
      forall k1 m r pos n vs, k1 <= k -> ph G k1 (PNT (WMain (NSkip m))) (from inp (pos + n)) r -> pos + n <= List.length inp ->
      exists j y, ref_then (ref j) E m pos n vs = Some y /\ agree pos r y.
    Proof.
      intros IH k1 m r pos n vs Hk H Hp. destruct (f_pskip k IH k1 m _ r (pos + n) vs Hk H Hp eq_refl) as (j & y & A & B).
      exists j. unfold ref_then. rewrite A. cbn. eexists. split; [reflexivity|].
      destruct r, y as [[q v]|]; cbn in *; auto. now rewrite Nat.add_assoc.
    Qed.

    Lemma f_pseq k fr m l : Forall (fun o => follows k fr m o) l ->
      forall k1 s r pos i vs, k1 <= k -> ph G k1 (PSeqs (map (fun o => D fr m o) l)) s r ->
      pos + i <= List.length inp -> s = from inp (pos + i) ->
      exists j y, ref_seq (ref j E None fr m) l pos i vs = Some y /\ agree pos r y.
    Proof.
      induction 1 as [|o l Ho Hl IH]; intros k1 s r pos i vs Hk H Hp Hs; (destruct k1 as [|k1]; [destruct H|]).
      - cbn in H. subst. exists 0, (Some (i, vs)). cbn. auto.
      - cbn [PSeqs map fold_right ph] in H. destruct H as [[A ->]|(t & A & B)].
        + destruct (Ho k1 s None ltac:(lia) A (pos + i) vs Hp Hs) as (j & y & C & D).
          exists j. cbn [ref_seq]. rewrite C. cbn [obind]. destruct y as [[? ?]|]; [destruct D|]. eexists. split; [reflexivity|exact I].
        + destruct (Ho k1 s (Some t) ltac:(lia) A (pos + i) vs Hp Hs) as (j & y & C & D).
          destruct y as [[n v]|]; [|destruct D]. destruct D as [D1 ->].
          destruct (IH k1 (from inp (pos + i + n)) r pos (i + n) v) as (j' & y' & F1 & F2); auto; try lia; try (f_equal; lia).
          exists (j + j'), y'. split; [|exact F2]. cbn [ref_seq]. rewrite (lift (Nat.le_add_r j j') C). cbn [obind].
          revert F1. apply sub_Some, s_seq. intros. apply ref_sub. lia.
    Qed.
    Lemma f_pcho k fr m l : Forall (fun o => follows k fr m o) l ->
      forall k1 s r total id pos vs, k1 <= k -> ph G k1 (PAlts (map (fun o => D fr m o) l)) s r ->
      pos <= List.length inp -> s = from inp pos ->
      exists j y, ref_cho (ref j E None fr m) total l id pos vs = Some y /\ agree pos r y.
    Proof.
      induction 1 as [|o l Ho Hl IH]; intros k1 s r total id pos vs Hk H Hp Hs; (destruct k1 as [|k1]; [destruct H|]).
      - exists 0, None. split; [reflexivity|]. cbn in H. destruct H as [[A B]|(t & A & B)].
        + destruct k1; [destruct A|]. cbn in A. discriminate.
        + subst. exact I.
      - cbn [PAlts map fold_right ph] in H. destruct H as [(t & A & ->)|[A B]].
        + destruct (Ho k1 s (Some t) ltac:(lia) A pos vs Hp Hs) as (j & y & C & D).
          exists j. cbn [ref_cho]. rewrite C. cbn [obind]. destruct y as [[? ?]|]; [|destruct D]. eexists. split; [reflexivity|exact D].
        + destruct (Ho k1 s None ltac:(lia) A pos vs Hp Hs) as (j & y & C & D).
          destruct y as [[n v]|]; [destruct D|].
          destruct (IH k1 s r total (S id) pos vs) as (j' & y' & F1 & F2); auto; try lia.
          exists (j + j'), y'. split; [|exact F2]. cbn [ref_cho]. rewrite (lift (Nat.le_add_r j j') C). cbn [obind].
          revert F1. apply sub_Some, s_cho. intros. apply ref_sub. lia.
    Qed.
    Lemma f_pmin k fr m e n : follows k fr m e ->
      forall k1 s r pos i vs, k1 <= k -> ph G k1 (PTimes n (D fr m e)) s r ->
      pos + i <= List.length inp -> s = from inp (pos + i) ->
      exists j y, ref_min (run j fr m e) n pos i vs = Some y /\ agree pos r y.
    Proof.
      intros He. induction n as [|n IH]; intros k1 s r pos i vs Hk H Hp Hs; (destruct k1 as [|k1]; [destruct H|]).
      - cbn in H. subst. exists 0, (Some (i, vs)). cbn. auto.
      - cbn [PTimes ph] in H. destruct H as [[A ->]|(t & A & B)].
        + destruct (He k1 s None ltac:(lia) A (pos + i) vs Hp Hs) as (j & y & C & D).
          exists j. cbn [ref_min]. rewrite C. cbn [obind]. destruct y as [[? ?]|]; [destruct D|]. eexists. split; [reflexivity|exact I].
        + destruct (He k1 s (Some t) ltac:(lia) A (pos + i) vs Hp Hs) as (j & y & C & D).
          destruct y as [[q v]|]; [|destruct D]. destruct D as [D1 ->].
          destruct (IH k1 (from inp (pos + i + q)) r pos (i + q) v) as (j' & y' & F1 & F2); auto; try lia; try (f_equal; lia).
          exists (j + j'), y'. split; [|exact F2]. cbn [ref_min]. rewrite (lift (Nat.le_add_r j j') C). cbn [obind].
          revert F1. apply sub_Some, s_min. intros. apply ref_sub. lia.
    Qed.
    (** More iterations, bounded. *)
    Lemma f_pupto k fr m e n : follows k fr m e ->
      forall k1 s r pos i vs, k1 <= k -> ph G k1 (PUpTo n (D fr m e)) s r ->
      pos + i <= List.length inp -> s = from inp (pos + i) ->
      exists j y, ref_more j (run j fr m e) (Some n) pos i vs = Some y /\ agree pos r y.
    Proof.
      intros He. induction n as [|n IH]; intros k1 s r pos i vs Hk H Hp Hs; (destruct k1 as [|k1]; [destruct H|]).
      - cbn in H. subst. exists 1, (Some (i, vs)). cbn. auto.
      - cbn [PUpTo ph] in H.
        assert (Hend : ph G k1 (D fr m e) s None -> r = Some s ->
          exists j y, ref_more j (run j fr m e) (Some (S n)) pos i vs = Some y /\ agree pos r y).
        { intros A ->. destruct (He k1 s None ltac:(lia) A (pos + i) vs Hp Hs) as (j & y & C & D).
          exists (S j), (Some (i, vs)). cbn [ref_more]. rewrite (lift (Nat.le_succ_diag_r j) C). cbn [obind]. destruct y as [[? ?]|]; [destruct D|].
          split; [reflexivity|]. cbn. auto. }
        assert (Hmore : forall t r', ph G k1 (D fr m e) s (Some t) ->
          ph G k1 (PUpTo n (D fr m e)) t r' ->
          exists j y, ref_more j (run j fr m e) (Some (S n)) pos i vs = Some y /\ agree pos r' y).
        { intros t r' A B. destruct (He k1 s (Some t) ltac:(lia) A (pos + i) vs Hp Hs) as (j & y & C & D).
          destruct y as [[q v]|]; [|destruct D]. destruct D as [D1 ->].
          destruct (IH k1 (from inp (pos + i + q)) r' pos (i + q) v) as (j' & y' & F1 & F2); auto; try lia; try (f_equal; lia).
          exists (S (j + j')), y'. split; [|exact F2]. cbn [ref_more]. rewrite (lift (Nat.le_trans _ _ _ (Nat.le_add_r j j') (Nat.le_succ_diag_r _)) C). cbn [obind option_map pred].
          revert F1. apply sub_Some, s_more; [|lia]. intros. apply ref_sub. lia. }
        destruct k1 as [|k1].
        { destruct H as [(t & A & _)|[A _]]; destruct A. }
        cbn [ph] in H. destruct H as [(t & [[A B]|(t' & A & B)] & ->)|[[[A _]|(t' & A & B)] ->]]; [discriminate| | |].
        + eapply (Hmore t'); (eapply ph_mono; [apply Nat.le_succ_diag_r|]); assumption.
        + apply Hend; [|reflexivity]. eapply ph_mono; [|exact A]. lia.
        + exfalso. assert (Hb : ph G (S k1) (PUpTo n (D fr m e)) t' None) by (eapply ph_mono; [|exact B]; lia).
          clear -Hb. revert t' Hb. generalize (S k1) as q. intros q t' Hb. revert q t' Hb.
          induction n as [|n IHn]; intros [|q] t' Hb; cbn [ph PUpTo] in Hb; try exact Hb; try discriminate.
          destruct Hb as [(t & _ & X)|[_ X]]; [discriminate|]. destruct q; [destruct X|discriminate X].
    Qed.
    (** Unbounded. *)
    Lemma f_pstar k fr m e : follows k fr m e ->
      forall k1 s r pos i vs, k1 <= k -> ph G k1 (PStar (D fr m e)) s r ->
      pos + i <= List.length inp -> s = from inp (pos + i) ->
      exists j y, ref_more j (run j fr m e) None pos i vs = Some y /\ agree pos r y.
    Proof.
      intros He. induction k1 as [|k1 IH]; intros s r pos i vs Hk H Hp Hs; [destruct H|].
      cbn [ph] in H. destruct H as [[A ->]|(t & A & B)].
      - destruct (He k1 s None ltac:(lia) A (pos + i) vs Hp Hs) as (j & y & C & D).
        exists (S j), (Some (i, vs)). cbn [ref_more]. rewrite (lift (Nat.le_succ_diag_r j) C). cbn [obind]. destruct y as [[? ?]|]; [destruct D|].
        split; [reflexivity|]. cbn. auto.
      - destruct (He k1 s (Some t) ltac:(lia) A (pos + i) vs Hp Hs) as (j & y & C & D).
        destruct y as [[q v]|]; [|destruct D]. destruct D as [D1 ->].
        destruct (IH (from inp (pos + i + q)) r pos (i + q) v) as (j' & y' & F1 & F2); auto; try lia; try (f_equal; lia).
        exists (S (j + j')), y'. split; [|exact F2]. cbn [ref_more]. rewrite (lift (Nat.le_trans _ _ _ (Nat.le_add_r j j') (Nat.le_succ_diag_r _)) C). cbn [obind option_map].
        revert F1. apply sub_Some, s_more; [|lia]. intros. apply ref_sub. lia.
    Qed.
    Lemma f_prep k fr m e mn mx : follows k fr m e ->
      forall k1 s r pos vs, k1 <= k -> ph G k1 (PRepeat mn mx (D fr m e)) s r ->
      pos <= List.length inp -> s = from inp pos ->
      exists j y, ref_rep j (run j fr m e) mn mx pos vs = Some y /\ agree pos r y.
    Proof.
      intros He k1 s r pos vs Hk H Hp Hs.
      assert (Hmin : forall k2 r', k2 <= k -> ph G k2 (PTimes mn (D fr m e)) s r' ->
        exists j y, ref_min (run j fr m e) mn pos 0 vs = Some y /\ agree pos r' y).
      { intros k2 r' Hk2 A. eapply f_pmin; eauto; [lia|]. rewrite Nat.add_0_r. exact Hs. }
      assert (Hfail : forall k2, k2 <= k -> ph G k2 (PTimes mn (D fr m e)) s None ->
        exists j y, ref_rep j (run j fr m e) mn mx pos vs = Some y /\ agree pos None y).
      { intros k2 Hk2 A. destruct (Hmin k2 None Hk2 A) as (j & y & C & D). destruct y as [[? ?]|]; [destruct D|].
        exists j, None. unfold ref_rep. rewrite C. cbn. auto. }
      assert (Hseq : forall (more : nat -> option nat -> nat -> sv -> option (rv V)) room p,
        (forall k2 s r pos i vs, k2 <= k -> ph G k2 p s r -> pos + i <= List.length inp -> s = from inp (pos + i) ->
           exists j y, ref_more j (run j fr m e) room pos i vs = Some y /\ agree pos r y) ->
        (forall j i vs', (match mx with
            | Some x => if mn <? x then ref_more j (run j fr m e) (Some (x - mn)) pos i vs' else Some (Some (i, vs'))
            | None => ref_more j (run j fr m e) None pos i vs' end) = ref_more j (run j fr m e) room pos i vs') ->
        ph G k1 (PSeq (PTimes mn (D fr m e)) p) s r ->
        exists j y, ref_rep j (run j fr m e) mn mx pos vs = Some y /\ agree pos r y).
      { intros _ room p Hp' Heq A. destruct k1 as [|k1]; [destruct A|]. cbn [ph] in A. destruct A as [[A ->]|(t & A & B)].
        - apply (Hfail k1); [lia|assumption].
        - destruct (Hmin k1 (Some t) ltac:(lia) A) as (j & y & C & D). destruct y as [[n v]|]; [|destruct D]. destruct D as [D1 ->].
          destruct (Hp' k1 _ r pos n v ltac:(lia) B D1 eq_refl) as (j' & y' & F1 & F2).
          exists (j + j'), y'. split; [|exact F2]. unfold ref_rep.
          assert (Hm' : ref_min (run (j + j') fr m e) mn pos 0 vs = Some (Some (n, v))).
          { revert C. apply sub_Some, s_min. intros. apply ref_sub. lia. }
          rewrite Hm'. cbn [obind]. rewrite Heq. revert F1. apply sub_Some, s_more; [|lia]. intros. apply ref_sub. lia. }
      unfold PRepeat in H. destruct mx as [x|].
      - destruct (mn <? x) eqn:Hx.
        + eapply (Hseq (fun _ _ _ _ => None) (Some (x - mn))); [|intros; reflexivity|exact H].
          intros. eapply f_pupto; eauto.
        + destruct (Hmin k1 r Hk H) as (j & y & C & D). exists j, y. unfold ref_rep. rewrite C. cbn [obind].
          destruct y as [[? ?]|]; [|auto]. rewrite Hx. auto.
      - eapply (Hseq (fun _ _ _ _ => None) None); [|intros; reflexivity|exact H].
        intros. eapply f_pstar; eauto.
    Qed.

    Lemma bad_none k s r : ~ ph G k (PNT (WMain NBad)) s r.
    Proof. revert s r. induction k as [|k IH]; intros s r H; [exact H|]. cbn [ph peg_word peg_of bounded] in H. eapply IH. exact H. Qed.
    Lemma value_len r d body pos n chvs : exists v, ref_value E r d body pos n chvs = Some (n, v).
    Proof. unfold ref_value. rewrite Hpred. eexists. reflexivity. Qed.
    Lemma agree_value pos r (y : rv V) v : agree pos r y ->
      agree pos r (match y with Some (n, _) => Some (n, v) | None => None end).
    Proof. destruct r, y as [[? ?]|]; cbn; auto. Qed.
    Lemma tok_mode_in m : tok_mode E m = inside_token (e_ws E) m.
    Proof. reflexivity. Qed.

    Lemma f_prule k : (forall k1 fr m o, k1 < k -> follows k1 fr m o) ->
      forall k1 m rl fr s r pos vs, k1 <= k -> ph G k1 (PNT (WMain (NRule rl m))) s r -> pos <= List.length inp -> s = from inp pos ->
      exists j y, run (S j) fr m (Hld rl) pos vs = Some y /\ agree pos r y.
    Proof.
      intros IH k1 m rl fr s r pos vs Hk H Hp Hs. destruct k1 as [|k1]; [destruct H|]. cbn [ph peg_word peg_of bounded] in H.
      destruct (nth_error (e_g E) rl) as [d|] eqn:Hd; [|exfalso; eapply bad_none; eauto].
      destruct (r_body d) as [body|] eqn:Hb; [|exfalso; eapply bad_none; eauto].
      destruct (r_is_macro d) eqn:Hm; [exfalso; eapply bad_none; eauto|].
      destruct (r_lr d) eqn:Hlr; [exfalso; eapply bad_none; eauto|]. cbn [orb] in H.
      assert (Honce : exists j y, ref_once (ref j) E None m rl d body pos = Some y
        /\ match r, y with None, None => True | Some t, Some (n, _) => pos + n <= List.length inp /\ t = from inp (pos + n) | _, _ => False end).
      { unfold ref_once. destruct (r_no_whitespace d).
        - destruct k1 as [|k1]; [destruct H|]. cbn [skips bounded ph] in H. destruct H as [[A ->]|(t & A & B)].
          + destruct (IH k1 (r_params d, []) (inside_token (e_ws E) m) body ltac:(lia) k1 s None (le_n _) A pos sv_new Hp Hs) as (j & y & C & D).
            exists j, None. rewrite tok_mode_in. rewrite C. destruct y as [[? ?]|]; [destruct D|]. cbn. auto.
          + destruct (IH k1 (r_params d, []) (inside_token (e_ws E) m) body ltac:(lia) k1 s (Some t) (le_n _) A pos sv_new Hp Hs) as (j & y & C & D).
            destruct y as [[n v]|]; [|destruct D]. destruct D as [D1 ->].
            destruct (f_pthen k IH k1 m r pos n v ltac:(lia) B D1) as (j' & y' & F1 & F2).
            exists (j + j'). rewrite tok_mode_in. rewrite (lift (Nat.le_add_r j j') C). cbn [obind].
            rewrite (lift_then (Nat.le_add_l j' j) F1). cbn [obind].
            destruct y' as [[n' v']|]; [|eexists; split; [reflexivity|exact F2]].
            destruct (value_len rl d body pos n' v') as [x Hx]. rewrite Hx. eexists. split; [reflexivity|]. exact F2.
        - destruct (IH k1 (r_params d, []) m body ltac:(lia) k1 s r (le_n _) H pos sv_new Hp Hs) as (j & y & C & D).
          exists j. rewrite C. cbn [obind]. destruct y as [[n v]|]; [|eexists; split; [reflexivity|exact D]]. cbn [obind].
          destruct (value_len rl d body pos n v) as [x Hx]. rewrite Hx. eexists. split; [reflexivity|]. exact D. }
      destruct Honce as (j & y & A & B). exists j. cbn [ref ref_core]. unfold ref_hld, get_body. rewrite Hd. cbn [obind]. rewrite Hb. cbn [obind].
      rewrite Hm. unfold ref_rule. rewrite Hlr, A. cbn [obind]. eexists. split; [reflexivity|].
      destruct r, y as [[? ?]|]; cbn; auto.
    Qed.
    Theorem peg_ref k : forall fr m o, follows k fr m o.
    Proof.
      induction k as [k IHk] using (well_founded_induction lt_wf).
      assert (IH : forall k1 fr m o, k1 < k -> follows k1 fr m o) by (intros; now apply IHk). clear IHk.
      assert (Hsub : forall k1 fr m o, k1 <= k -> follows k fr m o -> follows k1 fr m o).
      { intros k1 fr m o Hk H k2 s r Hk2. apply H. lia. }
      intros fr md o. revert fr md. induction o using ope_ind'; intros fr md k1 z q Hk1 Hph pos vs Hp Hs; cbn [den] in Hph;
        rewrite ?bounded_seqs, ?bounded_alts, ?bounded_repeat in Hph; cbn [bounded PAnd skips] in Hph.
      - destruct (f_pseq k fr md l) with (k1 := k1) (s := z) (r := q) (pos := pos) (i := 0) (vs := vs) as (j & y & A & B); auto; try lia.
        { eapply Forall_impl; [|exact H]. cbn. auto. }
        { now rewrite Nat.add_0_r. }
        exists (S j), y. auto.
      - destruct (f_pcho k fr md l) with (k1 := k1) (s := z) (r := q) (pos := pos) (total := List.length l) (id := 0) (vs := vs) as (j & y & A & B); auto; try lia.
        { eapply Forall_impl; [|exact H]. cbn. auto. }
        exists (S j), y. auto.
      - destruct (f_prep k fr md o mn mx (IHo fr md) k1 z q pos vs Hk1 Hph Hp Hs) as (j & y & A & B). exists (S j), y. auto.
      - destruct k1 as [|[|k1]]; [destruct Hph|destruct Hph as [[[] _]|(t & [] & _)]|]. cbn [PAnd ph] in Hph.
        destruct Hph as [[[[A B]|(t & A & B)] ->]|(t & [[A B]|(t' & A & B)] & ->)]; try discriminate.
        + destruct (IHo fr md k1 z (Some t) ltac:(lia) A pos vs Hp Hs) as (j & y & C & D).
          destruct y as [[? ?]|]; [|destruct D]. exists (S j), (Some (0, vs)). cbn [ref ref_core]. rewrite C. cbn. rewrite Nat.add_0_r. auto.
        + destruct (IHo fr md k1 z None ltac:(lia) A pos vs Hp Hs) as (j & y & C & D).
          destruct y as [[? ?]|]; [destruct D|]. exists (S j), None. cbn [ref ref_core]. rewrite C. cbn. auto.
      - destruct k1 as [|k1]; [destruct Hph|]. cbn [ph] in Hph. destruct Hph as [[A ->]|(t & A & ->)].
        + destruct (IHo fr md k1 z None ltac:(lia) A pos vs Hp Hs) as (j & y & C & D).
          destruct y as [[? ?]|]; [destruct D|]. exists (S j), (Some (0, vs)). cbn [ref ref_core]. rewrite C. cbn. rewrite Nat.add_0_r. auto.
        + destruct (IHo fr md k1 z (Some t) ltac:(lia) A pos vs Hp Hs) as (j & y & C & D).
          destruct y as [[? ?]|]; [|destruct D]. exists (S j), None. cbn [ref ref_core]. rewrite C. cbn. auto.
      - destruct k1 as [|[|[|k1]]]; [destruct Hph|destruct Hph as [[[] _]|(u & [] & _)]|cbn in Hph; now firstorder|].
        cbn [ph peg_word] in Hph.
        assert (Hdic : forall r', ph G k1 (PNT (WWord (NDic t))) z r' ->
          r' = if fst (trie_match t z) =? 0 then None else Some (skipn (fst (trie_match t z)) z)).
        { intros r' A. apply ph_peg, word_dic_exp in A. exact (dic_result _ _ _ _ A). }
        pose proof (match_len t z) as Hml. assert (Hzl : List.length z = List.length inp - pos) by (subst z; apply from_length).
        assert (Hfrom : skipn (fst (trie_match t z)) z = from inp (pos + fst (trie_match t z))) by (subst z; now rewrite <- from_from).
        destruct (trie_match t z) as [i id] eqn:Ht. cbn [fst] in *.
        destruct Hph as [[[[A _]|(u & A & A2)] ->]|(u & [[A A2]|(u' & A & A2)] & B)]; try discriminate; apply Hdic in A.
        + destruct (i =? 0) eqn:Hi; [|discriminate]. exists 1, None. cbn [ref ref_core]. rewrite ref_dic_eq, <- Hs, Ht, Hi. split; [reflexivity|exact I].
        + destruct (i =? 0) eqn:Hi; [discriminate|]. injection A as ->. rewrite Hfrom in A2. destruct (Hdend k1 (pos + i) None A2 ltac:(lia)) as (j & b & W & Hr).
          destruct b; [discriminate|]. exists (S j), None. cbn [ref ref_core]. rewrite ref_dic_eq, <- Hs, Ht, Hi, W. cbn. auto.
        + destruct (i =? 0) eqn:Hi; [discriminate|]. injection A as ->. rewrite Hfrom in A2. destruct (Hdend k1 (pos + i) (Some u) A2 ltac:(lia)) as (j0 & b & W & Hr).
          destruct b; [|discriminate]. injection Hr as ->.
          destruct (f_pthen k IH (S (S k1)) md q pos i (set_choice (t_items_count t) (match id with Some n => n | None => 0 end) vs) ltac:(lia) B ltac:(lia)) as (j & y & F1 & F2).
          exists (S (j0 + j)), y. split; [|exact F2]. cbn [ref ref_core]. rewrite ref_dic_eq, <- Hs, Ht, Hi.
          rewrite (word_dic_up j0 (j0 + j) _ _ _ (Nat.le_add_r _ _) W). cbn [obind]. exact (lift_then (Nat.le_add_l j j0) F1).
      - destruct k1 as [|[|k1]]; [destruct Hph|destruct Hph as [[[] _]|(t & [] & _)]|]. cbn [ph] in Hph.
        assert (Hlit : forall r', ph G k1 (PLit ic s) z r' -> exists b, lit_loop inp pos (left E pos) (if ic then to_lower s else s) ic = Ok b
          /\ agree pos r' (if b then Some (List.length s, vs) else None)).
        { intros r' A. destruct k1; [destruct A|]. cbn [ph] in A. eapply f_plit; eauto. }
        assert (Hbd : forall t' r', ph G k1 (PNT (WBound s)) t' r' -> pos + List.length s <= List.length inp -> t' = from inp (pos + List.length s) ->
          exists j b, word_lit (ref j) E s pos = Some b /\ r' = if b then Some t' else None).
        { intros t' r' A A1 ->. eapply Hbound; eauto. }
        destruct Hph as [[[[A _]|(t & A & A2)] ->]|(t & [[A A2]|(t' & A & A2)] & B)]; try discriminate.
        + destruct (Hlit _ A) as (b & C & D). destruct b; [destruct D|]. exists 1, None. cbn [ref ref_core]. unfold ref_lit. rewrite C. cbn. auto.
        + destruct (Hlit _ A) as (b & C & D). destruct b; [|destruct D]. destruct D as [D1 D2].
          destruct (Hbd t None A2 D1 D2) as (j & b & W & Hr). destruct b; [discriminate|].
          exists (S j), None. cbn [ref ref_core]. rewrite ref_lit_eq, C. cbn [out_of obind]. rewrite W. cbn. auto.
        + destruct (Hlit _ A) as (b & C & D). destruct b; [|destruct D]. destruct D as [D1 D2].
          destruct (Hbd t' (Some t) A2 D1 D2) as (j0 & b & W & Hr). destruct b; [|discriminate]. injection Hr as ->. subst t'.
          destruct (f_pthen k IH (S k1) md q pos (List.length s) vs ltac:(lia) B D1) as (j & y & F1 & F2).
          exists (S (j0 + j)), y. split; [|exact F2]. cbn [ref ref_core]. rewrite ref_lit_eq, C. cbn [out_of obind].
          rewrite (word_lit_up j0 (j0 + j) _ _ _ _ (Nat.le_add_r _ _) W). cbn [obind]. exact (lift_then (Nat.le_add_l j j0) F1).
      - destruct ic; [exfalso; eapply bad_none; eauto|]. destruct k1 as [|k1]; [destruct Hph|]. cbn [ph] in Hph.
        exists 1. cbn [ref ref_core]. unfold ref_cls.
        destruct (f_pchr _ _ _ pos vs Hph Hp Hs) as [(_ & -> & Hl)|(cp & n & Hl & D & _ & _ & Ha)].
        + rewrite Hl. cbn. eexists. split; [reflexivity|exact I].
        + destruct (left E pos =? 0) eqn:H0; [apply Nat.eqb_eq in H0; lia|]. rewrite D. cbn [out_of obind].
          destruct (in_ranges_class rs cp neg) as (b & Hb & Hx). rewrite Hb. cbn [out_of obind]. rewrite Hx. eexists. split; [reflexivity|exact Ha].
      - destruct k1 as [|k1]; [destruct Hph|]. cbn [ph] in Hph.
        exists 1. cbn [ref ref_core]. unfold ref_chr.
        destruct (f_pchr _ _ _ pos vs Hph Hp Hs) as [(_ & -> & Hl)|(cp' & n & Hl & D & _ & _ & Ha)].
        + rewrite Hl. cbn. eexists. split; [reflexivity|exact I].
        + destruct (left E pos =? 0) eqn:H0; [apply Nat.eqb_eq in H0; lia|]. rewrite D. cbn [out_of obind].
          rewrite N.eqb_sym. eexists. split; [reflexivity|exact Ha].
      - destruct k1 as [|k1]; [destruct Hph|]. cbn [ph] in Hph.
        exists 1. cbn [ref ref_core]. unfold ref_dot.
        destruct (f_pchr _ _ _ pos vs Hph Hp Hs) as [(_ & -> & Hl)|(cp' & n & Hl & _ & D & Hn & Ha)].
        + rewrite Hl. unfold codepoint_length. cbn. eexists. split; [reflexivity|exact I].
        + rewrite D. cbn [out_of obind]. replace (n <? 1) with false by (symmetry; apply Nat.ltb_ge; lia).
          eexists. split; [reflexivity|exact Ha].
      - destruct (IHo fr md k1 z q Hk1 Hph pos vs Hp Hs) as (j & y & C & D). exists (S j), y. auto.
      - destruct (IHo fr md k1 z q Hk1 Hph pos vs Hp Hs) as (j & y & C & D). exists (S j), y. auto.
      - destruct k1 as [|k1]; [destruct Hph|]. cbn [skips bounded ph] in Hph. destruct Hph as [[A ->]|(t & A & B)].
        + destruct (IHo fr (inside_token (e_ws E) md) k1 z None ltac:(lia) A pos vs Hp Hs) as (j & y & C & D).
          exists (S j), None. cbn [ref ref_core]. rewrite tok_mode_in, C. destruct y as [[? ?]|]; [destruct D|]. cbn. auto.
        + destruct (IHo fr (inside_token (e_ws E) md) k1 z (Some t) ltac:(lia) A pos vs Hp Hs) as (j & y & C & D).
          destruct y as [[n v]|]; [|destruct D]. destruct D as [D1 ->].
          destruct (f_pthen k IH k1 md q pos n (push_tok (pos, n) v) ltac:(lia) B D1) as (j' & y' & F1 & F2).
          exists (S (j + j')), y'. split; [|exact F2]. cbn [ref ref_core]. rewrite tok_mode_in, (lift (Nat.le_add_r j j') C). cbn [obind].
          exact (lift_then (Nat.le_add_l j' j) F1).
      - destruct (IHo fr md k1 z q Hk1 Hph pos sv_new Hp Hs) as (j & y & C & D). exists (S j). cbn [ref ref_core]. rewrite C. cbn [obind].
        eexists. split; [reflexivity|]. now apply agree_value.
      - exfalso. eapply bad_none; eauto.
      - destruct (f_prule k IH k1 md r fr z q pos vs Hk1 Hph Hp Hs) as (j & y & A & B). exists (S (S j)), y. auto.
      - destruct (f_prule k IH k1 md r fr z q pos vs Hk1 Hph Hp Hs) as (j & y & A & B). exists (S j), y. auto.
      - destruct rl as [rl|].
        + destruct (nth_error (e_g E) rl) as [d|] eqn:Hd; [|exfalso; eapply bad_none; eauto].
          destruct (r_is_macro d) eqn:Hm.
          * destruct (subst_args (fst fr) (snd fr) args) as [args'| | |] eqn:Ha; try (exfalso; eapply bad_none; eassumption).
            destruct k1 as [|k1]; [destruct Hph|]. cbn [ph peg_word peg_of bounded] in Hph. rewrite Hd in Hph.
            destruct (r_body d) as [body|] eqn:Hb; [|exfalso; eapply bad_none; eauto].
            rewrite Hm in Hph. destruct (r_lr d) eqn:Hlr; cbn [negb andb] in Hph; [exfalso; eapply bad_none; eauto|].
            destruct (IH k1 (r_params d, args') md body ltac:(lia) k1 z q (le_n _) Hph pos vs Hp Hs) as (j & y & C & D).
            exists (S (S j)), y. split; [|exact D]. cbn [ref ref_core]. unfold ref_reference, ref_hld, get_body. rewrite !Hd. cbn [obind]. rewrite Hm, Ha. cbn [out_of obind].
            rewrite Hlr. cbn [obind ref_core]. unfold ref_hld, get_body. rewrite ?Hd. cbn [obind]. rewrite Hb. cbn [obind]. rewrite Hm, Hlr. exact C.
          * destruct (f_prule k IH k1 md rl no_frame z q pos vs Hk1 Hph Hp Hs) as (j & y & A & B). exists (S (S j)), y.
            split; [|exact B]. cbn [ref ref_core]. unfold ref_reference. rewrite Hd. cbn [obind]. rewrite Hm. exact A.
        + destruct (nth_error (snd fr) ia) as [a|] eqn:Ha; [|exfalso; eapply bad_none; eauto].
          destruct k1 as [|k1]; [destruct Hph|]. cbn [ph peg_word peg_of bounded] in Hph.
          destruct (IH k1 fr md a ltac:(lia) k1 z q (le_n _) Hph pos vs Hp Hs) as (j & y & C & D).
          exists (S j), y. split; [|exact D]. cbn [ref ref_core]. unfold ref_reference. rewrite Ha. exact C.
      - cbn [ref ref_core]. destruct (m_ws md) eqn:Hm.
        + exists 1, (Some (0, vs)). cbn [ref ref_core]. rewrite Hm. split; [reflexivity|]. destruct k1; [destruct Hph|]. cbn in Hph. subst. cbn. rewrite Nat.add_0_r. auto.
        + destruct (IHo fr _ k1 z q Hk1 Hph pos vs Hp Hs) as (j & y & C & D). exists (S j), y. cbn [ref ref_core]. rewrite Hm. auto.
      - exfalso. eapply bad_none; eauto.
      - exfalso. eapply bad_none; eauto.
      - exfalso. eapply bad_none; eauto.
      - exfalso. eapply bad_none; eauto.
      - exfalso. eapply bad_none; eauto.
    Qed.
  End One.

  Lemma bound_none E isw : e_word E = None -> forall k s pos r,
    ph (peg_word (e_g E) (e_ws E) (e_word E) isw) k (PNT (WBound s)) (from (e_input E) (pos + List.length s)) r ->
    pos + List.length s <= List.length (e_input E) ->
    exists j b, word_lit (ref j) E s pos = Some b /\ r = if b then Some (from (e_input E) (pos + List.length s)) else None.
  Proof.
    intros Hw k s pos r H _. exists 0, true. unfold word_lit. rewrite Hw in *. split; [reflexivity|].
    destruct k as [|[|k]]; [destruct H|destruct H|]. exact H.
  Qed.
  Lemma end_none E isw : e_word E = None -> forall k pos r,
    ph (peg_word (e_g E) (e_ws E) (e_word E) isw) k (PNT WEnd) (from (e_input E) pos) r -> pos <= List.length (e_input E) ->
    exists j b, word_dic (ref j) E pos = Some b /\ r = if b then Some (from (e_input E) pos) else None.
  Proof.
    intros Hw k pos r H _. exists 0, true. unfold word_dic. rewrite Hw in *. split; [reflexivity|].
    destruct k as [|[|k]]; [destruct H|destruct H|]. exact H.
  Qed.
  (** Without %word: the plain grammar. *)
  Theorem peg_ref_plain E fr m o s r : e_word E = None -> (forall q, e_pred E q = None) ->
    peg (peg_of (e_g E) (e_ws E)) (den (e_g E) (e_ws E) fr m o) s r ->
    forall pos vs, pos <= List.length (e_input E) -> s = from (e_input E) pos ->
    exists j y, ref j E None fr m o pos vs = Some y /\ agree E pos r y.
  Proof.
    intros Hw Hp H pos vs Hl Hs. apply (bounded_none _ _ (fun _ => None)) in H. rewrite <- Hw in H. apply peg_ph in H as [k H].
    exact (peg_ref E (fun _ => None) Hp (bound_none E _ Hw) (end_none E _ Hw) k fr m o k s r (le_n _) H pos vs Hl Hs).
  Qed.
  (** With %word. *)
  Lemma end_word E isw : (forall q, e_pred E q = None) -> forall k pos r,
    ph (peg_word (e_g E) (e_ws E) (e_word E) isw) k (PNT WEnd) (from (e_input E) pos) r -> pos <= List.length (e_input E) ->
    exists j b, word_dic (ref j) E pos = Some b /\ r = if b then Some (from (e_input E) pos) else None.
  Proof.
    intros Hp k pos r H Hl. destruct (e_word E) as [w|] eqn:Hw; [|rewrite <- Hw in H; eapply end_none; eauto].
    destruct k as [|k]; [destruct H|]. cbn [ph peg_word] in H. unfold word_dic, ref_not_word. rewrite Hw.
    assert (Hrun : forall i p t r', peg (peg_of (e_g E) None) (word_exp (e_g E) w) t r' -> p <= List.length i -> t = from i p ->
      exists j y, ref j (word_env E i) None no_frame m_top w p sv_new = Some y /\ agree (word_env E i) p r' y).
    { intros i p t r' X Y ->. exact (peg_ref_plain (word_env E i) no_frame m_top w _ _ eq_refl Hp X p sv_new Y eq_refl). }
    destruct k as [|k]; [destruct H|]. cbn [ph] in H. destruct H as [[H ->]|(t' & H & ->)]; apply ph_peg, unword in H.
    - destruct (Hrun (e_input E) pos _ None H Hl eq_refl) as (j2 & y2 & C & D). destruct y2 as [[? ?]|]; [destruct D|].
      exists (S j2), true. cbn [ref ref_core]. rewrite C. auto.
    - destruct (Hrun (e_input E) pos _ (Some t') H Hl eq_refl) as (j2 & y2 & C & D). destruct y2 as [[? ?]|]; [|destruct D].
      exists (S j2), false. cbn [ref ref_core]. rewrite C. auto.
  Qed.
  Lemma bound_word E isw : (forall q, e_pred E q = None) -> word_table (e_g E) (e_word E) isw -> forall k s pos r,
    ph (peg_word (e_g E) (e_ws E) (e_word E) isw) k (PNT (WBound s)) (from (e_input E) (pos + List.length s)) r ->
    pos + List.length s <= List.length (e_input E) ->
    exists j b, word_lit (ref j) E s pos = Some b /\ r = if b then Some (from (e_input E) (pos + List.length s)) else None.
  Proof.
    intros Hp Ht k s pos r H Hl. destruct (e_word E) as [w|] eqn:Hw; [|rewrite <- Hw in H; eapply bound_none; eauto].
    destruct k as [|k]; [destruct H|]. cbn [ph peg_word] in H. specialize (Ht w s eq_refl). unfold word_lit. rewrite Hw.
    assert (Hrun : forall i p t r', peg (peg_of (e_g E) None) (word_exp (e_g E) w) t r' -> p <= List.length i -> t = from i p ->
      exists j y, ref j (word_env E i) None no_frame m_top w p sv_new = Some y /\ agree (word_env E i) p r' y).
    { intros i p t r' X Y ->. exact (peg_ref_plain (word_env E i) no_frame m_top w _ _ eq_refl Hp X p sv_new Y eq_refl). }
    unfold ref_is_word. destruct (isw s) as [[]|].
    - destruct Ht as [t Ht]. destruct (Hrun s 0 s (Some t) Ht) as (j & y & A & B); [lia|reflexivity|]. destruct y as [[n v]|]; [|destruct B].
      set (p := pos + List.length s) in *.
      assert (Hn : exists j b, ref j (word_env E (e_input E)) None no_frame m_top (Not w) p sv_new = Some b
        /\ r = match b with Some _ => Some (from (e_input E) p) | None => None end).
      { destruct k as [|k]; [destruct H|]. cbn [ph] in H. destruct H as [[H ->]|(t' & H & ->)]; apply ph_peg, unword in H.
        - destruct (Hrun (e_input E) p _ None H Hl eq_refl) as (j2 & y2 & C & D). destruct y2 as [[? ?]|]; [destruct D|].
          exists (S j2), (Some (0, sv_new)). cbn [ref ref_core]. rewrite C. auto.
        - destruct (Hrun (e_input E) p _ (Some t') H Hl eq_refl) as (j2 & y2 & C & D). destruct y2 as [[? ?]|]; [|destruct D].
          exists (S j2), None. cbn [ref ref_core]. rewrite C. auto. }
      destruct Hn as (j2 & b & C & D). exists (j + j2), (match b with Some _ => true | None => false end).
      rewrite (ref_mono _ (j + j2) _ _ _ _ _ _ _ _ (Nat.le_add_r _ _) A). cbn [obind]. unfold ref_not_word.
      rewrite (ref_mono _ (j + j2) _ _ _ _ _ _ _ _ (Nat.le_add_l _ _) C). cbn [obind]. destruct b; auto.
    - destruct (Hrun s 0 s None Ht) as (j & y & A & B); [lia|reflexivity|]. destruct y as [[n v]|]; [destruct B|].
      exists j, true. rewrite A. cbn [obind]. split; [reflexivity|]. destruct k as [|k]; [destruct H|]. exact H.
    - exfalso. clear -H. set (x := from _ _) in H. clearbody x. revert x r H. induction k as [|k IH]; intros x r H; [exact H|]. eapply IH. exact H.
  Qed.
  Theorem peg_ref_word E isw fr m o s r : word_table (e_g E) (e_word E) isw -> (forall q, e_pred E q = None) ->
    peg (peg_word (e_g E) (e_ws E) (e_word E) isw) (bounded (den (e_g E) (e_ws E) fr m o)) s r ->
    forall pos vs, pos <= List.length (e_input E) -> s = from (e_input E) pos ->
    exists j y, ref j E None fr m o pos vs = Some y /\ agree E pos r y.
  Proof.
    intros Hw Hp H pos vs Hl Hs. apply peg_ph in H as [k H].
    exact (peg_ref E isw Hp (bound_word E _ Hp Hw) (end_word E _ Hp) k fr m o k s r (le_n _) H pos vs Hl Hs).
  Qed.
End PegRef.
