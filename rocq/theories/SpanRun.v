(** * The byte scan of a repeated ASCII class returns what the general loop returns (C17). *)
From Verif Require Import Base BaseLemmas Utf8 Utf8Proofs Escape TrieM Ope Ctx ErrLog Engine EngineLemmas Scope RefSem RefMono Refine RefineOps GrammarCond Top FirstSetM FirstSpec FirstSem FirstProofs FirstSetup FirstAnn.

Section Run.
  Context {V U : Type}.
  Notation env := (env V U).
  Notation sv := (sv V).
  Implicit Types (E : env) (vs : sv).

  Lemma traced_inv E o pos core (c : ctx V U) r vs' c' : traced E o pos core c = Ok (r, vs', c') ->
    exists c1 c2, core c1 = Ok (r, vs', c2).
  Proof.
    unfold traced. destruct (is_traceable E o c); [|eauto]. intros H. binv H. inv H. eauto.
  Qed.
  Lemma traced_ok E o pos core (c : ctx V U) r vs' : (forall c1, exists c2, core c1 = Ok (r, vs', c2)) ->
    exists c', traced E o pos core c = Ok (r, vs', c').
  Proof.
    intros H. unfold traced. destruct (is_traceable E o c); [|apply H].
    destruct (H (set_evs (TEnter o pos :: c_evs c) (set_tnext (S (c_tnext c)) (set_tids (c_tnext c :: c_tids c) c)))) as [c2 ->].
    cbn [bind]. eauto.
  Qed.

  Lemma decode_codepoint_len_ok E p : p <= inlen E -> exists len cp, decode_codepoint_len (from (e_input E) p) (left E p) 0%N = Ok (len, cp).
  Proof.
    intros H. unfold decode_codepoint_len. destruct (decode_safe (from (e_input E) p) (left E p)) as (r & -> & _).
    { unfold from, left, inlen. rewrite skipn_length. lia. }
    cbn [bind]. destruct r as [[? ?]|]; eauto.
  Qed.
  Lemma rollback_self vs : rollback_vs vs vs = vs.
  Proof. unfold rollback_vs. rewrite !resize_self. now destruct vs. Qed.

  Section Cls.
    Variables (E : env) (rs : ranges) (ic : bool) (s : bitset) (odd : bool).
    Hypothesis Hp : plain_text (e_input E).
    Hypothesis Ho : odd = false -> ascii_text (e_input E).
    Hypothesis Hs : ascii_bitset rs false ic = Some s.
    Hypothesis Hex : ic = true -> class_exact rs.
    Hypothesis Hn : odd = true -> forall lo hi, In (lo, hi) rs -> lo <> 0%N.

    Definition one (p : nat) : option nat :=
      match nth_error (e_input E) p with Some b => if btest s b then Some 1 else None | None => None end.

    Lemma cls_run fuel p vs c r vs' c' : parse fuel E (Cls rs false ic) p vs c = Ok (r, vs', c') -> vs' = vs /\ r = one p.
    Proof.
      destruct fuel as [|f]; [discriminate|]. cbn [parse]. intros H. apply traced_inv in H as (c1 & c2 & H). cbn [parse_core] in H.
      assert (Hr : vs' = vs /\ ref_cls E rs false ic p vs = Some (option_map (fun n => (n, vs)) r)).
      { unfold parse_cls, fail_at in H. unfold ref_cls. destruct (left E p =? 0); [inv H; auto|].
        destruct (decode_codepoint_len _ _ _) as [[len cp]| | |]; try discriminate H. cbn [bind] in H. cbn [out_of obind bind].
        destruct (in_ranges ic rs cp) as [b| | |]; try discriminate H. cbn [bind] in H. cbn [out_of obind].
        destruct (xorb b false); inv H; auto. }
      destruct Hr as [-> Hr]. split; [reflexivity|]. apply (cls_step E rs ic s odd p vs _ Hp Ho Hs Hex Hn) in Hr. unfold one.
      destruct (nth_error (e_input E) p) as [b|]; [destruct (btest s b)|]; destruct r; inv Hr; reflexivity.
    Qed.

    Lemma rep_min_run fuel n : forall pos i vs c r vs' c', rep_min E (parse fuel) (Cls rs false ic) n pos i vs c = Ok (r, vs', c') ->
      vs' = vs /\ ref_min (fun p v => Some (option_map (fun n => (n, v)) (one p))) n pos i vs = Some (option_map (fun n => (n, vs)) r).
    Proof.
      induction n as [|n IH]; intros pos i vs c r vs' c' H; cbn [rep_min] in H; [inv H; auto|].
      binv H. apply cls_run in Hm as [-> ->]. cbn [ref_min obind]. destruct (one (pos + i)) as [l|]; cbn [option_map obind].
      - eapply IH; eauto.
      - inv H. auto.
    Qed.
    Lemma rep_more_run k fuel : forall room pos i vs c r vs' c', rep_more k E (parse fuel) (Cls rs false ic) room pos i vs c = Ok (r, vs', c') ->
      vs' = vs /\ ref_more k (fun p v => Some (option_map (fun n => (n, v)) (one p))) room pos i vs = Some (option_map (fun n => (n, vs)) r).
    Proof.
      induction k as [|k IH]; intros room pos i vs c r vs' c' H; cbn [rep_more] in H.
      - destruct room as [[|q]|]; inv H. auto.
      - cbn [ref_more]. destruct room as [[|q]|]; [inv H; auto| |].
        all: binv H; apply cls_run in Hm as [-> ->]; cbn [obind]; destruct (one (pos + i)) as [l|]; cbn [option_map obind];
          [eapply IH; eauto|inv H; rewrite rollback_self; auto].
    Qed.
    Theorem span_run fuel mn mx pos vs c r vs' c' : (forall q, mx = Some q -> mn <= q) -> pos <= inlen E ->
      parse fuel E (Rep (Cls rs false ic) mn mx None) pos vs c = Ok (r, vs', c') ->
      exists c'', parse fuel E (Rep (Cls rs false ic) mn mx (Some s)) pos vs c = Ok (r, vs', c'').
    Proof.
      intros Hmx Hpos H. destruct fuel as [|f]; [discriminate|]. cbn [parse] in H |- *. apply traced_inv in H as (c1 & c2 & H). cbn [parse_core] in *.
      assert (Hr : vs' = vs /\ ref_rep f (fun p v => Some (option_map (fun n => (n, v)) (one p))) mn mx pos vs = Some (option_map (fun n => (n, vs)) r)).
      { cbn [parse_rep] in H. binv H. apply rep_min_run in Hm as [-> Hm]. unfold ref_rep. rewrite Hm. cbn [obind].
        match type of H with match ?q with _ => _ end = _ => destruct q as [i|] end; cbn [option_map]; [|inv H; auto].
        destruct mx as [m|]; [destruct (mn <? m)|]; try (inv H; now auto); eapply rep_more_run; eauto. }
      destruct Hr as [-> Hr]. 
      assert (Hrun : forall p (v : sv) x, (fun p (v : sv) => Some (option_map (fun n => (n, v)) (one p))) p v = Some x ->
        x = match nth_error (e_input E) p with Some b => if btest s b then Some (1, v) else None | None => None end).
      { intros p v x Hx. inv Hx. unfold one. destruct (nth_error (e_input E) p) as [b|]; [destruct (btest s b)|]; reflexivity. }
      destruct (span_rep E s _ Hrun f mn mx pos vs _ Hmx Hpos Hr) as (i & Hi & Hx).
      apply traced_ok. intros c3. cbn [parse_core parse_rep]. unfold span_limit in Hi. rewrite Hi. cbn [bind].
      destruct (i <? mn); destruct r; inv Hx; eauto.
    Qed.

    (** Neither fails to terminate nor misbehaves: a case-insensitive class on text outside
        ASCII would call tolower on a value it is not defined for. *)
    Hypothesis Hic : ic = true -> ascii_text (e_input E).
    Lemma in_ranges_ok cp : (ic = true -> (cp <= 0x7F)%N) -> ascii_ranges rs = true -> exists b, in_ranges ic rs cp = Ok b.
    Proof.
      clear -rs ic. intros Hc Ha. induction rs as [|r l IH]; [eexists; reflexivity|]. cbn in Ha. apply andb_prop in Ha as [Ha Hl].
      apply andb_prop in Ha as [H1 H2]. cbn [in_ranges].
      assert (Hr : exists b, in_range ic r cp = Ok b).
      { unfold in_range. destruct ic; [|eauto]. specialize (Hc eq_refl). unfold tolower_int. apply N.leb_le in H1, H2.
        replace (cp <? 256)%N with true by (symmetry; apply N.ltb_lt; lia). cbn [bind].
        replace (fst r <? 256)%N with true by (symmetry; apply N.ltb_lt; lia). cbn [bind].
        replace (snd r <? 256)%N with true by (symmetry; apply N.ltb_lt; lia). cbn [bind].
        destruct (_ <=? _)%N; eauto. }
      destruct Hr as [b ->]. cbn [bind]. destruct b; [eauto|]. now apply IH.
    Qed.
    Lemma cls_ok fuel p vs c : p <= inlen E -> exists c', parse (S fuel) E (Cls rs false ic) p vs c = Ok (one p, vs, c').
    Proof.
      intros Hle.
      assert (H : exists r c', parse (S fuel) E (Cls rs false ic) p vs c = Ok (r, vs, c')).
      { cbn [parse]. unfold traced. 
        assert (Hc : exists r, forall c1, exists c2, parse_core fuel (parse fuel) E (Cls rs false ic) p vs c1 = Ok (r, vs, c2)).
        { cbn [parse_core]. unfold parse_cls, fail_at. destruct (left E p =? 0) eqn:Hl; [eexists; intros; eexists; reflexivity|].
          apply Nat.eqb_neq in Hl. destruct (nth_error (e_input E) p) as [b|] eqn:Hb.
          2:{ apply nth_error_None in Hb. unfold left, inlen in Hl. lia. }
          destruct (decode_codepoint_len_ok E p) as (len & cp & Hd); [exact Hle|]. rewrite Hd. cbn [bind].
          destruct (in_ranges_ok cp) as [q ->].
          - intros Hi. assert (Hb7 : (bN b <= 0x7F)%N) by (apply (Hic Hi), (nth_error_In _ _ Hb)).
            rewrite (decode_ascii E p b Hb Hb7) in Hd. inv Hd. exact Hb7.
          - apply (ascii_bitset_spec rs ic s b Hs).
          - cbn [bind]. destruct (xorb q false); eexists; intros; eexists; reflexivity. }
        destruct Hc as [r Hc]. destruct (traced_ok E (Cls rs false ic) p _ c r vs Hc) as [c' H]. exists r, c'. exact H. }
      destruct H as (r & c' & H). exists c'. pose proof (cls_run _ _ _ _ _ _ _ H) as [_ ->]. exact H.
    Qed.
    Lemma one_lt p l : one p = Some l -> l = 1 /\ p < inlen E.
    Proof. unfold one. destruct (nth_error (e_input E) p) as [b|] eqn:Hb; [|discriminate]. destruct (btest s b); [|discriminate].
      intros H. inv H. split; [reflexivity|]. apply nth_error_Some. congruence. Qed.
    Lemma rep_min_ok fuel n : forall pos i vs c, pos + i <= inlen E ->
      exists r c', rep_min E (parse (S fuel)) (Cls rs false ic) n pos i vs c = Ok (r, vs, c') /\ forall j, r = Some j -> pos + j <= inlen E.
    Proof.
      induction n as [|n IH]; intros pos i vs c Hle; cbn [rep_min]; [eexists _, _; split; [reflexivity|]; intros j Hj; inv Hj; lia|].
      destruct (cls_ok fuel (pos + i) vs c Hle) as [c1 ->]. cbn [bind]. destruct (one (pos + i)) as [l|] eqn:Ho1.
      - destruct (one_lt _ _ Ho1) as [-> Hlt]. apply IH. lia.
      - eexists _, _. split; [reflexivity|discriminate].
    Qed.
    Lemma rep_more_ok fuel k : forall room pos i vs c, pos + i <= inlen E -> inlen E - (pos + i) < k ->
      exists r c', rep_more k E (parse (S fuel)) (Cls rs false ic) room pos i vs c = Ok (r, vs, c').
    Proof.
      induction k as [|k IH]; intros room pos i vs c Hle Hk; [lia|]. cbn [rep_more].
      destruct room as [[|q]|]; [eauto| |].
      all: destruct (cls_ok fuel (pos + i) vs c Hle) as [c1 ->]; cbn [bind]; destruct (one (pos + i)) as [l|] eqn:Ho1;
        [destruct (one_lt _ _ Ho1) as [-> Hlt]; apply IH; lia|rewrite rollback_self; eauto].
    Qed.
    Theorem span_run_total fuel mn mx pos vs c : (forall q, mx = Some q -> mn <= q) -> pos <= inlen E -> inlen E - pos + 2 <= fuel ->
      exists r c1 c2, parse fuel E (Rep (Cls rs false ic) mn mx None) pos vs c = Ok (r, vs, c1)
        /\ parse fuel E (Rep (Cls rs false ic) mn mx (Some s)) pos vs c = Ok (r, vs, c2).
    Proof.
      intros Hmx Hle Hf.
      assert (H : exists r c1, parse fuel E (Rep (Cls rs false ic) mn mx None) pos vs c = Ok (r, vs, c1)).
      { destruct fuel as [|[|f]]; try lia. 
        assert (Hc : forall c, exists r c1, parse_core (S f) (parse (S f)) E (Rep (Cls rs false ic) mn mx None) pos vs c = Ok (r, vs, c1)).
        { intros c0. cbn [parse_core parse_rep]. destruct (rep_min_ok f mn pos 0 vs c0) as (r & c1 & -> & Hr); [lia|]. cbn [bind].
          destruct r as [i|]; [|eauto]. specialize (Hr i eq_refl).
          destruct mx as [m|]; [destruct (mn <? m); [|eauto]|]; apply rep_more_ok; lia. }
        change (parse (S (S f)) E ?o pos vs c) with (traced E o pos (parse_core (S f) (parse (S f)) E o pos vs) c).
        unfold traced. destruct (is_traceable E _ c); [|apply Hc].
        match goal with |- context [parse_core _ _ _ _ _ _ ?cc] => destruct (Hc cc) as (r & c1 & ->) end. cbn [bind]. eauto. }
      destruct H as (r & c1 & H). destruct (span_run _ _ _ _ _ _ _ _ _ Hmx Hle H) as [c2 H2]. eauto.
    Qed.
  End Cls.
End Run.
