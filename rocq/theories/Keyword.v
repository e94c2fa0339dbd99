(** * The keyword guard decides as the guarded sequence does. *)
From Verif Require Import Base BaseLemmas Utf8 Utf8Proofs Escape TrieM LineInfo Ope Ctx ErrLog Engine EngineLemmas Scope RefSem RefMono Refine RefineOps GrammarCond Top
  Bounds EngineSpec EngineFacts FirstSetM FirstSpec FirstSem FirstProofs FirstSetup FirstAnn KeywordSpec RefStrip FirstTop.

Lemma kw_words_exact alts : forall ex pr, kw_words alts = Some (ex, pr) -> forall w, In (to_lower w) ex -> exists w', to_lower w' = to_lower w /\ In (Lit w' true) alts.
Proof.
  induction alts as [|a alts IH]; intros ex pr H w Hin; cbn [kw_words] in H; [inv H; destruct Hin|].
  destruct a; try discriminate.
  - destruct l as [|[] l]; try discriminate. destruct (_ && _); [|discriminate].
    destruct (kw_words alts) as [[ex' pr']|]; [|discriminate]. inv H. destruct (IH _ _ eq_refl w Hin) as (w' & A & B). exists w'. split; [exact A|now right].
  - destruct ic; [|discriminate]. destruct (kw_words alts) as [[ex' pr']|]; [|discriminate]. inv H. destruct Hin as [Hin|Hin].
    + exists s. split; [congruence|now left].
    + destruct (IH _ _ eq_refl w Hin) as (w' & A & B). exists w'. split; [exact A|now right].
Qed.
Lemma kw_words_all alts : forall ex pr, kw_words alts = Some (ex, pr) -> forall a, In a alts ->
  (exists w, a = Lit w true /\ In (to_lower w) ex) \/ (exists kg w l, a = Seq kg (Lit w true :: l) /\ In (to_lower w) pr).
Proof.
  induction alts as [|a alts IH]; intros ex pr H x Hin; cbn [kw_words] in H; [destruct Hin|].
  destruct a; try discriminate.
  - destruct l as [|[] l]; try discriminate. destruct ic; [|discriminate]. cbn [andb] in H. destruct (forallb _ _); [|discriminate].
    destruct (kw_words alts) as [[ex' pr']|]; [|discriminate]. inv H. destruct Hin as [<-|Hin].
    + right. eexists _, _, _. split; [reflexivity|now left].
    + destruct (IH _ _ eq_refl x Hin) as [(w & A & B)|(kg' & w & l' & A & B)]; [left; eauto|right; eexists _, _, _; split; [exact A|now right]].
  - destruct ic; [|discriminate]. destruct (kw_words alts) as [[ex' pr']|]; [|discriminate]. inv H. destruct Hin as [<-|Hin].
    + left. exists s. split; [reflexivity|now left].
    + destruct (IH _ _ eq_refl x Hin) as [(w & A & B)|(kg' & w & l' & A & B)]; [left; exists w; split; [exact A|now right]|right; eexists _, _, _; eauto].
Qed.

Section Keyword.
  Context {V U : Type} {kp : keepvals}.
  Notation env := (env V U).
  Notation sv := (sv V).
  Implicit Types (E : env) (vs : sv) (m : mode) (sd : seed V).

  Section One.
    Variable E : env.
    Hypothesis Hword : e_word E = None.
    Hypothesis Hws : forall w, e_ws E = Some w -> never_fails E w.

    Lemma then_total k m pos n vs x : ref_then (ref k) E m pos n vs = Some x -> x <> None.
    Proof.
      intros H. unfold ref_then in H. oinv H. inv H. unfold ref_skip in Hm. destruct (e_ws E) as [w|] eqn:Hw.
      - destruct (m_tok m); [inv Hm; discriminate|]. destruct a as [[j v]|]; [discriminate|]. exfalso. exact (Hws w eq_refl k m (pos + n) vs Hm).
      - inv Hm. discriminate.
    Qed.
    Lemma lit_ref k sd fr m w pos vs x : pos <= inlen E -> ref k E sd fr m (Lit w true) pos vs = Some x ->
      if x then text_at (e_input E) pos w true else ~ text_at (e_input E) pos w true.
    Proof.
      destruct k as [|k]; [discriminate|]. cbn [ref ref_core]. unfold ref_lit. intros Hp H. oinv H. apply out_of_Some in Hm.
      pose proof (lit_text E w true pos a Hp Hm) as Ht. destruct a.
      - rewrite Hword in H. cbn [obind] in H. assert (Hx : x <> None).
        { eapply then_total; exact H. }
        destruct x; [|congruence]. now apply Ht.
      - inv H. intros X. apply Ht in X. discriminate.
    Qed.
    Definition lits (alts : list ope) : Prop :=
      Forall (fun a => (exists w, a = Lit w true) \/ exists kg w l, a = Seq kg (Lit w true :: l)) alts.
    Lemma alt_ref k sd fr m a pos vs x : pos <= inlen E -> (exists w, a = Lit w true) \/ (exists kg w l, a = Seq kg (Lit w true :: l)) ->
      ref k E sd fr m a pos vs = Some x ->
      (x <> None -> exists w, keyword [a] w /\ text_at (e_input E) pos w true)
      /\ (x = None -> forall w, a = Lit w true -> ~ text_at (e_input E) pos w true).
    Proof.
      intros Hp [(w & ->)|(kg & w & l & ->)] H.
      - apply lit_ref in H; [|exact Hp]. destruct x; split; try congruence.
        + intros _. exists w. split; [left; now left|exact H].
      - split; [|discriminate]. intros Hx. destruct k as [|k]; [discriminate|]. cbn [ref ref_core ref_seq] in H. rewrite Nat.add_0_r in H. oinv H.
        apply lit_ref in Hm; [|exact Hp]. destruct a; [|congruence]. exists w. split; [|exact Hm]. right. eexists _, _. now left.
    Qed.
    Lemma cho_ref k sd fr m tot alts : forall id pos vs x, lits alts -> pos <= inlen E ->
      ref_cho (ref k E sd fr m) tot alts id pos vs = Some x ->
      (x <> None -> exists w, keyword alts w /\ text_at (e_input E) pos w true)
      /\ (x = None -> forall w, In (Lit w true) alts -> ~ text_at (e_input E) pos w true).
    Proof.
      induction alts as [|a alts IH]; intros id pos vs x Hl Hp H; cbn [ref_cho] in H.
      - inv H. split; [congruence|]. intros _ w [].
      - inversion Hl as [|? ? Ha Hl']; subst. oinv H. destruct (alt_ref _ _ _ _ _ _ _ _ Hp Ha Hm) as [A1 A2]. destruct a0 as [[n v]|].
        + inv H. split; [|congruence]. intros _. destruct A1 as (w & Hk & Ht); [congruence|]. exists w. split; [|exact Ht].
          destruct Hk as [[Hk|[]]|(kg & l & [Hk|[]])]; subst; [left; now left|right; exists kg, l; now left].
        + destruct (IH _ _ _ _ Hl' Hp H) as [I1 I2]. split.
          * intros Hx. destruct (I1 Hx) as (w & Hk & Ht). exists w. split; [|exact Ht].
            destruct Hk as [Hk|(kg & l & Hk)]; [left; now right|right; exists kg, l; now right].
          * intros Hx w [->|Hin]; [now apply A2|now apply I2].
    Qed.
    (** The keyword rule. *)
    Lemma keyword_ref k sd fr m nm r ia mc args d fl fs alts pos vs x : pos <= inlen E -> seed_ok E sd ->
      get_body E r = Some (d, Cho fl fs alts) -> r_is_macro d = false -> r_lr d = false -> e_pred E r = None -> lits alts ->
      ref k E sd fr m (Ref nm (Some r) ia mc args) pos vs = Some x ->
      (x <> None -> exists w, keyword alts w /\ text_at (e_input E) pos w true)
      /\ (x = None -> forall w, In (Lit w true) alts -> ~ text_at (e_input E) pos w true).
    Proof.
      intros Hp Hsd Hb Hmc Hlr Hpr Hl H. destruct k as [|k]; [discriminate|]. cbn [ref ref_core] in H. unfold ref_reference in H.
      assert (Hd : nth_error (e_g E) r = Some d).
      { unfold get_body in Hb. destruct (nth_error (e_g E) r) as [d'|]; [|discriminate]. cbn in Hb. destruct (r_body d'); [|discriminate]. now inv Hb. }
      rewrite Hd in H. cbn [obind] in H. rewrite Hmc in H. destruct k as [|k]; [discriminate|]. cbn [ref ref_core] in H. unfold ref_hld in H.
      rewrite Hb in H. cbn [obind] in H. rewrite Hmc in H.
      assert (Hcall : exists y, ref_rule k (ref k) E m r d (Cho fl fs alts) pos = Some y /\ (x = None <-> y = None)).
      { oinv H. exists a. split; [|inv H; destruct a as [[n v]|]; split; congruence].
        destruct sd as [[[r0 p0] s]|]; [|exact Hm]. destruct ((r0 =? r) && (p0 =? pos)) eqn:He; [|exact Hm]. exfalso.
        apply andb_prop in He as [He _]. apply Nat.eqb_eq in He. subst r0.
        assert (Hlr' : forall sd, seed_ok E sd -> forall p s, sd = Some (r, p, s) -> False).
        { induction 1 as [|r1 p1 d1 b1 G1 G2 G3|r1 p1 s1 s2 d1 b1 k1 m1 G1 IHs G2 G3]; intros p q Heq; [discriminate| |].
          - inv Heq. rewrite Hb in G1. inv G1. congruence.
          - inv Heq. eapply IHs. reflexivity. }
        eapply Hlr'; eauto. }
      destruct Hcall as (y & Hy & Hxy). unfold ref_rule in Hy. rewrite Hlr in Hy. unfold ref_once in Hy. oinv Hy.
      destruct k as [|k]; [discriminate|]. cbn [ref ref_core] in Hm.
      assert (Hya : y = None <-> a = None).
      { destruct a as [[n v]|]; [|inv Hy; split; congruence]. split; [|congruence]. intros ->. exfalso.
        oinv Hy. inv Hy. destruct a as [[n' v']|].
        - unfold ref_value in H1. rewrite Hpr in H1. discriminate.
        - destruct (r_no_whitespace d); [|discriminate].
          exact (then_total _ _ _ _ _ _ Hm0 eq_refl). }
      destruct (cho_ref _ _ _ _ _ _ _ _ _ _ Hl Hp Hm) as [A1 A2]. split.
      - intros Hx. apply A1. intros ->. apply Hx, Hxy, Hya. reflexivity.
      - intros Hx. apply A2. now apply Hya, Hxy.
    Qed.
  End One.

  (** ** Shapes *)
  Lemma strip_not x e : strip x = Not e -> exists e', x = Not e' /\ strip e' = e.
  Proof. destruct x; cbn; intros H; try discriminate. inv H. eauto. Qed.
  Lemma strip_tok x e : strip x = Tok e -> exists e', x = Tok e' /\ strip e' = e.
  Proof. destruct x; cbn; intros H; try discriminate. inv H. eauto. Qed.
  Lemma strip_ref x nm rl ia mc args : strip x = Ref nm rl ia mc args -> exists args', x = Ref nm rl ia mc args'.
  Proof. destruct x; cbn; intros H; try discriminate. inv H. eauto. Qed.
  Lemma strip_seq x kg l : strip x = Seq kg l -> exists kg' l', x = Seq kg' l' /\ map strip l' = l.
  Proof. destruct x; cbn; intros H; try discriminate. inv H. eauto. Qed.
  Lemma strip_cho x fl fs l : strip x = Cho fl fs l -> exists fs' l', x = Cho fl fs' l' /\ map strip l' = l.
  Proof. destruct x; cbn; intros H; try discriminate. inv H. eauto. Qed.
  Lemma strip_rep x e mn mx sp : strip x = Rep e mn mx sp -> exists e' sp', x = Rep e' mn mx sp' /\ strip e' = e.
  Proof. destruct x; cbn; intros H; try discriminate. inv H. eauto. Qed.
  Lemma strip_cls x rs neg ic : strip x = Cls rs neg ic -> x = Cls rs neg ic.
  Proof. destruct x; cbn; intros H; try discriminate. exact H. Qed.
  Lemma strip_lit x w ic : strip x = Lit w ic -> x = Lit w ic.
  Proof. destruct x; cbn; intros H; try discriminate. exact H. Qed.
  Lemma map_cons_inv {A B} (f : A -> B) l b t : map f l = b :: t -> exists a l', l = a :: l' /\ f a = b /\ map f l' = t.
  Proof. destruct l; intros H; inv H; eauto. Qed.
  Lemma strip_lits alts ex pr : kw_words (map strip alts) = Some (ex, pr) -> lits alts.
  Proof.
    intros H. apply Forall_forall. intros a Hin. destruct (kw_words_all _ _ _ H (strip a) (in_map strip _ _ Hin)) as [(w & He & _)|(kg & w & l & He & _)].
    - left. exists w. now apply strip_lit.
    - right. apply strip_seq in He as (kg' & l' & -> & Hl). apply map_cons_inv in Hl as (x & l2 & -> & Hx & _). apply strip_lit in Hx as ->. eauto.
  Qed.
  Lemma strip_keyword alts w : keyword alts w -> keyword (map strip alts) w.
  Proof.
    intros [H|(kg & l & H)]; apply (in_map strip) in H; [left; exact H|right; eexists _, _; exact H].
  Qed.
  Lemma strip_in_lit alts w : In (Lit w true) (map strip alts) -> In (Lit w true) alts.
  Proof. intros H. apply in_map_iff in H as (x & Hx & Hin). apply strip_lit in Hx as ->. exact Hin. Qed.
  Lemma fold_min_le l : forall d x, In x l -> fold_right Nat.min d l <= x.
  Proof. induction l as [|y l IH]; intros d x []; cbn; [subst; lia|]. specialize (IH d x H). lia. Qed.
  Lemma fold_max_ge l : forall x, In x l -> x <= fold_right Nat.max 0 l.
  Proof. induction l as [|y l IH]; intros x []; cbn; [subst; lia|]. specialize (IH x H). lia. Qed.

  Section Guards.
    Variable E : env.
    Variable odd : bool.
    Notation g := (strip_grammar (e_g E)).
    Hypothesis Hword : e_word E = None.
    Hypothesis Hws : forall w, e_ws E = Some w -> never_fails E w.
    Hypothesis Hplain : plain_text (e_input E).
    Hypothesis Hodd : odd = false -> ascii_text (e_input E).
    Hypothesis Hreg : regular_guards g (fun r => is_some (e_pred E r)) odd (e_input E).

    Lemma run_identifier rs1 ic1 rs2 ic2 s1 s2 pos b : ascii_bitset rs1 false ic1 = Some s1 -> ascii_bitset rs2 false ic2 = Some s2 ->
      nth_error (e_input E) pos = Some b -> btest s1 b = true ->
      identifier_at rs1 ic1 rs2 ic2 (e_input E) pos (S (runlen s2 (skipn (pos + 1) (e_input E)))).
    Proof.
      intros H1 H2 Hb Ht. split; [lia|]. split; [|split].
      - exists b. split; [exact Hb|]. now apply (ascii_bitset_spec rs1 ic1 s1 b H1).
      - intros i Hi. assert (X : forall t i, i < runlen s2 t -> exists b, nth_error t i = Some b /\ btest s2 b = true).
        { clear. induction t as [|c t IH]; intros i Hi; cbn in Hi; [lia|]. destruct (btest s2 c) eqn:Hc; [|lia].
          destruct i as [|i]; [exists c; auto|]. cbn. apply IH. lia. }
        destruct (X (skipn (pos + 1) (e_input E)) (i - 1) ltac:(lia)) as (b' & Hn & Hb'). rewrite nth_error_skipn in Hn. replace (pos + 1 + (i - 1)) with (pos + i) in Hn by lia.
        exists b'. split; [exact Hn|]. now apply (ascii_bitset_spec rs2 ic2 s2 b' H2).
      - intros b' Hn Hc. apply (ascii_bitset_spec rs2 ic2 s2 b' H2) in Hc.
        assert (X : forall t b', nth_error t (runlen s2 t) = Some b' -> btest s2 b' = false).
        { clear. induction t as [|c t IH]; intros b' H; cbn in H; [discriminate|]. destruct (btest s2 c) eqn:Hc; cbn in H; [now apply IH|congruence]. }
        rewrite (X (skipn (pos + 1) (e_input E)) b') in Hc; [discriminate|]. rewrite nth_error_skipn. rewrite <- Hn. f_equal. lia.
    Qed.
    Theorem guards_agree : guards_sound E g.
    Proof.
      intros r0 d0 b0 kg l l' kw Hb0 Hsub Hl' Hkw. pose proof Hkw as Hkw0. unfold kw_guard_of in Hkw.
      destruct (kw_pattern l) as [[r t]|] eqn:Hpat; [|discriminate]. unfold kw_pattern in Hpat.
      destruct l as [|o1 [|o2 [|]]]; try discriminate. 1:{ destruct o1 as [| | | |e| | | | | | | | | | | | | | | | | | |]; try discriminate; destruct e as [| | | | | | | | | | | | | | | | |nm [r1|] ia mc args| | | | | |]; discriminate. }
      2:{ destruct o1 as [| | | |e| | | | | | | | | | | | | | | | | | |]; try discriminate; destruct e as [| | | | | | | | | | | | | | | | |nm [r1|] ia mc args| | | | | |]; try discriminate; destruct o2; discriminate. }
      destruct o1 as [| | | |e| | | | | | | | | | | | | | | | | | |]; try discriminate. destruct e as [| | | | | | | | | | | | | | | | |nm [r1|] ia mc args| | | | | |]; try discriminate. destruct o2 as [| | | | | | | | | | | |t0| | | | | | | | | | |]; try discriminate.
      inv Hpat. destruct (nth_error g r) as [d|] eqn:Hd; [|discriminate]. destruct (r_body d) as [b|] eqn:Hbody; [|discriminate].
      destruct b as [|fl fs alts| | | | | | | | | | | | | | | | | | | | | |]; try discriminate.
      destruct (kw_words alts) as [[ex pr]|] eqn:Hkws; [|discriminate].
      destruct ex as [|ex0 ex]; [discriminate|]. set (exs := ex0 :: ex) in *.
      destruct (kw_class t) as [[s1 s2]|] eqn:Hcls; [|discriminate]. inv Hkw.
      unfold kw_class in Hcls. destruct t as [kg2 lt| | | | | | | | | | | | | | | | | | | | | | |]; try discriminate.
      destruct lt as [|c1 [|c2 [|]]]; try discriminate.
      3:{ destruct c1; try discriminate. destruct c2 as [| |e mn mx sp| | | | | | | | | | | | | | | | | | | | |]; try discriminate. destruct e; discriminate. }
      1:{ destruct c1; discriminate. }
      destruct c1 as [| | | | | | |rs1 n1 ic1| | | | | | | | | | | | | | | |]; try discriminate. destruct c2 as [| |e mn mx sp| | | | | | | | | | | | | | | | | | | | |]; try discriminate. destruct e as [| | | | | | |rs2 n2 ic2| | | | | | | | | | | | | | | |]; try discriminate.
      destruct (ascii_bitset rs1 n1 ic1) as [s1'|] eqn:Hs1; [|discriminate]. destruct (ascii_bitset rs2 n2 ic2) as [s2'|] eqn:Hs2; [|discriminate]. inv Hcls.
      assert (n1 = false) by (destruct n1; [discriminate|reflexivity]). assert (n2 = false) by (destruct n2; [discriminate|reflexivity]). subst n1 n2.
      destruct (Hreg r0 d0 b0 kg nm r ia mc args kg2 rs1 false ic1 rs2 false ic2 mn mx sp d fl fs alts Hb0 Hsub (conj Hd Hbody))
        as (R1 & R2 & R3 & -> & -> & R4 & R5 & R6 & R7); [rewrite Hkw0; discriminate|].
      (* the annotated nodes *)
      apply map_cons_inv in Hl' as (x1 & l1 & -> & Hx1 & Hl1). apply map_cons_inv in Hl1 as (x2 & l2 & -> & Hx2 & Hl2).
      apply map_eq_nil in Hl2. subst l2. apply strip_not in Hx1 as (e1 & -> & He1). apply strip_ref in He1 as (args' & ->).
      apply strip_tok in Hx2 as (t' & -> & Ht). apply strip_seq in Ht as (kg3 & lt & -> & Hlt).
      apply map_cons_inv in Hlt as (y1 & lt1 & -> & Hy1 & Hlt). apply map_cons_inv in Hlt as (y2 & lt2 & -> & Hy2 & Hlt). apply map_eq_nil in Hlt. subst lt2.
      apply strip_cls in Hy1. subst y1. apply strip_rep in Hy2 as (e' & sp' & -> & He'). apply strip_cls in He'. subst e'.
      (* the keyword rule *)
      rewrite strip_nth in Hd. destruct (nth_error (e_g E) r) as [d'|] eqn:Hd'; [|discriminate]. cbn in Hd. inv Hd.
      cbn in Hbody. destruct (r_body d') as [b'|] eqn:Hb'; [|discriminate]. cbn in Hbody.
      assert (Hsb : strip b' = Cho fl fs alts) by congruence. apply strip_cho in Hsb as (fs' & alts' & -> & Halts).
      assert (Hget : get_body E r = Some (d', Cho fl fs' alts')) by (unfold get_body; rewrite Hd'; cbn; now rewrite Hb').
      rewrite <- Halts in Hkws, R7. pose proof (strip_lits _ _ _ Hkws) as Hlits.
      assert (Hpred : e_pred E r = None) by (destruct (e_pred E r); [discriminate|reflexivity]).
      intros k sd fr m pos vs x Hsd Hp Hx.
      cbn [ref_seq] in Hx. rewrite Nat.add_0_r in Hx. oinv Hx. rename a into y0, Hm into Hnot.
      destruct k as [|k]; [discriminate|]. cbn [ref ref_core] in Hnot. oinv Hnot. rename a into y, Hm into Hkey.
      destruct (keyword_ref E Hword Hws k sd fr m nm r ia mc args' d' fl fs' alts' pos vs y Hp Hsd Hget R1 R2 Hpred Hlits Hkey) as [K1 K2].
      (* what the token gives when the keyword does not match *)
      assert (Htok : y = None -> x = match nth_error (e_input E) pos with
          | Some b => if btest s1 b then x else None | None => None end
        /\ (forall b, nth_error (e_input E) pos = Some b -> btest s1 b = true ->
            ref_then (ref (S k)) E m pos (S (runlen s2 (skipn (pos + 1) (e_input E)))) (push_tok (pos, S (runlen s2 (skipn (pos + 1) (e_input E)))) vs) = Some x)).
      { intros ->. inv Hnot. cbn [Nat.add] in Hx. oinv Hx. rename Hm into Htk. cbn [ref ref_core] in Htk. oinv Htk. rename Hm into Hseq.
        destruct k as [|k]; [discriminate|]. cbn [ref ref_core ref_seq] in Hseq. rewrite !Nat.add_0_r in Hseq. oinv Hseq. rename Hm into Hc1.
        destruct k as [|k]; [discriminate|]. cbn [ref ref_core] in Hc1.
        pose proof (cls_step E rs1 ic1 s1 odd pos vs _ Hplain Hodd Hs1 R4 (fun H lo hi Hi => R6 H lo hi (or_introl Hi)) Hc1) as Hc. subst a1.
        destruct (nth_error (e_input E) pos) as [b|] eqn:Hb.
        2:{ inv Hseq. inv Htk. inv Hx. split; [reflexivity|]. discriminate. }
        destruct (btest s1 b) eqn:Hbt.
        2:{ inv Hseq. inv Htk. inv Hx. split; [reflexivity|]. intros b' [= <-]. congruence. }
        split; [reflexivity|]. intros b' [= <-] _. cbn [Nat.add] in Hseq. oinv Hseq. rename Hm into Hrep. cbn [ref ref_core] in Hrep.
        assert (Hlt : pos < inlen E) by (apply nth_error_Some; congruence).
        destruct (span_rep E s2 (ref k E sd fr (tok_mode E m) (Cls rs2 false ic2))) with (fuel := k) (mn := 0) (mx := @None nat) (pos := pos + 1) (vs := vs) (x := a1)
          as (i & Hi & Ha1); [|discriminate|lia|exact Hrep|].
        { intros p vs' x' Hx'. destruct k as [|k']; [discriminate|]. cbn [ref ref_core] in Hx'.
          eapply (cls_step E rs2 ic2 s2 odd p vs'); eauto. }
        rewrite scan_runlen in Hi by (unfold span_limit, left, inlen in *; lia). inv Hi.
        assert (Hmin : Nat.min (span_limit E None (pos + 1)) (runlen s2 (skipn (pos + 1) (e_input E))) = runlen s2 (skipn (pos + 1) (e_input E))).
        { apply Nat.min_r. pose proof (runlen_le s2 (skipn (pos + 1) (e_input E))) as Hr. rewrite skipn_length in Hr. unfold span_limit, left, inlen. exact Hr. }
        change (left E (pos + 1)) with (span_limit E None (pos + 1)) in Hseq. rewrite Hmin in Hseq. cbn [Nat.ltb Nat.leb Nat.add] in Hseq. inv Hseq.
        assert (Hthen : ref_then (ref (S (S k))) E m pos (S (runlen s2 (skipn (pos + 1) (e_input E)))) (push_tok (pos, S (runlen s2 (skipn (pos + 1) (e_input E)))) vs) = Some a).
        { rewrite !Nat.add_0_r in Htk. exact Htk. }
        assert (Hxa : x = a).
        { destruct a as [[n v]|]; inv Hx; reflexivity. }
        subst x. eapply sub_Some; [|exact Hthen]. apply s_then. intros. apply ref_sub. lia. }
      assert (Hsome : y <> None -> x = None).
      { intros Hy. destruct y as [yy|]; [|congruence]. inv Hnot. inv Hx. reflexivity. }
      unfold kg_out. cbn [kg_first kg_rest kg_exact kg_prefix kg_min kg_max].
      destruct (Nat.ltb_spec (left E pos) 1) as [Hleft|Hleft].
      { destruct y as [yy|]; [apply Hsome; discriminate|]. destruct (Htok eq_refl) as [Hn _]. rewrite Hn.
        assert (Hz : nth_error (e_input E) pos = None) by (apply nth_error_None; unfold left, inlen in Hleft; lia). now rewrite Hz. }
      assert (Hlt : pos < inlen E) by (unfold left in Hleft; lia).
      destruct (nth_error (e_input E) pos) as [b|] eqn:Hb; [|apply nth_error_None in Hb; unfold inlen in Hlt; lia].
      unfold rd. rewrite Hb. destruct (btest s1 b) eqn:Hbt.
      2:{ destruct y as [yy|]; [apply Hsome; discriminate|]. destruct (Htok eq_refl) as [Hn _]. rewrite ?Hb, ?Hbt in Hn. exact Hn. }
      rewrite scan_runlen by (unfold left, inlen in *; lia).
      set (rl := runlen s2 (skipn (pos + 1) (e_input E))) in *.
      assert (Hrl : rl <= left E pos - 1).
      { unfold rl. pose proof (runlen_le s2 (skipn (pos + 1) (e_input E))) as Hr. rewrite skipn_length in Hr. unfold left, inlen. lia. }
      rewrite (Nat.min_r _ _ Hrl).
      pose proof (run_identifier rs1 ic1 rs2 ic2 s1 s2 pos b Hs1 Hs2 Hb Hbt) as Hid. fold rl in Hid.
      assert (Hsublen : List.length (sub (e_input E) pos (S rl)) = S rl).
      { unfold sub. rewrite firstn_length, skipn_length. unfold left, inlen in *. lia. }
      assert (Hhit : In (to_lower (sub (e_input E) pos (S rl))) exs -> x = None).
      { intros Hin. apply Hsome. intros Hy. destruct (kw_words_exact _ _ _ Hkws _ Hin) as (w & Hw & Hwin). apply (K2 Hy w); [now apply strip_in_lit|].
        unfold text_at. assert (Hlw : List.length w = S rl) by (rewrite <- (to_lower_length w), Hw, to_lower_length; exact Hsublen).
        rewrite Hlw. now symmetry. }
      assert (Hmiss : y <> None -> In (to_lower (sub (e_input E) pos (S rl))) (exs ++ pr)).
      { intros Hy. destruct (K1 Hy) as (w & Hk & Ht). apply strip_keyword in Hk. pose proof (R7 pos (S rl) w Hid Hk Ht) as Hlw.
        unfold text_at in Ht. rewrite Hlw in Ht. rewrite Ht. apply in_or_app. destruct Hk as [Hk|(kg' & lw & Hk)].
        - destruct (kw_words_all _ _ _ Hkws _ Hk) as [(w' & He & Hin)|(? & ? & ? & He & _)]; [|discriminate]. inv He. now left.
        - destruct (kw_words_all _ _ _ Hkws _ Hk) as [(w' & He & _)|(? & ? & ? & He & Hin)]; [discriminate|]. inv He. now right. }
      assert (Hex : forall ws, existsb (bytes_eqb (to_lower (sub (e_input E) pos (S rl)))) ws = true <-> In (to_lower (sub (e_input E) pos (S rl))) ws).
      { intros ws. rewrite existsb_exists. split; [intros (z & Hz & Heq); apply bytes_eqb_eq in Heq; now subst|intros Hin; eexists; split; [exact Hin|now apply bytes_eqb_eq]]. }
      assert (Hgo : y = None -> ref_then (ref (S k)) E m pos (S rl) (push_tok (pos, S rl) vs) = Some x).
      { intros Hy. destruct (Htok Hy) as [_ Hn]. now apply (Hn b). }
      match goal with |- context [(?a <=? S rl) && (S rl <=? ?b)] =>
        change a with (fold_right Nat.min (hd 0 (map (@List.length byte) (exs ++ pr))) (map (@List.length byte) (exs ++ pr)));
        change b with (fold_right Nat.max 0 (map (@List.length byte) (exs ++ pr))) end.
      destruct ((_ <=? S rl) && (S rl <=? _)) eqn:Hrange.
      - destruct (existsb _ exs) eqn:Hx1; [apply Hhit; now apply Hex|]. destruct (existsb _ pr) eqn:Hx2; [exact I|].
        apply Hgo. destruct y as [yy|]; [exfalso|reflexivity]. specialize (Hmiss ltac:(discriminate)). apply in_app_or in Hmiss as [Hin|Hin]; apply Hex in Hin; congruence.
      - apply Hgo. destruct y as [yy|]; [exfalso|reflexivity]. specialize (Hmiss ltac:(discriminate)).
        apply (in_map (@List.length byte)) in Hmiss. rewrite to_lower_length, Hsublen in Hmiss.
        apply andb_false_iff in Hrange as [Hr|Hr]; apply Nat.leb_gt in Hr.
        + pose proof (fold_min_le _ (hd 0 (map (@List.length byte) (exs ++ pr))) _ Hmiss). lia.
        + pose proof (fold_max_ge _ _ Hmiss). lia.
    Qed.
  End Guards.
End Keyword.
