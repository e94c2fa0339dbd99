(** * Left recursion (C19). *)
From Verif Require Import Base BaseLemmas Utf8 Utf8Spec Utf8Proofs Escape TrieM TrieSpec LineInfo Ope Ctx ErrLog Engine EngineLemmas Top Frame Scope Bounds Mono TopFacts
  RefSem RefMono Refine RefineMain TopRef RefExt LrSpec LrRef PegSpec PegFacts PegDen PegWord PegRef GrammarCond PegEngine Samples PropPeg PropMemo.

Lemma forallb_same {A} (p q : A -> bool) l : (forall x, p x = q x) -> forallb p l = forallb q l.
Proof. intros H. induction l as [|x l IH]; cbn; [reflexivity|]. now rewrite H, IH. Qed.
Section Iter.
  Variables (g : grammar) (ws : bool) (md : rid -> mode) (mm : list mode).
  Lemma iter_some r d : nth_error g r = Some d -> nth_error (iterate g) r = Some (iterate_rule r d).
  Proof. intros H. now rewrite iterate_nth, H. Qed.
  Lemma iter_none r : nth_error g r = None -> nth_error (iterate g) r = None.
  Proof. intros H. now rewrite iterate_nth, H. Qed.
  Lemma iter_macro_ref r d : r_macro_ref (iterate_rule r d) = r_macro_ref d.
  Proof. unfold iterate_rule, set_body. destruct (r_lr d); reflexivity. Qed.
  Lemma iter_hygienic n : hygienic (iterate g) n = hygienic g n.
  Proof.
    unfold hygienic, iterate. generalize 0. induction g as [|d g' IH]; intros k; cbn; [reflexivity|].
    destruct (iter_rule_same k d) as (_ & -> & _). now rewrite IH.
  Qed.
  Lemma iter_core_in o : forall m, core_in (iterate g) ws md mm m o = core_in g ws md mm m o.
  Proof.
    assert (Hl : forall l, Forall (fun o => forall m, core_in (iterate g) ws md mm m o = core_in g ws md mm m o) l ->
      forall m, forallb (core_in (iterate g) ws md mm m) l = forallb (core_in g ws md mm m) l).
    { induction 1 as [|a l H1 H2 IH]; intros m; cbn; [reflexivity|]. now rewrite H1, IH. }
    induction o using ope_ind'; intros m'; cbn [core_in]; auto.
    - f_equal. destruct (nth_error g r) as [d|] eqn:Hd.
      + rewrite (iter_some _ _ Hd), iter_macro_ref. destruct (iter_rule_same r d) as (-> & _). reflexivity.
      + now rewrite (iter_none _ Hd).
    - destruct rl as [r|]; [|reflexivity]. rewrite iter_hygienic. f_equal; [f_equal|].
      + destruct (nth_error g r) as [d|] eqn:Hd; [rewrite (iter_some _ _ Hd)|now rewrite (iter_none _ Hd)].
        destruct (iter_rule_same r d) as (-> & _). reflexivity.
      + induction H as [|a l H1 H2 IH]; cbn; [reflexivity|]. rewrite IH. f_equal. apply forallb_same. exact H1.
    - now rewrite IHo.
  Qed.
  Lemma iter_mref o : mref (iterate g) o = mref g o.
  Proof.
    induction o using ope_ind'; cbn [mref]; auto.
    - induction H as [|a l H1 H2 IH]; cbn; [reflexivity|]. now rewrite H1, IH.
    - induction H as [|a l H1 H2 IH]; cbn; [reflexivity|]. now rewrite H1, IH.
    - destruct rl as [r|]; [|reflexivity]. destruct (nth_error g r) as [d|] eqn:Hd; [rewrite (iter_some _ _ Hd)|now rewrite (iter_none _ Hd)].
      destruct (iter_rule_same r d) as (-> & _). reflexivity.
  Qed.
  (** Any property of the alternatives holds of the iteration's parts. *)
  Lemma split_all (p : ope -> bool) r l a b : split_lr r l = (a, b) -> forallb p l = true ->
    (forall kg q, p (Seq kg q) = forallb p q) -> forallb p (map (Seq None) a) = true /\ forallb p b = true.
  Proof.
    intros Hs Hl Hp. revert a b Hs. induction l as [|o l IH]; intros a b Hs; cbn [split_lr] in Hs; [inv Hs; auto|].
    cbn in Hl. apply andb_prop in Hl as [H1 H2]. destruct (lr_alt r o) as [rest|] eqn:Ho; [|inv Hs; cbn; rewrite H1, H2; auto].
    destruct (split_lr r l) as [a' b'] eqn:Hs'. inv Hs. destruct (IH H2 _ _ eq_refl) as [H3 H4]. destruct (lr_alt_inv _ _ _ Ho) as (kg & nm & ia & mac & ->).
    rewrite Hp in H1. cbn in H1. apply andb_prop in H1 as [_ H1]. split; [|exact H4]. cbn. rewrite Hp, H1. exact H3.
  Qed.
  Lemma split_mref r d l a b : nth_error g r = Some d -> r_is_macro d = false -> split_lr r l = (a, b) -> existsb (mref g) l = false ->
    existsb (mref g) (map (Seq None) a) = false /\ existsb (mref g) b = false.
  Proof.
    intros Hd Hm Hs Hl.
    assert (Hneg : forall q, existsb (mref g) q = negb (forallb (fun o => negb (mref g o)) q)).
    { induction q as [|x q IH]; cbn; [reflexivity|]. rewrite IH, negb_andb, negb_involutive. reflexivity. }
    rewrite Hneg in Hl. apply negb_false_iff in Hl.
    destruct (split_all (fun o => negb (mref g o)) r l a b Hs Hl) as [H1 H2].
    - intros kg q. cbn [mref]. rewrite Hneg. now rewrite negb_involutive.
    - rewrite !Hneg, H1, H2. auto.
  Qed.
End Iter.

Section Rec.
  Context {V U : Type}.
  Implicit Types (P : pobj V U).

  Lemma iterate_core_grammar g ws md mm : core_grammar g ws md mm = true -> core_grammar (iterate g) ws md mm = true.
  Proof.
    intros Hr. unfold core_grammar in *. rewrite forallb_forall in *. intros [r d'] Hin.
    apply (In_nth_error) in Hin as [i Hin].
    assert (Hri : nth_error (iterate g) r = Some d').
    { assert (X : forall k (g : grammar) i, nth_error (combine (seq k (List.length g)) g) i = Some (r, d') -> k <= r /\ nth_error g (r - k) = Some d').
      { intros k g0. revert k. induction g0 as [|x g0 IH]; intros k [|i0] H; cbn in *; try discriminate.
        - inv H. split; [lia|]. now rewrite Nat.sub_diag.
        - destruct (IH (S k) i0 H) as [H1 H2]. split; [lia|]. replace (r - k) with (S (r - S k)) by lia. exact H2. }
      destruct (X 0 _ i Hin) as [_ X']. now rewrite Nat.sub_0_r in X'. }
    rewrite iterate_nth in Hri. destruct (nth_error g r) as [d|] eqn:Hd; [|discriminate]. inv Hri.
    specialize (Hr _ (in_combine_seq _ _ _ Hd)). unfold core_rule in *. cbn [fst snd] in *.
    destruct (iter_rule_same r d) as (Sm & _ & Sw & _). rewrite Sm, Sw, iter_macro_ref.
    destruct (r_body (iterate_rule r d)) as [body|] eqn:Hb; [|reflexivity].
    destruct (iter_rule_body r d body Hb) as [[Hlr Hsame]|(Hlr & _ & Hmac & Hnw & fl & fs & l & a & b & Hb0 & Hsp & ->)].
    + rewrite Hsame in Hb. rewrite Hb in Hr. apply andb_prop in Hr as [H1 H2]. rewrite H2, andb_true_r. rewrite iter_mref. destruct (r_is_macro d).
      * rewrite <- H1. apply forallb_same. intros x. apply iter_core_in.
      * now rewrite iter_core_in.
    + rewrite Hb0, Hmac, Hnw in Hr. rewrite Hmac, Hnw. apply andb_prop in Hr as [H1 H2]. apply andb_prop in H1 as [H0 H1].
      cbn [core_in] in H0. cbn [nopre] in H2. cbn [mref] in H1.
      destruct (split_all (core_in g ws md mm (md r)) r l a b Hsp H0 (fun _ _ => eq_refl)) as [A1 A2].
      destruct (split_all nopre r l a b Hsp H2 (fun _ _ => eq_refl)) as [B1 B2].
      rewrite iter_core_in, iter_mref. unfold iteration. cbn [core_in forallb mref existsb nopre]. rewrite A1, A2, B1, B2. cbn.
      rewrite ?andb_true_r. destruct (r_macro_ref d); [now rewrite implb_true_r|].
      destruct (existsb (mref g) l) eqn:Hex; [discriminate|].
      destruct (split_mref g r d l a b Hd Hmac Hsp Hex) as [-> ->]. reflexivity.
  Qed.
  Lemma iterated_core md mm P : core_parser md mm P -> core_parser md mm (iterated P).
  Proof.
    intros [Hr Hw Hs Hwd Hu Hsl]. constructor; cbn [iterated with_grammar p_g p_ws p_start p_word p_user p_packrat p_slot p_cached]; auto.
    - now apply iterate_core_grammar.
    - destruct (p_ws P) as [w|]; [|exact I]. unfold core_ws in *. destruct w; try discriminate. now rewrite iter_core_in, iter_mref.
    - destruct Hs as [H1 (d & Hd & Hm)]. split; [exact H1|]. exists (iterate_rule (p_start P) d). rewrite iterate_nth, Hd. split; [reflexivity|].
      destruct (iter_rule_same (p_start P) d) as (-> & _). exact Hm.
    - destruct (p_word P) as [w|]; [|exact I]. destruct Hwd as (A & B & C & D).
      split; [now apply iterate_core_grammar|]. now rewrite iter_core_in, iter_mref.
  Qed.
  Lemma iterated_bare P : bare_parser P -> bare_parser (iterated P).
  Proof.
    intros (H1 & H2 & H3). split; [|split; [exact H2|exact H3]]. cbn. unfold bare_grammar in *. rewrite forallb_forall in *. intros d' Hin.
    apply In_nth_error in Hin as [r Hr]. rewrite iterate_nth in Hr. destruct (nth_error (p_g P) r) as [d|] eqn:Hd; [|discriminate]. inv Hr.
    specialize (H1 d (nth_error_In _ _ Hd)). destruct (r_body (iterate_rule r d)) as [body|] eqn:Hb; [|reflexivity].
    destruct (iter_rule_body r d body Hb) as [[Hlr Hsame]|(Hlr & _ & Hmac & Hnw & fl & fs & l & a & b & Hb0 & Hsp & ->)].
    - rewrite Hsame in Hb. now rewrite Hb in H1.
    - rewrite Hb0 in H1. cbn [bare] in H1. destruct fs; [|discriminate].
      assert (Hab : forallb bare (map (Seq None) a) = true /\ forallb bare b = true).
      { clear -Hsp H1. revert a b Hsp. induction l as [|o l IH]; intros a b Hs; cbn [split_lr] in Hs; [inv Hs; auto|].
        cbn in H1. apply andb_prop in H1 as [H1 H2]. destruct (lr_alt r o) as [rest|] eqn:Ho; [|inv Hs; cbn; rewrite H1, H2; auto].
        destruct (split_lr r l) as [a' b'] eqn:Hs'. inv Hs. destruct (IH H2 _ _ eq_refl) as [H3 H4]. destruct (lr_alt_inv _ _ _ Ho) as (kg & nm & ia & mac & ->).
        destruct kg; [discriminate|]. cbn in H1. split; [|exact H4]. cbn. now rewrite H1, H3. }
      destruct Hab as [A1 A2]. unfold iteration. cbn [bare forallb]. now rewrite A1, A2.
  Qed.

  (** The engine reports the length of the meaning. *)
  Lemma engine_len P input dt md mm k x : core_parser md mm P -> bare_parser P -> (forall q, p_pred P q = None) ->
    ref_top k (mk_env P input) (p_start P) = Some x ->
    exists reps res, ev (fun f => parser_parse f P input dt = Ok (match x with Some (n, _) => negb (p_eoi P) || (n =? List.length input) | None => false end, reps, res))
      /\ rs_ret res = match x with Some (n, _) => negb (p_eoi P) || (n =? List.length input) | None => false end
      /\ match x with Some (n, _) => rs_len res = n | None => True end.
  Proof.
    intros Hc Hb Hpr Hx.
    assert (Hal : core_modes (p_g P) md mm (p_start P) m_top).
    { destruct (cp_start _ _ _ Hc) as [H1 (d & Hd & Hm)]. cbn. rewrite Hd, Hm. exact H1. }
    pose proof (core_okA (kp := false) md mm P input Hc (bare_parser_anns P input Hb) (or_introl (conj eq_refl Hpr)) (fun _ => Hpr)) as HA.
    destruct (def_parse_ref (kp := false) k P input dt _ _ x HA Hal Hx) as (r1 & A1 & B1 & C1 & D1).
    pose proof (ok_wf _ _ (oa_main _ _ _ HA)) as HE.
    assert (Hin : in_input input r1).
    { apply ev_pick in A1 as [f Hf]. pose proof (def_parse_safe f P input dt HE) as Hs. rewrite Hf in Hs. exact Hs. }
    destruct Hin as (_ & H1 & H2). destruct (output_log_ok (p_g P) input (rs_err r1) H1 H2) as [[e rp] Hlog].
    exists (if p_log P && negb (rs_ret r1) then rs_out r1 ++ match rp with Some x => [x] | None => [] end else rs_out r1), r1.
    split; [|split; [exact B1|destruct x as [[n v]|]; [now destruct D1|exact I]]].
    unfold parser_parse. eapply ev_bind; [exact A1|]. apply ev_all. intros f. rewrite Hlog, C1. rewrite <- B1.
    rewrite andb_true_r. destruct (p_log P && negb (rs_ret r1)); reflexivity.
  Qed.

  Lemma same_as_iterated P input dt md mm :
    core_parser md mm P -> bare_parser P -> (forall q, p_pred P q = None) -> settled (iterated P) input ->
    exists b reps1 res1 reps2 res2 F, forall fuel, F <= fuel ->
      parser_parse fuel P input dt = Ok (b, reps1, res1)
      /\ parser_parse fuel (iterated P) input dt = Ok (b, reps2, res2)
      /\ rs_ret res1 = rs_ret res2 /\ (rs_ret res1 = true -> rs_len res1 = rs_len res2).
  Proof.
    intros Hc Hb Hpr (k & x & Hx).
    destruct (ref_top_iterated P input md mm k x Hc (bare_parser_anns P input Hb) Hpr Hx) as (j & y & Hy & He).
    destruct (engine_len P input dt md mm j y Hc Hb Hpr Hy) as (reps1 & res1 & A1 & B1 & C1).
    destruct (engine_len (iterated P) input dt md mm k x (iterated_core md mm P Hc) (iterated_bare P Hb) Hpr Hx) as (reps2 & res2 & A2 & B2 & C2).
    assert (Hb2 : match x with Some (n, _) => negb (p_eoi P) || (n =? List.length input) | None => false end
                = match y with Some (n, _) => negb (p_eoi P) || (n =? List.length input) | None => false end).
    { destruct x as [[n v]|], y as [[n' v']|]; try discriminate He; [|reflexivity]. inv He. reflexivity. }
    destruct (ev_and _ _ A1 A2) as [F HF].
    exists (match y with Some (n, _) => negb (p_eoi P) || (n =? List.length input) | None => false end), reps1, res1, reps2, res2, F.
    intros fuel Hf. destruct (HF fuel Hf) as [H1 H2]. change (p_eoi (iterated P)) with (p_eoi P) in *. rewrite Hb2 in *.
    split; [exact H1|]. split; [exact H2|]. split; [congruence|]. intros Ht.
    destruct x as [[n v]|], y as [[n' v']|]; try discriminate He; [|congruence]. unfold eqlen in He. cbn in He. congruence.
  Qed.
End Rec.

(** Inversions. *)
Section Inv.
  Context {NT : Type} (G : NT -> pexp NT).
  Lemma alt_inv a b s r : peg G (PAlt a b) s r -> (exists t, peg G a s (Some t) /\ r = Some t) \/ (peg G a s None /\ peg G b s r).
  Proof. intros H; inversion H; subst; eauto. Qed.
  Lemma seq_inv a b s r : peg G (PSeq a b) s r -> (peg G a s None /\ r = None) \/ exists t, peg G a s (Some t) /\ peg G b t r.
  Proof. intros H; inversion H; subst; eauto. Qed.
  Lemma nt_inv n s r : peg G (PNT n) s r -> peg G (G n) s r.
  Proof. intros H; inversion H; subst; eauto. Qed.
  Lemma eps_inv s r : peg G PEps s r -> r = Some s.
  Proof. intros H; inversion H; subst; eauto. Qed.
End Inv.

(** ** C19.  [iterated P]: the parser whose left-recursive rules
    A <- A a1 / ... / A an / b1 / ... / bm  are replaced by
    A <- (b1 / ... / bm) (a1 / ... / an)*  (LrSpec.v).  [settled]: the meaning of
    the latter is defined on this input (no infinite recursion or repetition). *)
Theorem C19_left_recursion_is_iteration_partial :
  forall (V U : Type) (P : pobj V U) (input : bytes) (dt : U) md mm,
  core_parser md mm P -> bare_parser P -> (forall q, p_pred P q = None) ->
  settled (iterated P) input ->
  exists b reps1 res1 reps2 res2 F, forall fuel, F <= fuel ->
    parser_parse fuel P input dt = Ok (b, reps1, res1)
    /\ parser_parse fuel (iterated P) input dt = Ok (b, reps2, res2)
    /\ rs_ret res1 = rs_ret res2 /\ (rs_ret res1 = true -> rs_len res1 = rs_len res2).
Proof. exact @same_as_iterated. Qed.
Print Assumptions C19_left_recursion_is_iteration_partial.
(** Growing the seed terminates: it is enough that the iterated grammar is
    well-founded. *)
Theorem C19_growth_terminates_partial :
  forall (V U : Type) (P : pobj V U) (input : bytes) (dt : U) md mm R,
  core_parser md mm P -> bare_parser P -> (forall q, p_pred P q = None) ->
  (exists isw, word_table (iterate (p_g P)) (p_word P) isw /\ well_formed (peg_word (iterate (p_g P)) (p_ws P) (p_word P) isw) R) ->
  R (WMain (NSkip m_top)) -> R (WMain (NRule (p_start P) m_top)) -> valid_utf8 input ->
  exists b reps res F, forall fuel, F <= fuel -> parser_parse fuel P input dt = Ok (b, reps, res).
Proof. intros V U P input dt md mm R Hc Hb Hp (isw & Hwt & Hw) H1 H2 Hu. eapply engine_terminates_word; eauto. now apply bare_parser_anns. Qed.
Print Assumptions C19_growth_terminates_partial.
(** In textbook notation: the nonterminal of A <- A a / b derives what b a* does. *)
Theorem C19_textbook_reading_partial :
  forall (g : grammar) ws r d fl fs kg nm i mc (a : list ope) (b : ope) m s x,
  nth_error g r = Some d -> r_lr d = true -> r_is_macro d = false -> r_no_whitespace d = false ->
  r_body d = Some (Cho fl fs [Seq kg (Ref nm (Some r) i mc [] :: a); b]) -> lr_alt r b = None ->
  let D := den (iterate g) ws (r_params d, []) m in
  peg (peg_of (iterate g) ws) (PNT (NRule r m)) s x
  <-> peg (peg_of (iterate g) ws) (PSeq (D b) (PStar (PSeqs (map D a)))) s x.
Proof.
  intros g ws r d fl fs kg nm i mc a b m s x Hd Hlr Hmac Hnw Hb Hnb D. set (G := peg_of (iterate g) ws).
  assert (HG : G (NRule r m) = PSeqs [PAlts [D b]; PRepeat 0 None (PAlts [PSeqs (map D a)])]).
  { unfold G. cbn [peg_of]. rewrite iterate_nth, Hd. cbn [option_map].
    assert (X : iterate_rule r d = set_body d (Some (iteration [a] [b]))).
    { unfold iterate_rule. rewrite Hlr, Hb, Hmac, Hnw. cbn [orb split_lr]. cbn [lr_alt]. rewrite Nat.eqb_refl. rewrite Hnb. reflexivity. }
    rewrite X. cbn [set_body r_body r_is_macro r_lr r_no_whitespace r_params]. rewrite Hmac, Hnw. reflexivity. }
  set (A := PSeqs (map D a)) in *. set (B := D b) in *. unfold PSeqs, PAlts, PRepeat in HG. cbn [fold_right PTimes] in HG.
  assert (Hfail : forall y z, ~ peg G PFail y (Some z)).
  { intros y z H. unfold PFail in H. inversion H; subst. match goal with X : peg G PEps _ None |- _ => inversion X end. }
  assert (Halt : forall e y z, peg G (PAlt e PFail) y z <-> peg G e y z).
  { intros e y z. split; intros H.
    - destruct (alt_inv _ _ _ _ _ H) as [(t & H1 & ->)|[H1 H2]]; [exact H1|]. destruct z as [z|]; [exfalso; eapply Hfail; eauto|exact H1].
    - destruct z as [z|]; [now apply peg_alt1|]. apply peg_alt2; [exact H|]. unfold PFail. eapply peg_not. constructor. }
  assert (Hstar : forall e e', (forall y z, peg G e y z <-> peg G e' y z) -> forall y z, peg G (PStar e) y z -> peg G (PStar e') y z).
  { intros e e' He y z H. remember (PStar e) as q eqn:Hq. induction H; inversion Hq; subst.
    - apply peg_star_end. apply He. assumption.
    - eapply peg_star; [apply He; eassumption|auto]. }
  assert (Hst : forall y z, peg G (PSeq PEps (PStar (PAlt A PFail))) y z <-> peg G (PStar A) y z).
  { intros y z. split; intros H.
    - destruct (seq_inv _ _ _ _ _ H) as [[H1 _]|(t & H1 & H2)]; apply eps_inv in H1; [discriminate|]. inv H1. eapply Hstar; [|exact H2]. apply Halt.
    - eapply peg_seq; [constructor|]. eapply Hstar; [|exact H]. intros. symmetry. apply Halt. }
  assert (Hsq : forall y z, peg G (PSeq (PSeq PEps (PStar (PAlt A PFail))) PEps) y z <-> peg G (PStar A) y z).
  { intros y z. split; intros H.
    - destruct (seq_inv _ _ _ _ _ H) as [[H1 ->]|(t & H1 & H2)]; apply (proj1 (Hst _ _)) in H1; [exact H1|]. apply eps_inv in H2. subst. exact H1.
    - destruct z as [z|]; [eapply peg_seq; [apply Hst; exact H|constructor]|]. apply peg_seq_no. apply Hst. exact H. }
  split; intros H.
  - apply nt_inv in H. rewrite HG in H. destruct (seq_inv _ _ _ _ _ H) as [[H1 ->]|(t & H1 & H2)]; apply (proj1 (Halt _ _ _)) in H1; [apply peg_seq_no; exact H1|].
    eapply peg_seq; [exact H1|]. apply Hsq. exact H2.
  - constructor. rewrite HG. destruct (seq_inv _ _ _ _ _ H) as [[H1 ->]|(t & H1 & H2)].
    + apply peg_seq_no. apply Halt. exact H1.
    + eapply peg_seq; [apply Halt; exact H1|]. apply Hsq. exact H2.
Qed.
Print Assumptions C19_textbook_reading_partial.

(** S <- E    E <- E '+' T / E '-' T / T    T <- [0-9] *)
Definition rule_E : ope := Ref (bs "E") (Some 1) 0 false [].
Definition rule_T : ope := Ref (bs "T") (Some 2) 0 false [].
Definition lr_rule (name : string) (body : ope) : rule :=
  {| r_name := bs name; r_body := Some body; r_ignore := false; r_is_macro := false; r_params := [];
     r_disable_action := false; r_lr := true; r_can_be_empty := false; r_macro_ref := false;
     r_error_message := []; r_no_ast_opt := false; r_no_whitespace := false; r_ast_name := bs name |}.
Definition g_left : grammar :=
  [plain "S" rule_E; lr_rule "E" (alts [seqs [rule_E; lit "+"; rule_T]; seqs [rule_E; lit "-"; rule_T]; rule_T]);
   plain "T" (Cls [(48, 57)%N] false false)].
Definition P_left : pobj bytes unit := sample g_left None None true false.
Example C19_meets : exists reps res,
  core_parser (fun _ => m_top) [m_top] P_left /\ bare_parser P_left /\ (forall q, p_pred P_left q = None)
  /\ settled (iterated P_left) (bs "1-2+3")
  /\ p_g (iterated P_left) = [plain "S" rule_E;
       plain "E" (seqs [alts [rule_T]; many (alts [seqs [lit "+"; rule_T]; seqs [lit "-"; rule_T]])]);
       plain "T" (Cls [(48, 57)%N] false false)]
  /\ parser_parse 40 P_left (bs "1-2+3") tt = Ok (true, reps, res) /\ rs_len res = 5.
Proof.
  eexists _, _. split.
  { constructor; try reflexivity; [|discriminate]. split; [reflexivity|]. eexists. split; reflexivity. }
  split; [split; [reflexivity|split; (reflexivity || exact I)]|]. split; [reflexivity|]. split; [eexists 20, _; vm_compute; reflexivity|]. split; [reflexivity|].
  split; [vm_compute; reflexivity|]. reflexivity.
Qed.
(** The order matters: E <- T / E '+' T, read by the code as the alternatives in
    order, never grows beyond the first T. *)
Definition P_base_first : pobj bytes unit :=
  sample [plain "S" rule_E; lr_rule "E" (alts [rule_T; seqs [rule_E; lit "+"; rule_T]]); plain "T" (Cls [(48, 57)%N] false false)] None None true false.
Example C19_base_first_does_not_grow : exists reps res,
  parser_parse 40 P_base_first (bs "1+2") tt = Ok (false, reps, res) /\ settled P_base_first (bs "1+2").
Proof. eexists _, _. split; [vm_compute; reflexivity|]. eexists 20, _. vm_compute. reflexivity. Qed.
