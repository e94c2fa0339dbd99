(** * The engine agrees with the textbook PEG (C12), and terminates on
    well-founded grammars (C20). *)
From Verif Require Import Base BaseLemmas Utf8 Utf8Spec Utf8Proofs Escape TrieM LineInfo Ope Ctx ErrLog Engine EngineLemmas Top Frame Scope Bounds Mono TopFacts
  RefSem RefMono Refine RefineOps RefineMain TopRef RefExt LrSpec LrRef RefWord PegSpec PegFacts PegDen PegWord PegRef GrammarCond.

(** Leading whitespace, then the start rule. *)
Definition start_of {V U} (P : pobj V U) : pexp nt := PSeq (PNT (NSkip m_top)) (PNT (NRule (p_start P) m_top)).
(** Directly left-recursive rules are read as iterations. *)
Definition peg_grammar {V U} (P : pobj V U) : nt -> pexp nt := peg_of (iterate (p_g P)) (p_ws P).
(** With %word: literals are followed by a word boundary (PegWord.v). *)
Definition word_grammar {V U} (P : pobj V U) (isw : bytes -> option bool) : wnt -> pexp wnt :=
  peg_word (iterate (p_g P)) (p_ws P) (p_word P) isw.
Definition word_start {V U} (P : pobj V U) : pexp wnt := PSeq (PNT (WMain (NSkip m_top))) (PNT (WMain (NRule (p_start P) m_top))).
(** [isw] says which literals start with a word. *)
Definition literal_words {V U} (P : pobj V U) (isw : bytes -> option bool) : Prop := word_table (iterate (p_g P)) (p_word P) isw.
(** The parser with iterations in place of left recursion. *)
Definition with_grammar {V U} (P : pobj V U) (g : grammar) : pobj V U :=
  {| p_g := g; p_start := p_start P; p_ws := p_ws P; p_word := p_word P; p_packrat := p_packrat P; p_slot := p_slot P;
     p_cached := p_cached P; p_eoi := p_eoi P; p_tracer := p_tracer P; p_verbose := p_verbose P; p_log := p_log P;
     p_u0 := p_u0 P; p_action := p_action P; p_pred := p_pred P; p_enter := p_enter P; p_leave := p_leave P; p_user := p_user P |}.
Definition iterated {V U} (P : pobj V U) : pobj V U := with_grammar P (iterate (p_g P)).

Section PegEngine.
  Context {V U : Type}.
  Implicit Types (P : pobj V U).

  Lemma ref_top_mono j k (E : env V U) start x : j <= k -> ref_top j E start = Some x -> ref_top k E start = Some x.
  Proof.
    intros Hjk H. unfold ref_top in *.
    destruct (match e_ws E with None => _ | Some w => ref j E None no_frame m_top w 0 sv_new end) as [w|] eqn:Hw; [|discriminate].
    assert (Hw' : match e_ws E with None => Some (Some (0, sv_new)) | Some w => ref k E None no_frame m_top w 0 sv_new end = Some w).
    { destruct (e_ws E); [|exact Hw]. eapply ref_mono; eauto. }
    rewrite Hw'. cbn [obind] in *. destruct w as [[i vs]|]; [|exact H]. oinv H.
    rewrite (ref_mono _ k _ _ _ _ _ _ _ _ Hjk Hm). exact H.
  Qed.

  Lemma peg_ref_top_plain P isw input r : word_table (p_g P) (p_word P) isw -> (forall q, p_pred P q = None) ->
    peg (peg_word (p_g P) (p_ws P) (p_word P) isw) (word_start P) input r ->
    exists k y, ref_top k (mk_env P input) (p_start P) = Some y /\ agree (mk_env P input) 0 r y.
  Proof.
    intros Hwd Hpr H. set (E := mk_env P input). set (G := peg_word (p_g P) (p_ws P) (p_word P) isw) in *.
    assert (Hskip : forall r', peg G (PNT (WMain (NSkip m_top))) input r' ->
      exists j y, match e_ws E with None => Some (Some (0, sv_new)) | Some w => ref j E None no_frame m_top w 0 sv_new end = Some y
        /\ agree E 0 r' y).
    { intros r' H1. inversion H1 as [| | | | | |? ? ? H2| | | | | | | |]; subst.
      unfold G in H2. cbn [peg_word peg_of] in H2. change (e_ws E) with (p_ws P). destruct (p_ws P) as [w|] eqn:Hw.
      - cbn [m_tok m_top] in H2. eapply (peg_ref_word E isw no_frame m_top w input r' Hwd Hpr); [|cbn; lia|reflexivity].
        cbn [E mk_env e_g e_ws e_word]. rewrite Hw. exact H2.
      - exists 0, (Some (0, sv_new)). split; [reflexivity|]. inversion H2; subst. cbn. split; [lia|reflexivity]. }
    unfold word_start in H. inversion H as [| | | | | | |? ? ? t ? H1 H2|? ? ? H1| | | | | |]; subst.
    - destruct (Hskip _ H1) as (j & y & A & B). destruct y as [[i vs]|]; [|destruct B]. destruct B as [B1 B2].
      destruct (peg_ref_word E isw no_frame m_top (Hld (p_start P)) _ r Hwd Hpr H2 i vs B1 B2) as (j2 & y2 & C & D).
      exists (j + j2). eexists. split.
      + unfold ref_top.
        assert (A' : match e_ws E with None => Some (Some (0, sv_new)) | Some w => ref (j + j2) E None no_frame m_top w 0 sv_new end = Some (Some (i, vs))).
        { destruct (e_ws E); [|exact A]. eapply ref_mono; [|exact A]. lia. }
        rewrite A'. cbn [obind]. rewrite (ref_mono _ (j + j2) _ _ _ _ _ _ _ _ (Nat.le_add_l _ _) C). reflexivity.
      + destruct r as [t'|], y2 as [[n v]|]; cbn in D |- *; try contradiction; auto.
    - destruct (Hskip _ H1) as (j & y & A & B). destruct y as [[? ?]|]; [destruct B|].
      exists j, None. unfold ref_top. rewrite A. cbn. auto.
  Qed.

  (** The iterated parser means the same. *)
  Lemma ref_top_iterated P input md mm k x : core_parser md mm P -> anns_parser P input -> (forall q, p_pred P q = None) ->
    ref_top k (mk_env (iterated P) input) (p_start P) = Some x ->
    exists j y, ref_top j (mk_env P input) (p_start P) = Some y /\ eqlen x y.
  Proof.
    intros Hc Ha Hpr H.
    pose proof (core_okA (kp := false) md mm P input Hc Ha (or_introl (conj eq_refl Hpr)) (fun _ => Hpr)) as HA.
    assert (Hal : core_modes (p_g P) md mm (p_start P) m_top).
    { destruct (cp_start _ _ _ Hc) as [H1 (d & Hd & Hm)]. cbn. rewrite Hd, Hm. exact H1. }
    pose proof (oa_main _ _ _ HA) as HE. set (E := mk_env P input) in *.
    rewrite (ref_top_same k _ (with_g E (iterate (e_g E)))) in H by reflexivity.
    pose proof (sims_all E (core_modes (p_g P) md mm) eq_refl Hpr HE (iterate_words E _ _ HA Hpr) k) as Hsim.
    assert (Hf : fr_ok (kp := false) E (core_modes (p_g P) md mm) no_frame) by (split; [now left|constructor]).
    unfold ref_top in *. change (e_ws (with_g E (iterate (e_g E)))) with (e_ws E) in H.
    destruct (match e_ws E with None => _ | Some w => ref k (with_g E (iterate (e_g E))) None no_frame m_top w 0 sv_new end) as [w|] eqn:Hw; [|discriminate].
    assert (Hw' : exists j y, (match e_ws E with None => Some (Some (0, sv_new)) | Some w => ref j E None no_frame m_top w 0 sv_new end) = Some y /\ eqlen w y).
    { destruct (e_ws E) as [we|] eqn:Hwe; [|inv Hw; exists 0; eexists; split; reflexivity].
      apply (Hsim None no_frame m_top we 0 sv_new sv_new w I Hf); [|exact Hw]. apply chk_chk'. destruct (ok_ws _ _ HE we Hwe) as [_ Hck]. now apply Hck. }
    destruct Hw' as (j1 & y1 & A & B). cbn [obind] in H. destruct w as [[i vs]|], y1 as [[i' vs1]|]; try discriminate B.
    - inv B. oinv H. destruct (Hsim None no_frame m_top (Hld (p_start P)) i' vs vs1 a I Hf Hal Hm) as (j2 & y2 & C & D).
      exists (j1 + j2).
      assert (A' : match e_ws E with None => Some (Some (0, sv_new)) | Some w => ref (j1 + j2) E None no_frame m_top w 0 sv_new end = Some (Some (i', vs1))).
      { destruct (e_ws E); [|exact A]. eapply ref_mono; [|exact A]. lia. }
      rewrite A'. cbn [obind]. rewrite (ref_mono _ (j1 + j2) _ _ _ _ _ _ _ _ (Nat.le_add_l _ _) C). cbn [obind]. eexists. split; [reflexivity|]. inv H.
      destruct a as [[? ?]|], y2 as [[? ?]|]; try discriminate D; [|reflexivity]. inv D. reflexivity.
    - inv H. exists j1, None. rewrite A. split; reflexivity.
  Qed.
  Lemma peg_ref_top P isw input r md mm : core_parser md mm P -> anns_parser P input -> (forall q, p_pred P q = None) ->
    literal_words P isw -> peg (word_grammar P isw) (word_start P) input r ->
    exists k y, ref_top k (mk_env P input) (p_start P) = Some y /\ agree (mk_env P input) 0 r y.
  Proof.
    intros Hc Ha Hpr Hwd H. destruct (peg_ref_top_plain (iterated P) isw input r Hwd Hpr H) as (k & y & A & B).
    destruct (ref_top_iterated P input md mm k y Hc Ha Hpr A) as (j & z & C & D). exists j, z. split; [exact C|].
    destruct r, y as [[? ?]|], z as [[? ?]|]; try discriminate D; try contradiction; [|exact I]. inv D. exact B.
  Qed.
  (** Without %word the boundaries can be left out. *)
  Lemma no_word_peg P isw input r : p_word P = None ->
    peg (peg_grammar P) (start_of P) input r <-> peg (word_grammar P isw) (word_start P) input r.
  Proof.
    intros Hw. unfold peg_grammar, word_grammar. rewrite Hw. split; [apply (bounded_none _ _ isw (start_of P))|apply (unbounded_none _ _ isw (start_of P))].
  Qed.
  Lemma no_word_table P isw : p_word P = None -> literal_words P isw.
  Proof. intros Hw w s. rewrite Hw. discriminate. Qed.

  Lemma peg_ref_top_none P input r md mm : p_word P = None -> core_parser md mm P -> anns_parser P input -> (forall q, p_pred P q = None) ->
    peg (peg_grammar P) (start_of P) input r ->
    exists k y, ref_top k (mk_env P input) (p_start P) = Some y /\ agree (mk_env P input) 0 r y.
  Proof.
    intros Hw Hc Ha Hpr H. apply (no_word_peg P (fun _ => None) input r Hw) in H. eapply peg_ref_top; eauto. now apply no_word_table.
  Qed.

  (** Success with [t] left over, or failure. *)
  Definition accepts P (r : option bytes) : bool :=
    match r with
    | Some t => negb (p_eoi P) || match t with [] => true | _ => false end
    | None => false
    end.

  Theorem engine_follows_word P isw input dt md mm r :
    core_parser md mm P -> anns_parser P input -> (forall q, p_pred P q = None) -> literal_words P isw ->
    peg (word_grammar P isw) (word_start P) input r ->
    exists reps res F, (forall fuel, F <= fuel -> parser_parse fuel P input dt = Ok (accepts P r, reps, res))
      /\ match r with Some t => rs_len res + List.length t = List.length input | None => rs_ret res = false end.
  Proof.
    intros Hc Ha Hpr Hwt Hp.
    destruct (peg_ref_top P isw input r md mm Hc Ha Hpr Hwt Hp) as (k & y & A & B).
    pose proof (core_okA (kp := false) md mm P input Hc Ha (or_introl (conj eq_refl Hpr)) (fun _ => Hpr)) as HA.
    assert (Hal : core_modes (p_g P) md mm (p_start P) m_top).
    { destruct (cp_start _ _ _ Hc) as [H1 (d & Hd & Hm)]. cbn. rewrite Hd, Hm. exact H1. }
    destruct (parser_parse_ref k P input dt _ _ y HA Hal A) as (reps & res & C & D).
    assert (Hacc : match y with Some (n, _) => negb (p_eoi P) || (n =? List.length input) | None => false end = accepts P r).
    { destruct y as [[n v]|], r as [t|]; cbn in B; try contradiction; [|reflexivity]. destruct B as [B1 ->]. cbn [accepts]. f_equal.
      change (skipn n input) with (from input n). pose proof (from_length input n) as Hl. destruct (from input n) as [|b t]; cbn [List.length] in Hl.
      - apply Nat.eqb_eq. lia.
      - apply Nat.eqb_neq. lia. }
    rewrite Hacc in C. pose proof (ev_pick _ C) as [f0 Hf0]. destruct C as [F C]. exists reps, res, F. split; [exact C|].
    destruct y as [[n v]|], r as [t|]; cbn in B; try contradiction.
    - destruct B as [B1 ->]. destruct D as [-> _]. change (skipn n input) with (from input n). rewrite from_length. lia.
    - cbn [accepts] in Hf0. unfold parser_parse in Hf0. binv Hf0. binv Hf0. inv Hf0. apply andb_false_iff in H0 as [H1|H1]; [rewrite H1; reflexivity|].
      apply negb_false_iff in H1. exfalso.
      destruct (def_parse_ref k P input dt _ _ None HA Hal A) as (res' & E1 & _ & E2 & _). apply ev_pick in E1 as [f1 E1].
      assert (X : def_parse (f0 + f1) P input dt = Ok res).
      { destruct (def_parse_below f0 (f0 + f1) P input dt ltac:(lia)) as [Hb|Hb]; congruence. }
      assert (Y : def_parse (f0 + f1) P input dt = Ok res').
      { destruct (def_parse_below f1 (f0 + f1) P input dt ltac:(lia)) as [Hb|Hb]; congruence. }
      congruence.
  Qed.
  (** Hence, where the textbook semantics has a result, the engine has no other. *)
  Theorem engine_word_iff P isw input dt md mm fuel b reps res :
    core_parser md mm P -> anns_parser P input -> (forall q, p_pred P q = None) -> literal_words P isw ->
    (exists r, peg (word_grammar P isw) (word_start P) input r) ->
    parser_parse fuel P input dt = Ok (b, reps, res) ->
    exists r, peg (word_grammar P isw) (word_start P) input r /\ b = accepts P r
      /\ match r with Some t => rs_len res + List.length t = List.length input | None => rs_ret res = false end.
  Proof.
    intros Hc Ha Hpr Hwt (r & Hp) Hrun.
    destruct (engine_follows_word P isw input dt md mm r Hc Ha Hpr Hwt Hp) as (reps' & res' & F & A & B).
    specialize (A (F + fuel) ltac:(lia)).
    destruct (parser_parse_below fuel (F + fuel) P input dt ltac:(lia)) as [Hb|Hb]; [congruence|].
    rewrite Hrun, A in Hb. inv Hb. eauto.
  Qed.
  Theorem engine_terminates_word P isw input dt md mm R :
    core_parser md mm P -> anns_parser P input -> (forall q, p_pred P q = None) -> literal_words P isw ->
    well_formed (word_grammar P isw) R -> R (WMain (NSkip m_top)) -> R (WMain (NRule (p_start P) m_top)) -> valid_utf8 input ->
    exists b reps res F, forall fuel, F <= fuel -> parser_parse fuel P input dt = Ok (b, reps, res).
  Proof.
    intros Hc Ha Hpr Hwt Hwf H1 H2 Hu.
    destruct (peg_total (word_grammar P isw) R Hwf (word_start P) input Hu) as [r Hr]; [split; assumption|].
    destruct (engine_follows_word P isw input dt md mm r Hc Ha Hpr Hwt Hr) as (reps & res & F & A & _). eauto.
  Qed.
  (** The same for parsers without %word. *)
  Theorem engine_follows_peg P input dt md mm r : p_word P = None ->
    core_parser md mm P -> anns_parser P input -> (forall q, p_pred P q = None) ->
    peg (peg_grammar P) (start_of P) input r ->
    exists reps res F, (forall fuel, F <= fuel -> parser_parse fuel P input dt = Ok (accepts P r, reps, res))
      /\ match r with Some t => rs_len res + List.length t = List.length input | None => rs_ret res = false end.
  Proof.
    intros Hw Hc Ha Hpr H. apply (no_word_peg P (fun _ => None) input r Hw) in H.
    eapply engine_follows_word; eauto. now apply no_word_table.
  Qed.
  Theorem engine_peg_iff P input dt md mm fuel b reps res : p_word P = None ->
    core_parser md mm P -> anns_parser P input -> (forall q, p_pred P q = None) ->
    (exists r, peg (peg_grammar P) (start_of P) input r) ->
    parser_parse fuel P input dt = Ok (b, reps, res) ->
    exists r, peg (peg_grammar P) (start_of P) input r /\ b = accepts P r
      /\ match r with Some t => rs_len res + List.length t = List.length input | None => rs_ret res = false end.
  Proof.
    intros Hw Hc Ha Hpr (r & H) Hrun. apply (no_word_peg P (fun _ => None) input r Hw) in H.
    destruct (engine_word_iff P (fun _ => None) input dt md mm fuel b reps res Hc Ha Hpr (no_word_table P _ Hw) (ex_intro _ r H) Hrun) as (r' & A & B).
    exists r'. split; [|exact B]. now apply (no_word_peg P (fun _ => None) input r' Hw).
  Qed.
  Theorem engine_terminates P input dt md mm R : p_word P = None ->
    core_parser md mm P -> anns_parser P input -> (forall q, p_pred P q = None) ->
    well_formed (peg_grammar P) R -> R (NSkip m_top) -> R (NRule (p_start P) m_top) -> valid_utf8 input ->
    exists b reps res F, forall fuel, F <= fuel -> parser_parse fuel P input dt = Ok (b, reps, res).
  Proof.
    intros Hw Hc Ha Hpr Hwf H1 H2 Hu.
    destruct (peg_total (peg_grammar P) R Hwf (start_of P) input Hu) as [r Hr]; [split; assumption|].
    destruct (engine_follows_peg P input dt md mm r Hw Hc Ha Hpr Hr) as (reps & res & F & A & _). eauto.
  Qed.
End PegEngine.
