(** * The parser's values are those of the parse tree. *)
From Verif Require Import Base BaseLemmas Utf8 Escape TrieM TrieSpec LineInfo Ope Ctx ErrLog Engine EngineLemmas Top Frame Scope Bounds Mono TopFacts RefSem RefMono RefWord
  Refine RefineOps RefineMain TopRef RefExt PegSpec PegFacts PegDen PegWord PegRef GrammarCond PegEngine LrSpec TreeSpec FirstTop PropMemo.
From Verif Require LrRef TreeRef.

(** The %word checks of the iterated grammar are those of the trees. *)
Lemma tree_words {V U} (E : env V U) al wal : okA (kp := false) E al wal -> (forall r, e_pred E r = None) ->
  (forall k s pos b, word_lit (ref k) (LrRef.with_g E (iterate (e_g E))) s pos = Some b -> lit_ends (e_g E) (e_word E) (e_input E) s pos b)
  /\ (forall k pos b, word_dic (ref k) (LrRef.with_g E (iterate (e_g E))) pos = Some b -> dic_ends (e_g E) (e_word E) (e_input E) pos b).
Proof.
  intros HA Hp.
  assert (Hone : forall w inp k o pos x, e_word E = Some w -> o = w \/ o = Not w ->
    ref k (word_env (LrRef.with_g E (iterate (e_g E))) inp) None no_frame m_top o pos sv_new = Some x ->
    exists y, der (e_g E) None inp (fun _ _ b => b = true) (fun _ b => b = true) no_frame m_top o pos y
      /\ match x with Some _ => true | None => false end = match y with Some _ => true | None => false end).
  { intros w inp k o pos x Hw Ho H.
    change (word_env (LrRef.with_g E (iterate (e_g E))) inp) with (LrRef.with_g (word_env E inp) (iterate (e_g (word_env E inp)))) in H.
    pose proof (oa_word _ _ _ HA inp) as HE. destruct (oa_chk _ _ _ HA w Hw) as (_ & _ & Hc). specialize (Hc inp).
    assert (Hn : words_le (LrRef.with_g (word_env E inp) (iterate (e_g (word_env E inp)))) (word_env E inp)) by (apply words_none; reflexivity).
    destruct (TreeRef.sims_all (kp := false) (word_env E inp) wal eq_refl Hp HE Hn (fun _ _ b => b = true) (fun _ b => b = true)) with (k := k) (fr := no_frame) (m := m_top) (o := o) (pos := pos) (vs := @sv_new V) (x := x)
      as (j & y & D & A & _); auto.
    - intros k0 s p b X. unfold word_lit in X. cbn in X. congruence.
    - intros k0 p b X. unfold word_dic in X. cbn in X. congruence.
    - split; [now left|constructor].
    - destruct Ho as [-> | ->]; [now apply LrRef.chk_chk'|exact Hc].
    - exists y. split; [exact D|]. destruct x as [[? ?]|], y; try discriminate A; reflexivity. }
  assert (Hd : forall w k pos b, e_word E = Some w -> ref_not_word (ref k) (LrRef.with_g E (iterate (e_g E))) w pos = Some b ->
    dic_ends (e_g E) (e_word E) (e_input E) pos b).
  { intros w k pos b Hw X. unfold dic_ends. rewrite Hw. unfold ref_not_word in X. oinv X. injection X as <-.
    destruct (Hone w (e_input E) k (Not w) pos a Hw (or_intror eq_refl) Hm) as (y & D & A). rewrite A.
    inversion D; subst; [| |exfalso; cbn in *; discriminate ..].
    - exists None. split; [assumption|reflexivity].
    - eexists (Some _). split; [eassumption|reflexivity]. }
  split.
  - intros k s pos b X. unfold word_lit in X. cbn [LrRef.with_g e_word] in X. unfold lit_ends. destruct (e_word E) as [w|] eqn:Hw; [|congruence].
    oinv X. unfold ref_is_word in Hm. oinv Hm. injection Hm as <-.
    destruct (Hone w s k w 0 a0 eq_refl (or_introl eq_refl) Hm0) as (y & D & A). exists y. split; [exact D|].
    rewrite A in X. destruct y; [|congruence]. eapply Hd; [reflexivity|exact X].
  - intros k pos b X. unfold word_dic in X. cbn [LrRef.with_g e_word] in X. destruct (e_word E) as [w|] eqn:Hw.
    + eapply Hd; [reflexivity|exact X].
    + unfold dic_ends. congruence.
Qed.

Section TreeTop.
  Context {V U : Type}.
  Implicit Types (P : pobj V U).
  Definition value P (input : bytes) : ptree -> option V := eval (p_g P) input (p_action P) (p_leave P) (p_u0 P).

  Lemma ref_tree P input md mm k x : core_parser md mm P -> anns_parser P input -> (forall q, p_pred P q = None) ->
    ref_top k (mk_env (iterated P) input) (p_start P) = Some x ->
    exists j y, whole (p_g P) (p_ws P) (p_word P) (p_start P) input y
      /\ ref_top j (mk_env P input) (p_start P) = Some (TreeRef.out (mk_env P input) 0 y sv_new).
  Proof.
    intros Hc Ha Hpr H.
    pose proof (core_okA (kp := false) md mm P input Hc Ha (or_introl (conj eq_refl Hpr)) (fun _ => Hpr)) as HA.
    assert (Hal : core_modes (p_g P) md mm (p_start P) m_top).
    { destruct (cp_start _ _ _ Hc) as [H1 (d & Hd & Hm)]. cbn. rewrite Hd, Hm. exact H1. }
    pose proof (oa_main _ _ _ HA) as HE. set (E := mk_env P input) in *.
    rewrite (ref_top_same k _ (LrRef.with_g E (iterate (e_g E)))) in H by reflexivity.
    destruct (tree_words E _ _ HA Hpr) as [Hl Hd].
    assert (HW : words_le (LrRef.with_g E (iterate (e_g E))) E) by (eapply LrRef.iterate_words; eassumption).
    pose proof (TreeRef.sims_all (kp := false) E (core_modes (p_g P) md mm) eq_refl Hpr HE HW _ _ Hl Hd k) as Hsim.
    assert (Hf : LrRef.fr_ok (kp := false) E (core_modes (p_g P) md mm) no_frame) by (split; [now left|constructor]).
    assert (Hskip : forall z, (match e_ws E with None => Some (Some (0, sv_new)) | Some w => ref k (LrRef.with_g E (iterate (e_g E))) None no_frame m_top w 0 sv_new end) = Some z ->
      exists j y, skip (e_g E) (e_ws E) input (lit_ends (e_g E) (e_word E) input) (dic_ends (e_g E) (e_word E) input) m_top 0 y
        /\ option_map fst z = option_map f_len y
        /\ (match e_ws E with None => Some (Some (0, sv_new)) | Some w => ref j E None no_frame m_top w 0 sv_new end) = Some (TreeRef.out E 0 y sv_new)).
    { intros z Hz. destruct (e_ws E) as [w|] eqn:Hw.
      - destruct (Hsim no_frame m_top w 0 sv_new z Hf) as (j & y & D & A & B); [|exact Hz|].
        + apply LrRef.chk_chk'. destruct (ok_ws _ _ HE w Hw) as [_ Hck]. now apply Hck.
        + exists j, y. rewrite Hw in D. split; [eapply sk_ws; [reflexivity|reflexivity|exact D]|]. split; [exact A|]. apply B. exact I.
      - injection Hz as <-. exists 0, (Some (bytes_only 0)). split; [apply sk_none; now left|]. split; reflexivity. }
    unfold ref_top in H. change (e_ws (LrRef.with_g E (iterate (e_g E)))) with (e_ws E) in H.
    destruct (match e_ws E with None => _ | Some w => ref k (LrRef.with_g E (iterate (e_g E))) None no_frame m_top w 0 sv_new end) as [w|] eqn:Hw; [|discriminate].
    destruct (Hskip w eq_refl) as (j1 & y1 & D1 & A1 & B1). clear Hskip Hw. cbn [obind] in H.
    destruct w as [[i vs]|], y1 as [f|]; try discriminate A1.
    2:{ exists j1, None. split; [apply w_no_skip; exact D1|]. unfold ref_top. rewrite B1. reflexivity. }
    injection A1 as ->. oinv H.
    destruct (Hsim no_frame m_top (Hld (p_start P)) (f_len f) vs a Hf Hal Hm) as (j2 & y2 & D2 & A2 & B2).
    assert (Hup : (match e_ws E with None => Some (Some (0, sv_new)) | Some w => ref (j1 + j2) E None no_frame m_top w 0 sv_new end) = Some (TreeRef.out E 0 (Some f) sv_new)).
    { destruct (e_ws E); [|exact B1]. eapply ref_mono; [|exact B1]. lia. }
    specialize (B2 None (TreeRef.after E f sv_new) I).
    assert (Hres : ref_top (j1 + j2) E (p_start P) = Some (TreeRef.out E 0 (option_map (join f) y2) sv_new)).
    { unfold ref_top. rewrite Hup. cbn [obind TreeRef.out option_map Nat.add].
      rewrite (ref_mono _ (j1 + j2) _ _ _ _ _ _ _ _ (Nat.le_add_l _ _) B2). cbn [obind]. f_equal. destruct y2 as [f2|]; [|reflexivity].
      cbn [TreeRef.out option_map]. rewrite TreeRef.after_join. reflexivity. }
    exists (j1 + j2), (option_map (join f) y2). split; [|exact Hres].
    destruct (cp_start _ _ _ Hc) as [_ (d & Hds & Hmac)].
    inversion D2; subst; try (cbn in *; congruence).
    match goal with [ X : nth_error _ _ = Some ?d', Y : der_rule _ _ _ _ _ _ _ _ ?t |- _ ] => rename Y into Hr; assert (d' = d) as -> by (change (e_g E) with (p_g P) in X; congruence); destruct t as [t|] end.
    - eapply w_yes; [exact D1|exact Hds|exact Hr].
    - eapply w_no; [exact D1|exact Hr].
  Qed.

  Theorem tree_values P input dt md mm :
    core_parser md mm P -> anns_parser P input -> pure (mk_env P input) -> (forall q, p_pred P q = None) -> settled (iterated P) input ->
    exists y, whole (p_g P) (p_ws P) (p_word P) (p_start P) input y
      /\ exists b reps res F, (forall fuel, F <= fuel -> parser_parse fuel P input dt = Ok (b, reps, res))
        /\ b = rs_ret res
        /\ match y with
           | None => b = false
           | Some f => b = negb (p_eoi P) || (f_len f =? List.length input)
                       /\ rs_len res = f_len f
                       /\ (recognize_only P = false -> v_vals (rs_vs res) = map (value P input) (f_kids f)
                                                       /\ v_tags (rs_vs res) = map (fun t => tag_of (p_g P) (t_rule t)) (f_kids f))
           end.
  Proof.
    intros Hc Ha Hp Hpr (k & x & Hx).
    destruct (ref_tree P input md mm k x Hc Ha Hpr Hx) as (j & y & D & Hy). exists y. split; [exact D|].
    assert (Hal : core_modes (p_g P) md mm (p_start P) m_top).
    { destruct (cp_start _ _ _ Hc) as [H1 (d & Hd & Hm)]. cbn. rewrite Hd, Hm. exact H1. }
    pose proof (core_okA (kp := true) md mm P input Hc Ha (or_intror Hp) (fun _ => Hpr)) as HA.
    destruct (def_parse_ref (kp := true) j P input dt _ _ _ HA Hal Hy) as (r1 & A1 & B1 & C1 & D1).
    pose proof (ok_wf _ _ (oa_main _ _ _ HA)) as HE.
    assert (Hin : in_input input r1).
    { apply ev_pick in A1 as [f Hf]. pose proof (def_parse_safe f P input dt HE) as Hs. rewrite Hf in Hs. exact Hs. }
    destruct Hin as (_ & H1 & H2). destruct (output_log_ok (p_g P) input (rs_err r1) H1 H2) as [[e rp] Hlog].
    assert (Hev : ev (fun f => parser_parse f P input dt = Ok (rs_ret r1, (if p_log P && negb (rs_ret r1) then rs_out r1 ++ match rp with Some x => [x] | None => [] end else rs_out r1), r1))).
    { unfold parser_parse. eapply ev_bind; [exact A1|]. apply ev_all. intros f. rewrite Hlog, C1.
      rewrite andb_true_r. destruct (p_log P && negb (rs_ret r1)); reflexivity. }
    destruct Hev as [F HF]. eexists _, _, r1, F. split; [exact HF|]. split; [reflexivity|].
    destruct y as [f|]; [|exact B1]. cbn [TreeRef.out option_map Nat.add] in *. split; [exact B1|]. destruct D1 as [D1 D2]. split; [exact D1|].
    intros Hrec. destruct D2 as [[D2|[D2 _]]|D2]; [cbn in D2; congruence|discriminate|]. rewrite D2. split; reflexivity.
  Qed.
End TreeTop.
