(** * A parser with the annotations of SetupFirstSets computes what the parser
    without them computes. *)
From Verif Require Import Base BaseLemmas Utf8 Utf8Spec Utf8Proofs Escape TrieM LineInfo Ope Ctx ErrLog Engine EngineLemmas Top Frame Scope Bounds Mono TopFacts
  RefSem RefMono Refine RefineOps RefineMain TopRef RefExt GrammarCond FirstSetM FirstSpec FirstSem FirstProofs FirstSetup FirstAnn RefStrip.

(** ** The static conditions do not look at annotations *)
Lemma forallb_map_ext {A B} (f : A -> B) (p : B -> bool) (q : A -> bool) l :
  Forall (fun x => p (f x) = q x) l -> forallb p (map f l) = forallb q l.
Proof. induction 1 as [|x l Hx _ IH]; [reflexivity|]. cbn. now rewrite Hx, IH. Qed.
Lemma existsb_map_ext {A B} (f : A -> B) (p : B -> bool) (q : A -> bool) l :
  Forall (fun x => p (f x) = q x) l -> existsb p (map f l) = existsb q l.
Proof. induction 1 as [|x l Hx _ IH]; [reflexivity|]. cbn. now rewrite Hx, IH. Qed.
Lemma strip_nth g r : nth_error (strip_grammar g) r = option_map strip_rule (nth_error g r).
Proof. unfold strip_grammar. apply nth_error_map. Qed.
Lemma strip_nopre o : nopre (strip o) = nopre o.
Proof.
  induction o using ope_ind'; cbn [strip nopre]; auto; now apply forallb_map_ext.
Qed.
Lemma strip_mref g o : mref (strip_grammar g) (strip o) = mref g o.
Proof.
  induction o using ope_ind'; cbn [strip mref]; auto; try (now apply existsb_map_ext).
  destruct rl as [r|]; [|reflexivity]. rewrite strip_nth. destruct (nth_error g r); reflexivity.
Qed.
Lemma strip_hygienic g n : hygienic (strip_grammar g) n = hygienic g n.
Proof.
  unfold hygienic, strip_grammar. apply forallb_map_ext. apply Forall_forall. intros d _. reflexivity.
Qed.
Lemma strip_core_in g ws md mm o : forall m, core_in (strip_grammar g) ws md mm m (strip o) = core_in g ws md mm m o.
Proof.
  induction o using ope_ind'; intros m'; cbn [strip core_in]; auto.
  - apply forallb_map_ext. rewrite Forall_forall in *. auto.
  - apply forallb_map_ext. rewrite Forall_forall in *. auto.
  - rewrite strip_nth. destruct (nth_error g r); reflexivity.
  - destruct rl as [r|]; [|reflexivity]. rewrite strip_nth, strip_hygienic. f_equal.
    + destruct (nth_error g r); reflexivity.
    + apply forallb_map_ext. rewrite Forall_forall in *. intros a Ha.
      assert (X : forall l, forallb (fun m0 => core_in (strip_grammar g) ws md mm m0 (strip a)) l = forallb (fun m0 => core_in g ws md mm m0 a) l).
      { induction l as [|x l IH]; [reflexivity|]. cbn. now rewrite IH, (H a Ha). }
      apply X.
  - now rewrite IHo.
Qed.
Lemma strip_core_grammar g ws md mm : core_grammar (strip_grammar g) ws md mm = core_grammar g ws md mm.
Proof.
  unfold core_grammar, strip_grammar. rewrite map_length.
  assert (X : forall l k, forallb (fun p => core_rule (strip_grammar g) ws md mm (fst p) (snd p)) (combine (seq k (List.length l)) (map strip_rule l))
             = forallb (fun p => core_rule g ws md mm (fst p) (snd p)) (combine (seq k (List.length l)) l)).
  { induction l as [|d l IH]; intros k; [reflexivity|]. cbn [List.length seq map combine forallb fst snd]. rewrite IH. f_equal.
    unfold core_rule. destruct d as [nm b ig mc ps da lr ce mr em no nw an]; cbn [strip_rule with_body r_body r_is_macro r_no_whitespace r_macro_ref option_map].
    destruct b as [b|]; [|reflexivity]. cbn [option_map]. rewrite strip_nopre, strip_mref, strip_core_in.
    assert (Y : forall ms, forallb (fun m => core_in (strip_grammar g) ws md mm m (strip b)) ms = forallb (fun m => core_in g ws md mm m b) ms).
    { induction ms as [|x ms IHm]; [reflexivity|]. cbn. now rewrite IHm, strip_core_in. }
    now rewrite Y. }
  apply X.
Qed.
Lemma strip_core_ws g ws md mm w : core_ws (strip_grammar g) ws md mm (strip w) = core_ws g ws md mm w.
Proof. destruct w; try reflexivity. cbn [strip core_ws]. now rewrite strip_core_in, strip_mref, strip_nopre. Qed.

Lemma strip_ids_ope en1 en2 o : (forall r st, en1 r st = en2 r st) -> forall st, ids_ope en1 (strip o) st = ids_ope en2 o st.
Proof.
  intros He.
  assert (Hl : forall l, Forall (fun o => forall st, ids_ope en1 (strip o) st = ids_ope en2 o st) l -> forall st,
    (fix all l st := match l with [] => st | x :: l' => all l' (ids_ope en1 x st) end) (map strip l) st
    = (fix all l st := match l with [] => st | x :: l' => all l' (ids_ope en2 x st) end) l st).
  { induction 1 as [|x l Hx _ IH]; intros st; [reflexivity|]. cbn [map]. rewrite Hx. apply IH. }
  induction o using ope_ind'; intros st; cbn [strip ids_ope]; auto.
  - destruct rl; [rewrite (Hl _ H); apply He|reflexivity].
  - now rewrite IHo1, IHo2.
Qed.
Lemma strip_ids_enter g fuel : forall r st, ids_enter fuel (strip_grammar g) r st = ids_enter fuel g r st.
Proof.
  induction fuel as [|fuel IH]; intros r st; [reflexivity|]. cbn [ids_enter]. destruct (mem_rid _ _); [reflexivity|].
  rewrite strip_nth. destruct (nth_error g r) as [d|]; [|reflexivity]. cbn. destruct (r_body d); [|reflexivity]. cbn. now apply strip_ids_ope.
Qed.
Lemma strip_ids g start ws word :
  definition_ids (strip_grammar g) start (option_map strip ws) (option_map strip word) = definition_ids g start ws word.
Proof.
  unfold definition_ids. cbv zeta. replace (List.length (strip_grammar g)) with (List.length g) by (unfold strip_grammar; now rewrite map_length).
  assert (Hopt : forall o st st', st = st' ->
    match option_map strip o with Some e => ids_ope (ids_enter (S (List.length g)) (strip_grammar g)) e st | None => st end
    = match o with Some e => ids_ope (ids_enter (S (List.length g)) g) e st' | None => st' end).
  { intros [o|] st st' ->; [|reflexivity]. cbn [option_map]. apply strip_ids_ope. intros. apply strip_ids_enter. }
  apply Hopt, Hopt, strip_ids_enter.
Qed.

(** ** The annotated parser *)
(** Another grammar and white space expression; everything else as in [P]. *)
Definition with_grammar {V U} (P : pobj V U) (g : grammar) (ws : option ope) : pobj V U :=
  {| p_g := g; p_start := p_start P; p_ws := ws; p_word := p_word P; p_packrat := p_packrat P; p_slot := p_slot P;
     p_cached := p_cached P; p_eoi := p_eoi P; p_tracer := p_tracer P; p_verbose := p_verbose P; p_log := p_log P;
     p_u0 := p_u0 P; p_action := p_action P; p_pred := p_pred P; p_enter := p_enter P; p_leave := p_leave P; p_user := p_user P |}.

(** The white space expression is [wsp] of the body of rule [wr] (the nodes are shared,
    so the annotations of the rule are those of the expression). *)
Definition ws_expr (g : grammar) (wr : option rid) : option ope :=
  match wr with
  | None => None
  | Some r => match nth_error g r with
              | Some d => match r_body d with Some b => Some (Wsp (Ign b)) | None => None end
              | None => None
              end
  end.

(** No sequence has the shape of a keyword-guarded identifier. *)
Definition no_keyword_guard (g : grammar) : Prop :=
  forall r d b kg l, rule_body g r d b -> sub_ope (Seq kg l) b -> kw_guard_of g l = None.

Section Top.
  Context {V U : Type} {kp : keepvals}.
  Implicit Types (P : pobj V U).

  (** Keyword guards of the annotated grammar decide as the sequence does. *)
  Definition guards_sound (E : env V U) (g : grammar) : Prop :=
    forall r d b kg l l' kw, rule_body g r d b -> sub_ope (Seq kg l) b -> map strip l' = l ->
      kw_guard_of g l = Some kw -> ann_seq E (Some kw) l'.
  Lemma no_guards_sound E g : no_keyword_guard g -> guards_sound E g.
  Proof. intros H r d b kg l l' kw Hb Hs _ Hk. rewrite (H _ _ _ _ _ Hb Hs) in Hk. discriminate. Qed.

  Section Annotated.
    Variables (P : pobj V U) (wr : option rid) (k n : nat) (order : list rid) (g' : grammar) (input : bytes) (odd : bool).
    Let P' := with_grammar P g' (ws_expr g' wr).
    Hypothesis Hbare : bare_grammar (p_g P) = true.
    Hypothesis Hws : p_ws P = ws_expr (p_g P) wr.
    Hypothesis Hsetup : setup_first_sets k n order (p_g P) = Ok g'.
    Hypothesis Hne : no_empty_recursion (p_g P).

    Lemma annotated_g : strip_grammar g' = p_g P.
    Proof. now destruct (setup_good (p_g P) Hne Hbare k n order g' Hsetup). Qed.
    Lemma annotated_ws : option_map strip (p_ws P') = p_ws P.
    Proof.
      rewrite Hws. cbn. rewrite <- annotated_g. unfold ws_expr. destruct wr as [r|]; [|reflexivity]. rewrite strip_nth.
      destruct (nth_error g' r) as [d|]; [|reflexivity]. cbn. destruct (r_body d); reflexivity.
    Qed.
    Lemma annotated_is_ws : is_some (p_ws P') = is_some (p_ws P).
    Proof. rewrite <- annotated_ws. destruct (p_ws P'); reflexivity. Qed.
    Lemma annotated_stripped : p_word P = None -> stripped (mk_env P' input) (mk_env P input).
    Proof.
      intros Hw. constructor; cbn; auto.
      - symmetry. apply annotated_g.
      - symmetry. apply annotated_ws.
      - now rewrite Hw.
    Qed.
    Lemma annotated_recog : p_word P = None -> recognize_only P' = recognize_only P.
    Proof.
      intros Hw. unfold recognize_only. cbv zeta.
      assert (Hids : definition_ids (p_g P') (p_start P') (p_ws P') (p_word P') = definition_ids (p_g P) (p_start P) (p_ws P) (p_word P)).
      { rewrite <- annotated_ws, <- annotated_g. change (p_word P') with (p_word P). rewrite Hw. symmetry.
        exact (strip_ids g' (p_start P) (p_ws P') None). }
      rewrite Hids. reflexivity.
    Qed.
    Lemma annotated_core md mm : p_word P = None -> core_parser md mm P -> core_parser md mm P'.
    Proof.
      intros Hwn [Hr Hw Hs Hwd Hu Hsl]. constructor; auto.
      - rewrite annotated_is_ws. rewrite <- annotated_g, strip_core_grammar in Hr. exact Hr.
      - rewrite annotated_is_ws. rewrite <- annotated_g, <- annotated_ws in Hw. destruct (p_ws P') as [w|] eqn:Hpw; [|exact I].
        cbn [option_map] in Hw. rewrite strip_core_ws in Hw. rewrite <- annotated_ws, Hpw. exact Hw.
      - destruct Hs as [H1 (d & Hd & Hm)]. split; [exact H1|]. rewrite <- annotated_g, strip_nth in Hd. cbn.
        destruct (nth_error g' (p_start P)) as [d'|]; [|discriminate]. inv Hd. exists d'. auto.
      - change (p_word P') with (p_word P). now rewrite Hwn.
    Qed.
    Hypothesis Hplain : plain_text input.
    Hypothesis Hodd : odd = false -> ascii_text input.
    Hypothesis Hreg : regular_alternatives (p_g P) (is_some (p_ws P)) odd.
    Hypothesis Hspan : regular_spans (p_g P) odd.
    Hypothesis Hkw : guards_sound (mk_env P' input) (p_g P).
    Lemma annotated_anns : p_word P = None -> anns_parser P' input.
    Proof.
      intros Hwn.
      destruct (setup_good (p_g P) Hne Hbare k n order g' Hsetup) as [Hg Hgood].
      assert (Hrule : forall r d b, rule_body g' r d b -> anns (mk_env P' input) b).
      { intros r d b Hb. eapply (good_anns (p_g P) (mk_env P' input) odd); eauto.
        - intros o Ho. apply strip_empty in Ho. change (e_g (mk_env P' input)) with g' in Ho. now rewrite Hg in Ho.
        - intros o c Ho. apply strip_starts in Ho. change (e_g (mk_env P' input)) with g' in Ho. now rewrite Hg in Ho.
        - change (e_ws (mk_env P' input)) with (p_ws P'). now rewrite annotated_is_ws.
        - rewrite <- Hg. apply strip_body. exact Hb. }
      split; [|split].
      - intros r d body Hd Hb. eapply Hrule. split; eauto.
      - intros w Hw. cbn in Hw. unfold ws_expr in Hw. destruct wr as [r|]; [|discriminate].
        destruct (nth_error g' r) as [d|] eqn:Hd; [|discriminate]. destruct (r_body d) as [b|] eqn:Hb; [|discriminate].
        inv Hw. cbn [anns]. eapply Hrule. split; eauto.
      - change (p_word P') with (p_word P). rewrite Hwn. discriminate.
    Qed.
  End Annotated.
End Top.

(** Well-formed UTF-8 has no overlong forms. *)
Lemma utf8_plain t : valid_utf8 t -> plain_text t.
Proof.
  intros [cps H]. apply utf8_of_encoded in H as Ht. destruct H as [Hs _]. subst t.
  induction cps as [|cp cps IH]; intros pos n c Hp Hd Hn Hc; [cbn in Hp; lia|].
  inversion Hs as [|? ? Hcp Hs']; subst. specialize (IH Hs'). cbn [map List.concat] in *. set (rest := List.concat (map encode_codepoint cps)) in *.
  rewrite app_length in Hp, Hd.
  destruct (Nat.lt_ge_cases pos (List.length (encode_codepoint cp))) as [Hlt|Hge].
  - destruct (encode_shape cp Hcp) as (b0 & tl & He & _ & Htl). destruct pos as [|pos].
    + cbn [skipn] in Hd. unfold decode_codepoint_len in Hd. destruct (encode_decode cp rest (List.length (encode_codepoint cp) + List.length rest - 0) Hcp) as [X _]; [lia|].
      rewrite X in Hd. cbn in Hd. inv Hd. rewrite encode_length, (encode_rfc c Hcp). unfold rfc3629.
      replace (c <=? 0x7F)%N with true by (symmetry; now apply N.leb_le). reflexivity.
    + exfalso. apply Hn. rewrite He in *. cbn [app skipn List.length] in Hd, Hlt.
      assert (Hx : exists x y, skipn pos (tl ++ rest) = x :: y /\ (128 <= bN x < 192)%N).
      { clear -Hlt Htl. revert pos Hlt. induction tl as [|a tl IH]; intros pos Hlt; [cbn in Hlt; lia|].
        destruct pos as [|pos]; [exists a; eexists; split; [reflexivity|]; apply Htl; now left|].
        cbn. apply IH; [intros x Hx; apply Htl; now right|cbn in Hlt; lia]. }
      destruct Hx as (x & y & Hx & Hr). rewrite Hx in Hd. unfold decode_codepoint_len, decode_codepoint in Hd.
      assert (Hpos : (0 <? S (List.length tl) + List.length rest - S pos) = true) by (apply Nat.ltb_lt; lia).
      rewrite Hpos in Hd. cbn [rd nth_error bind] in Hd. rewrite lead1, lead2, lead3, lead4 in Hd.
      replace (bN x <? 128)%N with false in Hd by (symmetry; apply N.ltb_ge; lia).
      replace (192 <=? bN x)%N with false in Hd by (symmetry; apply N.leb_gt; lia).
      replace (224 <=? bN x)%N with false in Hd by (symmetry; apply N.leb_gt; lia).
      replace (240 <=? bN x)%N with false in Hd by (symmetry; apply N.leb_gt; lia).
      cbn in Hd. now inv Hd.
  - rewrite skipn_app, (skipn_all2 (encode_codepoint cp)) in Hd by lia. cbn [app] in Hd.
    eapply (IH (pos - List.length (encode_codepoint cp))); [lia| |exact Hn|exact Hc]. rewrite <- Hd. f_equal. lia.
Qed.

(** ** Comparing two parsers *)
Section Compare.
  Context {V U : Type}.
  Implicit Types (P Q : pobj V U).
  (** Both parsers terminate with the same verdict and, on success, the same length and
      values. *)
  Definition same_outcome P Q (input : bytes) (dt : U) : Prop :=
    exists b reps1 res1 reps2 res2 F, forall fuel, F <= fuel ->
      parser_parse fuel P input dt = Ok (b, reps1, res1)
      /\ parser_parse fuel Q input dt = Ok (b, reps2, res2)
      /\ rs_ret res1 = rs_ret res2
      /\ (rs_ret res1 = true -> rs_len res1 = rs_len res2 /\ (recognize_only P = false -> rs_vs res1 = rs_vs res2)).
  Lemma compare_parsers P Q input dt al1 wal1 al2 wal2 k x :
    okA (kp := true) (mk_env P input) al1 wal1 -> okA (kp := true) (mk_env Q input) al2 wal2 ->
    al1 (p_start P) m_top -> al2 (p_start Q) m_top -> p_eoi P = p_eoi Q -> recognize_only P = recognize_only Q ->
    ref_top k (mk_env P input) (p_start P) = Some x -> ref_top k (mk_env Q input) (p_start Q) = Some x ->
    same_outcome P Q input dt.
  Proof.
    intros HA HA' Hal Hal' He Hro Hx Hx'.
    destruct (def_parse_ref (kp := true) k P input dt _ _ x HA Hal Hx) as (r1 & A1 & B1 & C1 & D1).
    destruct (def_parse_ref (kp := true) k Q input dt _ _ x HA' Hal' Hx') as (r2 & A2 & B2 & C2 & D2).
    assert (Hpp : forall (R : pobj V U) y al wal r, okA (kp := true) (mk_env R input) al wal -> ev (fun f => def_parse f R input dt = Ok r) ->
      rs_ret r = y -> rs_recovered r = false -> exists reps, ev (fun f => parser_parse f R input dt = Ok (y, reps, r))).
    { intros R y al wal r HQ Hev Hy Hrc. pose proof (ok_wf _ _ (oa_main _ _ _ HQ)) as HE.
      assert (Hin : in_input input r).
      { apply ev_pick in Hev as [f Hf]. pose proof (def_parse_safe f R input dt HE) as Hs. rewrite Hf in Hs. exact Hs. }
      destruct Hin as (_ & H1 & H2). destruct (output_log_ok (p_g R) input (rs_err r) H1 H2) as [[e rp] Hlog].
      exists (if p_log R && negb (rs_ret r) then rs_out r ++ match rp with Some x => [x] | None => [] end else rs_out r).
      unfold parser_parse. eapply ev_bind; [exact Hev|]. apply ev_all. intros f. rewrite Hlog, Hrc. subst y.
      rewrite andb_true_r. destruct (p_log R && negb (rs_ret r)); reflexivity. }
    destruct (Hpp P _ _ _ r1 HA A1 B1 C1) as [reps1 E1]. destruct (Hpp Q _ _ _ r2 HA' A2 B2 C2) as [reps2 E2]. rewrite <- He in E2.
    destruct (ev_and _ _ E1 E2) as [F HF]. eexists _, reps1, r1, reps2, r2, F. intros fuel Hf. destruct (HF fuel Hf) as [H1 H2].
    split; [exact H1|]. split; [exact H2|]. split; [rewrite B1, B2, He; reflexivity|].
    intros Ht. rewrite B1 in Ht. destruct x as [[n vs]|]; [|discriminate]. destruct D1 as [-> D1], D2 as [-> D2]. split; [reflexivity|].
    intros Hrec. destruct D1 as [[D1|[D1 _]]|D1]; [cbn in D1; congruence|discriminate|].
    destruct D2 as [[D2|[D2 _]]|D2]; [cbn in D2; congruence|discriminate|congruence].
  Qed.

  Theorem annotated_same P wr k n order g' input dt md mm odd :
    let P' := with_grammar P g' (ws_expr g' wr) in
    core_parser md mm P -> p_word P = None -> bare_grammar (p_g P) = true -> p_ws P = ws_expr (p_g P) wr ->
    setup_first_sets k n order (p_g P) = Ok g' ->
    no_empty_recursion (p_g P) -> regular_alternatives (p_g P) (is_some (p_ws P)) odd -> regular_spans (p_g P) odd ->
    guards_sound (mk_env P' input) (p_g P) ->
    plain_text input -> (odd = false -> ascii_text input) ->
    pure (mk_env P input) -> (recognize_only P = true -> forall r, p_pred P r = None) ->
    (exists j x, ref_top j (mk_env P input) (p_start P) = Some x) ->
    same_outcome P' P input dt.
  Proof.
    intros P' Hc Hwd Hb Hws Hsetup Hne Hreg Hspan Hkw Hpl Hodd Hp Hr (j & x & Hx).
    pose proof (annotated_core P wr k n order g' Hb Hws Hsetup Hne md mm Hwd Hc) as Hc'.
    assert (Hbp : bare_parser P).
    { split; [exact Hb|]. rewrite Hwd. split; [|exact I]. rewrite Hws. unfold ws_expr. destruct wr as [w|]; [|exact I]. destruct (nth_error (p_g P) w) as [d|] eqn:Hd; [|exact I].
      destruct (r_body d) as [b|] eqn:Hbo; [|exact I]. cbn. eapply bare_rule; [exact Hb|split; eassumption]. }
    assert (Hal : core_modes (p_g P) md mm (p_start P) m_top).
    { destruct (cp_start _ _ _ Hc) as [H1 (d & Hd & Hm)]. cbn. rewrite Hd, Hm. exact H1. }
    assert (Hal' : core_modes g' md mm (p_start P) m_top).
    { destruct (cp_start _ _ _ Hc') as [H1 (d & Hd & Hm)]. cbn in *. rewrite Hd, Hm. exact H1. }
    pose proof (core_okA (kp := true) md mm P input Hc (bare_parser_anns P input Hbp) (or_intror Hp) Hr) as HA.
    pose proof (annotated_recog P wr k n order g' Hb Hws Hsetup Hne Hwd) as Hro. fold P' in Hro.
    assert (HA' : okA (kp := true) (mk_env P' input) (core_modes g' md mm) (word_modes P')).
    { apply (core_okA (kp := true) md mm P' input Hc').
      - eapply annotated_anns; eauto.
      - right. destruct Hp. constructor; assumption.
      - rewrite Hro. exact Hr. }
    eapply (compare_parsers P' P input dt _ _ _ _ j x HA' HA Hal' Hal); [reflexivity|exact Hro| |exact Hx].
    rewrite <- Hx. symmetry. apply (ref_top_strip j (mk_env P' input) (mk_env P input) (p_start P)).
    eapply annotated_stripped; eauto.
  Qed.
End Compare.
