(** * Parsers whose rules are core rules or precedence rules (conditions of C22). *)
From Verif Require Import Base BaseLemmas Utf8 Escape TrieM LineInfo Ope Ctx ErrLog Engine EngineLemmas Top Frame Scope Bounds Mono RefSem Refine GrammarCond.

Section Cond.
  Variable g : grammar.
  Variable ws : bool.
  Variable md : rid -> mode.
  Variable mm : list mode.
  (** The operator rule of a precedence rule. *)
  Definition is_op (r : rid) : bool :=
    existsb (fun d => match r_body d with Some (Pre _ (Ref _ (Some r') _ _ _) _ _) => r' =? r | _ => false end) g.
  (** A precedence rule's body is [atom (binop atom)*] rewritten by the precedence
      instruction: both are references, without arguments, to ordinary rules that
      leave a value; the operator is no left-recursive rule, its action is not
      disabled; the precedence rule is not itself an operator. *)
  Definition prec_rule (r : rid) (d : rule) : bool :=
    match r_body d with
    | Some (Pre (Ref na (Some ra) ia ma []) (Ref nb (Some rb) ib mb []) info q) =>
      let m := if r_no_whitespace d then token_mode ws (md r) else md r in
      core_in g ws md mm m (Ref na (Some ra) ia ma []) && core_in g ws md mm m (Ref nb (Some rb) ib mb [])
      && match nth_error g ra with Some da => negb (r_is_macro da) && negb (r_ignore da) | None => false end
      && match nth_error g rb with
         | Some db => negb (r_is_macro db) && negb (r_ignore db) && negb (r_lr db) && negb (r_disable_action db)
         | None => false
         end
      && (q =? r) && negb (r_is_macro d) && negb (is_op r)
    | _ => false
    end.
  Definition prec_grammar : bool :=
    forallb (fun p => core_rule g ws md mm (fst p) (snd p) || prec_rule (fst p) (snd p)) (combine (seq 0 (List.length g)) g).
End Cond.

Section Parser.
  Context {V U : Type}.
  Implicit Types (P : pobj V U).
  Record prec_parser (md : rid -> mode) (mm : list mode) P : Prop := {
    pp_rules : prec_grammar (p_g P) (is_some (p_ws P)) md mm = true;
    pp_bare : bare_parser P;
    pp_ws : match p_ws P with Some w => core_ws (p_g P) (is_some (p_ws P)) md mm w = true | None => True end;
    pp_start : md (p_start P) = m_top /\ exists d, nth_error (p_g P) (p_start P) = Some d /\ r_is_macro d = false;
    pp_word : p_word P = None;
    pp_user : forall id inp pos vs u, p_user P id inp pos vs u = (None, vs, u);
    pp_slot : p_packrat P = true -> forall r s, p_slot P r = Some s ->
      s < p_cached P /\ forall r', p_slot P r' = Some s -> r' = r;
    (* operators are not memoised *)
    pp_op_slot : p_packrat P = true -> forall r, is_op (p_g P) r = true -> p_slot P r = None;
    (* values are computed *)
    pp_values : recognize_only P = false
  }.
  Local Instance keep : keepvals := true.

  Lemma is_op_of (E : env V U) r : op_of E r -> is_op (e_g E) r = true.
  Proof.
    intros (r0 & d & a & nm & ia & mac & args & i & q & Hd & Hb). unfold is_op. apply existsb_exists. exists d.
    split; [eapply nth_error_In; eauto|]. rewrite Hb. apply Nat.eqb_refl.
  Qed.
  Lemma prec_okA md mm P input : prec_parser md mm P -> pure (mk_env P input) ->
    okA (mk_env P input) (core_modes (p_g P) md mm) no_modes.
  Proof.
    intros [Hr Hbare Hw Hs Hwd Hu Hsl Hops Hval] Hpure. pose proof (bare_parser_anns P input Hbare) as (Ha & Haw & _).
    assert (Hrule : forall r d, nth_error (p_g P) r = Some d ->
      core_rule (p_g P) (is_some (p_ws P)) md mm r d = true \/ prec_rule (p_g P) (is_some (p_ws P)) md mm r d = true).
    { intros r d Hd. unfold prec_grammar in Hr. rewrite forallb_forall in Hr. specialize (Hr _ (in_combine_seq _ _ _ Hd)). now apply orb_prop in Hr. }
    assert (Hnl : ~ loose (mk_env P input)).
    { intros [H|[H _]]; [change (recognize_only P = true) in H; congruence|discriminate]. }
    assert (Hext : forall id pos (vs : sv V) u r vs' u' inp, p_user P id inp pos vs u = (r, vs', u') -> ext vs vs').
    { intros id pos vs u r vs' u' inp H. rewrite Hu in H. inversion H; subst. constructor; apply EngineLemmas.prefix_refl || reflexivity. }
    assert (Hsc : forall r d body, nth_error (p_g P) r = Some d -> r_body d = Some body -> r_is_macro d = true -> nopre body = true).
    { intros r d body Hd Hb Hm. destruct (Hrule r d Hd) as [Hc|Hc].
      - unfold core_rule in Hc. rewrite Hb in Hc. now apply andb_prop in Hc as [_ Hc].
      - exfalso. unfold prec_rule in Hc. rewrite Hb, Hm in Hc.
        destruct body; try discriminate. destruct body1; try discriminate. destruct rule0; try discriminate. destruct args; try discriminate.
        destruct body2; try discriminate. destruct rule0; try discriminate. destruct args; try discriminate.
        cbn [negb] in Hc. rewrite andb_false_r in Hc. discriminate. }
    constructor.
    - constructor.
      + constructor; cbn.
        * intros. eauto.
        * intros r d body Hd Hb [Hm|Hm]; [eauto|]. change (recognize_only P = true) in Hm. congruence.
        * intros w Hws. rewrite Hws in Hw. unfold core_ws in Hw. destruct w; try discriminate.
          apply andb_prop in Hw as [_ Hw]. exact Hw.
      + constructor; cbn.
        * intros id inp pos vs u n vs' u' _ H. rewrite Hu in H. discriminate.
        * intros Hp r s H. now destruct (Hsl Hp r s H).
      + now right.
      + cbn. intros r m H _. change (recognize_only P = true) in H. congruence.
      + cbn. intros r m d body Hal Hd Hb. rewrite Hd in Hal. destruct (Hrule r d Hd) as [Hc|Hc].
        * unfold core_rule in Hc. rewrite Hb in Hc. apply andb_prop in Hc as [Hc Hn]. split; [now left|].
          destruct (r_is_macro d).
          -- rewrite forallb_forall in Hc. apply (core_chk (mk_env P input)); [eapply Ha; eauto|]. apply Hc. now apply in_mm_In.
          -- apply andb_prop in Hc as [H1 H2]. subst m. split.
             ++ replace (if r_no_whitespace d then tok_mode (mk_env P input) (md r) else md r)
                  with (if r_no_whitespace d then token_mode (is_some (p_ws P)) (md r) else md r).
                ** apply (core_chk (mk_env P input)); [eapply Ha; eauto|exact H1].
                ** destruct (r_no_whitespace d); [|reflexivity]. unfold tok_mode, token_mode. cbn. destruct (p_ws P); reflexivity.
             ++ intros X. rewrite X in H2. exact H2.
        * unfold prec_rule in Hc. rewrite Hb in Hc.
          destruct body as [| | | | | | | | | | | | | | | | | | | | a b info q| | | ]; try discriminate.
          destruct a as [| | | | | | | | | | | | | | | | | na [ra|] ia ma [|]| | | | | | ]; try discriminate.
          destruct b as [| | | | | | | | | | | | | | | | | nb [rb|] ib mb [|]| | | | | | ]; try discriminate.
          cbv zeta in Hc. rewrite !andb_true_iff in Hc. destruct Hc as [[[[[[H1 H2] H3] H4] H5] H6] H7].
          apply Nat.eqb_eq in H5 as ->. apply negb_true_iff in H6, H7. rewrite H6 in Hal. subst m. rewrite H6.
          destruct (nth_error (p_g P) ra) as [da|] eqn:Hda; [|discriminate]. destruct (nth_error (p_g P) rb) as [db|] eqn:Hdb; [|discriminate].
          rewrite !andb_true_iff in H3. rewrite !andb_true_iff in H4. destruct H3 as [A1 A2], H4 as [[[B1 B2] B3] B4]. apply negb_true_iff in A1, A2, B1, B2, B3, B4.
          split; [right; split; [reflexivity|]; eauto|].
          replace (if r_no_whitespace d then tok_mode (mk_env P input) (md r) else md r)
            with (if r_no_whitespace d then token_mode (is_some (p_ws P)) (md r) else md r)
            by (destruct (r_no_whitespace d); [|reflexivity]; unfold tok_mode, token_mode; cbn; destruct (p_ws P); reflexivity).
          assert (Hopb : is_op (p_g P) rb = true).
          { apply existsb_exists. exists d. split; [eapply nth_error_In; eauto|]. rewrite Hb. apply Nat.eqb_refl. }
          split.
          -- cbn [chk]. split; [|split].
             ++ split; [exact Hnl|]. split; [exists na, ra, ia, ma, [], da; auto|].
                split; [exists nb, rb, ib, mb, [], db; cbn; auto 10|]. split; [reflexivity|]. split; [reflexivity|].
                split; [exists d; auto|]. intros _ Hq. apply is_op_of in Hq. change (is_op (p_g P) r = true) in Hq. congruence.
             ++ apply (core_chk (mk_env P input) md mm (Ref na (Some ra) ia ma [])); [exact I|exact H1].
             ++ apply (core_chk (mk_env P input) md mm (Ref nb (Some rb) ib mb [])); [exact I|exact H2].
          -- discriminate.
      + cbn. intros r m1 m2 d Hd Hm. rewrite Hd, Hm. congruence.
      + cbn. intros w Hws. pose proof (Haw w Hws) as Hann. rewrite Hws in Hw. unfold core_ws in Hw. destruct w; try discriminate.
        apply andb_prop in Hw as [Hw _]. apply andb_prop in Hw as [H1 H2]. apply negb_true_iff in H2. cbn [mref]. split; [exact H2|].
        intros m Hm. cbn [chk]. destruct (m_ws m); [now left|right]. rewrite Hm.
        apply (core_chk (mk_env P input)); [exact Hann|]. cbn. rewrite Hws. exact H1.
      + cbn. intros Hp r1 r2 s H1 H2. destruct (Hsl Hp r2 s H2) as [_ H]. now apply H.
    - intros inp. constructor.
      + constructor; cbn; eauto; [|discriminate]. intros r d body Hd Hb [Hm|Hm]; [eauto|discriminate].
      + constructor; cbn; [|discriminate]. intros id i0 pos vs u n vs' u' _ H. rewrite Hu in H. discriminate.
      + right. destruct Hpure. constructor; assumption.
      + cbn. discriminate.
      + intros r m d body [].
      + intros r m1 m2 d _ _ [].
      + cbn. discriminate.
      + cbn. discriminate.
    - cbn. rewrite Hwd. discriminate.
  Qed.
End Parser.
