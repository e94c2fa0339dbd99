(** * Memoization (C18), left recursion (C19), macros (C41). *)
From Verif Require Import Base BaseLemmas Utf8 Utf8Spec Utf8Proofs Escape TrieM TrieSpec LineInfo Ope Ctx ErrLog Engine EngineLemmas Top Frame Scope Bounds Mono TopFacts
  RefSem RefMono Refine RefineMain TopRef RefExt PegSpec PegFacts PegDen PegWord PegRef GrammarCond PegEngine Samples PropPeg.

(** The same parser with packrat parsing switched off. *)
Definition without_packrat {V U} (P : pobj V U) : pobj V U :=
  {| p_g := p_g P; p_start := p_start P; p_ws := p_ws P; p_word := p_word P; p_packrat := false; p_slot := p_slot P;
     p_cached := p_cached P; p_eoi := p_eoi P; p_tracer := p_tracer P; p_verbose := p_verbose P; p_log := p_log P;
     p_u0 := p_u0 P; p_action := p_action P; p_pred := p_pred P; p_enter := p_enter P; p_leave := p_leave P; p_user := p_user P |}.

Section Memo.
  Context {V U : Type}.
  Implicit Types (P : pobj V U).
  Lemma without_core md mm P : core_parser md mm P -> core_parser md mm (without_packrat P).
  Proof. intros []. constructor; auto. cbn. discriminate. Qed.

  (** The meaning of the grammar on this input is defined (RefSem.v). *)
  Definition settled P (input : bytes) : Prop := exists k x, ref_top k (mk_env P input) (p_start P) = Some x.

  Lemma packrat_same P input dt md mm :
    core_parser md mm P -> bare_parser P -> pure (mk_env P input) -> (recognize_only P = true -> forall r, p_pred P r = None) ->
    settled P input ->
    exists b reps1 res1 reps2 res2 F, forall fuel, F <= fuel ->
      parser_parse fuel P input dt = Ok (b, reps1, res1)
      /\ parser_parse fuel (without_packrat P) input dt = Ok (b, reps2, res2)
      /\ rs_ret res1 = rs_ret res2
      /\ (rs_ret res1 = true -> rs_len res1 = rs_len res2 /\ (recognize_only P = false -> rs_vs res1 = rs_vs res2)).
  Proof.
    intros Hc Hb Hp Hr (k & x & Hx).
    assert (Hal : core_modes (p_g P) md mm (p_start P) m_top).
    { destruct (cp_start _ _ _ Hc) as [H1 (d & Hd & Hm)]. cbn. rewrite Hd, Hm. exact H1. }
    pose proof (core_okA (kp := true) md mm P input Hc (bare_parser_anns P input Hb) (or_intror Hp) Hr) as HA.
    assert (HA' : okA (kp := true) (mk_env (without_packrat P) input) (core_modes (p_g P) md mm) (word_modes P)).
    { apply (core_okA (kp := true) md mm (without_packrat P) input).
      - now apply without_core.
      - apply bare_parser_anns. exact Hb.
      - right. destruct Hp. constructor; assumption.
      - exact Hr. }
    assert (Hx' : ref_top k (mk_env (without_packrat P) input) (p_start P) = Some x).
    { rewrite <- Hx. apply ref_top_same. reflexivity. }
    destruct (def_parse_ref (kp := true) k P input dt _ _ x HA Hal Hx) as (r1 & A1 & B1 & C1 & D1).
    destruct (def_parse_ref (kp := true) k (without_packrat P) input dt _ _ x HA' Hal Hx') as (r2 & A2 & B2 & C2 & D2).
    assert (Hpp : forall (Q : pobj V U) y al wal r, okA (kp := true) (mk_env Q input) al wal -> ev (fun f => def_parse f Q input dt = Ok r) ->
      rs_ret r = y -> rs_recovered r = false -> exists reps, ev (fun f => parser_parse f Q input dt = Ok (y, reps, r))).
    { intros Q y al wal r HQ Hev Hy Hrc. pose proof (ok_wf _ _ (oa_main _ _ _ HQ)) as HE.
      assert (Hin : in_input input r).
      { apply ev_pick in Hev as [f Hf]. pose proof (def_parse_safe f Q input dt HE) as Hs. rewrite Hf in Hs. exact Hs. }
      destruct Hin as (_ & H1 & H2). destruct (output_log_ok (p_g Q) input (rs_err r) H1 H2) as [[e rp] Hlog].
      exists (if p_log Q && negb (rs_ret r) then rs_out r ++ match rp with Some x => [x] | None => [] end else rs_out r).
      unfold parser_parse. eapply ev_bind; [exact Hev|]. apply ev_all. intros f. rewrite Hlog, Hrc. subst y.
      rewrite andb_true_r. destruct (p_log Q && negb (rs_ret r)); reflexivity. }
    destruct (Hpp P _ _ _ r1 HA A1 B1 C1) as [reps1 E1]. destruct (Hpp (without_packrat P) _ _ _ r2 HA' A2 B2 C2) as [reps2 E2].
    destruct (ev_and _ _ E1 E2) as [F HF]. eexists _, reps1, r1, reps2, r2, F. intros fuel Hf. destruct (HF fuel Hf) as [H1 H2].
    split; [exact H1|]. split; [exact H2|]. split; [rewrite B1, B2; reflexivity|].
    intros Ht. rewrite B1 in Ht. destruct x as [[n vs]|]; [|discriminate]. destruct D1 as [-> D1], D2 as [-> D2]. split; [reflexivity|].
    intros Hrec. destruct D1 as [[D1|[D1 _]]|D1]; [cbn in D1; congruence|discriminate|].
    destruct D2 as [[D2|[D2 _]]|D2]; [|discriminate|congruence].
    change (recognize_only (without_packrat P) = true) in D2.
    change (recognize_only (without_packrat P)) with (recognize_only P) in D2. congruence.
  Qed.
End Memo.

(** ** C18.  [pure]: actions, predicates and leave callbacks compute values from
    the match, not from the user data threaded through the parse.  [settled]: the
    meaning is defined on this input; left-recursive rules and semantic predicates
    are included.  Core operators, each rule used in one whitespace mode. *)
Theorem C18_packrat_does_not_change_the_outcome_partial :
  forall (V U : Type) (P : pobj V U) (input : bytes) (dt : U) md mm,
  core_parser md mm P -> bare_parser P -> pure (mk_env P input) -> (recognize_only P = true -> forall r, p_pred P r = None) ->
  settled P input ->
  exists b reps1 res1 reps2 res2 F, forall fuel, F <= fuel ->
    parser_parse fuel P input dt = Ok (b, reps1, res1)
    /\ parser_parse fuel (without_packrat P) input dt = Ok (b, reps2, res2)
    /\ rs_ret res1 = rs_ret res2
    /\ (rs_ret res1 = true -> rs_len res1 = rs_len res2 /\ (recognize_only P = false -> rs_vs res1 = rs_vs res2)).
Proof. exact @packrat_same. Qed.
Print Assumptions C18_packrat_does_not_change_the_outcome_partial.
(** On well-founded grammars and well-formed text the meaning is always defined. *)
Theorem C18_well_founded_grammars_partial :
  forall (V U : Type) (P : pobj V U) (input : bytes) (dt : U) md mm R,
  core_parser md mm P -> bare_parser P -> pure (mk_env P input) -> (forall r, p_pred P r = None) ->
  (exists isw, literal_words P isw /\ well_formed (word_grammar P isw) R) -> R (WMain (NSkip m_top)) -> R (WMain (NRule (p_start P) m_top)) -> valid_utf8 input ->
  exists b reps1 res1 reps2 res2 F, forall fuel, F <= fuel ->
    parser_parse fuel P input dt = Ok (b, reps1, res1)
    /\ parser_parse fuel (without_packrat P) input dt = Ok (b, reps2, res2)
    /\ rs_ret res1 = rs_ret res2
    /\ (rs_ret res1 = true -> rs_len res1 = rs_len res2 /\ (recognize_only P = false -> rs_vs res1 = rs_vs res2)).
Proof.
  intros V U P input dt md mm R Hc Hb Hp Hpr (isw & Hwt & Hw) H1 H2 Hu. eapply packrat_same; eauto.
  destruct (peg_total (word_grammar P isw) R Hw (word_start P) input Hu) as [r Hr]; [split; assumption|].
  destruct (peg_ref_top P isw input r md mm Hc (bare_parser_anns P input Hb) Hpr Hwt Hr) as (k & y & A & _). exists k, y. exact A.
Qed.
Print Assumptions C18_well_founded_grammars_partial.

(** Every rule memoised. *)
Definition with_packrat (P : pobj bytes unit) : pobj bytes unit :=
  {| p_g := p_g P; p_start := p_start P; p_ws := p_ws P; p_word := p_word P; p_packrat := true; p_slot := fun r => if r <? List.length (p_g P) then Some r else None;
     p_cached := List.length (p_g P); p_eoi := p_eoi P; p_tracer := p_tracer P; p_verbose := p_verbose P; p_log := p_log P;
     p_u0 := p_u0 P; p_action := p_action P; p_pred := p_pred P; p_enter := p_enter P; p_leave := p_leave P; p_user := p_user P |}.
Lemma with_core md mm P : core_parser md mm P -> core_parser md mm (with_packrat P).
Proof.
  intros []. constructor; auto. cbn [with_packrat p_slot p_packrat p_cached p_g]. intros _ r s H.
  destruct (r <? List.length (p_g P)) eqn:Hr; [|discriminate]. inv H. apply Nat.ltb_lt in Hr. split; [exact Hr|].
  intros r' H'. destruct (r' <? List.length (p_g P)); [|discriminate]. now inv H'.
Qed.
Lemma sample_pure g ws word log tracer input : pure (mk_env (with_packrat (sample g ws word log tracer)) input).
Proof. constructor; cbn; [|discriminate|discriminate]. intros r f inp vs u u' pd H. inv H. reflexivity. Qed.
Example C18_meets : exists reps1 res1 reps2 res2,
  core_parser (fun _ => m_top) [m_top] (with_packrat P_sum) /\ bare_parser (with_packrat P_sum)
  /\ pure (mk_env (with_packrat P_sum) (bs "1 +(23) ")) /\ recognize_only (with_packrat P_sum) = false
  /\ well_formed (peg_grammar (with_packrat P_sum)) R_sum
  /\ parser_parse 40 (with_packrat P_sum) (bs "1 +(23) ") tt = Ok (true, reps1, res1)
  /\ parser_parse 40 (without_packrat (with_packrat P_sum)) (bs "1 +(23) ") tt = Ok (true, reps2, res2)
  /\ v_vals (rs_vs res1) = [Some (bs "1 +(23) ")].
Proof.
  eexists _, _, _, _. split; [apply with_core, sum_core|]. split; [exact sum_bare|].
  split; [exact (sample_pure g_sum (Some w_sum) None true false _)|]. split; [reflexivity|]. split; [exact sum_formed|].
  split; [vm_compute; reflexivity|]. split; [vm_compute; reflexivity|]. reflexivity.
Qed.

(** One mode per rule is needed: with  S <- < T > 'b' / T 'c'   T <- 'a'
    %whitespace <- [ ]*  the input "a c" matches, but not with packrat parsing:
    the length of T memoised inside the token boundary (no whitespace skipped) is
    used outside it.  (T is wrapped in a token boundary by the loader; it is the
    first element of two alternatives, so it is memoised.) *)
Definition g_modes : grammar :=
  [plain "S" (alts [seqs [Tok (Ref (bs "T") (Some 1) 0 false []); lit "b"]; seqs [Ref (bs "T") (Some 1) 0 false []; lit "c"]]);
   plain "T" (Tok (lit "a"))].
Definition P_modes : pobj bytes unit := with_packrat (sample g_modes (Some w_sum) None false false).
Theorem C18_two_modes_refuted :
  bare_parser P_modes /\ pure (mk_env P_modes (bs "a c")) /\ settled P_modes (bs "a c")
  /\ (exists reps res, parser_parse 30 (without_packrat P_modes) (bs "a c") tt = Ok (true, reps, res))
  /\ (exists reps res, parser_parse 30 P_modes (bs "a c") tt = Ok (false, reps, res)).
Proof.
  split; [split; [reflexivity|split; (reflexivity || exact I)]|]. split; [exact (sample_pure g_modes (Some w_sum) None false false _)|].
  split. { eexists 20, _. vm_compute. reflexivity. }
  split; eexists _, _; vm_compute; reflexivity.
Qed.
Print Assumptions C18_two_modes_refuted.
