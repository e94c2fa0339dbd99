(** * The reference semantics of a whole parse, and that the engine computes it. *)
From Verif Require Import Base BaseLemmas Utf8 Utf8Proofs Escape TrieM LineInfo LineProofs Ope Ctx ErrLog Engine EngineLemmas Top Frame Scope Bounds Mono TopFacts
  RefSem RefMono Refine RefineOps RefineMain.

(** ** Reporting an error always succeeds *)
Lemma clip_ok s : forall count i j, i <= List.length s -> j <= i -> exists x, clip count s i j = Ok x /\ j <= x <= i.
Proof.
  induction count as [|n IH]; intros i j Hi Hj; cbn [clip]; [eauto|].
  destruct (j <? i) eqn:Hji; [|eauto]. apply Nat.ltb_lt in Hji.
  destruct (decode_safe (from s j) (i - j)) as (r & _ & _ & Hl & Hb); [rewrite from_length; lia|]. rewrite Hl. cbn [bind].
  destruct (IH i (j + match r with Some (n, _) => n | None => 0 end)) as (x & Hx & Hr); [assumption| |exists x; split; [exact Hx|lia]].
  destruct r as [[k cp]|]; [|lia]. destruct (Hb k cp eq_refl). lia.
Qed.
Lemma token_ok s pos : exists t, heuristic_error_token s pos = Ok t.
Proof.
  unfold heuristic_error_token. destruct (from s pos) as [|c rest] eqn:Hf; [eauto|]. cbv zeta.
  pose proof (token_run_len rest).
  destruct (clip_ok (c :: rest) 32 (if ispunct c || isspace c then 1 else S (token_run rest)) 0) as (x & Hx & _); [|lia|].
  - cbn [List.length]. destruct (_ || _); lia.
  - rewrite Hx. cbn [bind]. eauto.
Qed.
Lemma line_ok s pos : pos <= List.length s -> exists x, line_info s pos = Ok x.
Proof.
  intros H. destruct (current_line_exists s pos H) as (cur & Hc & _).
  destruct (line_info_at s pos cur H Hc) as (k & _ & ->). eauto.
Qed.
Lemma output_log_ok g s e :
  (forall p, ei_pos e = Some p -> p <= List.length s) ->
  (forall p, ei_mpos e = Some p -> p <= List.length s) ->
  exists x, output_log g s e = Ok x.
Proof.
  intros Hp Hm. unfold output_log. destruct (ei_mpos e) as [mp|].
  - destruct (olt _ _); [|eauto]. cbv zeta. destruct (line_ok s mp (Hm mp eq_refl)) as [[ln col] ->]. cbn [bind].
    destruct (token_ok s mp) as [t ->]. cbn [bind]. destruct t as [|b t]; [cbn; eauto|].
    destruct (decode_safe (b :: t) (List.length (b :: t)) (le_n _)) as (r & _ & _ & -> & _). cbn [bind]. eauto.
  - destruct (ei_pos e) as [p|]; [|eauto]. destruct (olt _ _); [|eauto].
    destruct (line_ok s p (Hp p eq_refl)) as [[ln col] ->]. cbn [bind]. destruct (ei_exp e); [cbn; eauto|].
    destruct (token_ok s p) as [t ->]. cbn [bind].
    match goal with |- context [match ?x with _ => _ end] => destruct x as [[[[? ?] ?] ?] ?] end. cbn. eauto.
Qed.

Section TopRef.
  Context {V U : Type} {kp : keepvals}.
  Implicit Types (E : env V U) (P : pobj V U).

  (** Leading whitespace, then the start rule: bytes consumed and values. *)
  Definition ref_top (k : nat) E (start : rid) : option (rv V) :=
    let? w := (match e_ws E with
               | None => Some (Some (0, sv_new))
               | Some w => ref k E None no_frame m_top w 0 sv_new
               end) in
    match w with
    | None => Some None
    | Some (i, vs) =>
      let? x := ref k E None no_frame m_top (Hld start) i vs in
      Some (match x with Some (n, vs') => Some (i + n, vs') | None => None end)
    end.

  Lemma inv_new k E al (log : bool) (dt : U) g : inv (V:=V) k E al None m_top (set_ign g (ctx_new log dt)).
  Proof.
    constructor; cbn; auto; try discriminate; try contradiction.
    - constructor; cbn; auto; discriminate.
    - reflexivity.
  Qed.

  Theorem def_parse_ref k P input dt al wal x : let E := mk_env P input in
    okA E al wal -> al (p_start P) m_top -> ref_top k E (p_start P) = Some x ->
    exists res, ev (fun f => def_parse f P input dt = Ok res)
      /\ rs_ret res = (match x with Some (n, _) => negb (p_eoi P) || (n =? List.length input) | None => false end)
      /\ rs_recovered res = false
      /\ match x with Some (n, vs) => rs_len res = n /\ vsrel E (rs_vs res) vs | None => True end.
  Proof.
    intros E HA Hal Hr. unfold ref_top in Hr.
    destruct (match e_ws E with None => Some (Some (0, sv_new)) | Some w => ref k E None no_frame m_top w 0 sv_new end) as [w|] eqn:Hw; [|discriminate].
    cbn [obind] in Hr. unfold def_parse. cbv zeta. fold E.
    assert (Hlead : exists vs1 c1, ev (fun f => (match p_ws P with
       | None => Ok (Some 0, sv_new, ctx_new (p_log P) dt)
       | Some w => let* (len, vs', c') := parse f E w 0 sv_new (set_ign (negb (p_verbose P)) (ctx_new (p_log P) dt)) in
                   Ok (len, vs', set_ign (c_ign (@ctx_new V U (p_log P) dt)) c')
       end) = Ok (len_of w, vs1, c1)) /\ vsok E w vs1 /\ inv k E al None m_top c1 /\ pos_ok E 0 (len_of w) /\ c_args c1 = [[]]).
    { change (e_ws E) with (p_ws P) in Hw. destruct (p_ws P) as [wo|] eqn:Hws.
      - assert (Hws' : e_ws E = Some wo) by exact Hws.
        destruct (ok_ws _ _ (oa_main _ _ _ HA) wo Hws') as [Hm Hc].
        pose proof (sc_ws _ (ok_scoped _ _ (oa_main _ _ _ HA)) wo Hws') as Hn.
        set (c0 := set_ign (negb (p_verbose P)) (ctx_new (p_log P) dt)).
        destruct (refines_all k E al wal None no_frame m_top wo 0 sv_new w sv_new c0) as (vs1 & c1 & A & B & Q & _ & Hpos);
          [exact HA|exact Hw|exact Hn| |constructor| |apply inv_new|lia|now right|].
        + assert (Hck : chk E al m_top wo /\ (mref (e_g E) wo = true -> top_args c0 = snd no_frame /\ params_ok E c0 (fst no_frame))).
          { split; [now apply Hc|]. rewrite Hm. discriminate. }
          destruct wo; try exact Hck. exfalso. destruct Hck as [[] _].
        + split; [constructor|reflexivity].
        + exists vs1, (set_ign (c_ign (@ctx_new V U (p_log P) dt)) c1). split; [eapply ev_bind; [exact A|]; now apply ev_all|].
          split; [exact B|]. split; [|split; [exact Hpos|]].
          * pose proof (inv_post _ _ _ _ _ _ _ (inv_new k E al (p_log P) dt (negb (p_verbose P))) Q) as Hi1.
            eapply inv_same; [exact Hi1|..]; try reflexivity.
            -- eapply inb_same; [apply Hi1|..]; reflexivity.
            -- apply Hi1.
          * change (c_args c1 = [[]]). rewrite (f_args _ _ (q_frame _ _ _ _ Q)). reflexivity.
      - inv Hw. eexists _, _. split; [now apply ev_all|]. cbn [len_of vsok]. split; [now right|].
        split; [exact (inv_new k E al (p_log P) dt false)|]. split; [apply (pos_ok_zero E 0); lia|reflexivity]. }
    destruct Hlead as (vs1 & c1 & A & B & Hi & Hpos & Hargs). destruct w as [[i vr]|].
    2: { inv Hr. exists (mk_result false 0 vs1 c1). split; [|repeat split; auto; apply Hi].
         eapply ev_bind; [exact A|]. now apply ev_all. }
    oinv Hr. inv Hr. specialize (Hpos i eq_refl). cbn in Hpos.
    destruct (refines_all k E al wal None no_frame m_top (Hld (p_start P)) i vr a vs1 c1) as (vs2 & c2 & A2 & B2 & Q2 & _ & Hp2);
      [exact HA|assumption|reflexivity| |constructor|split; [constructor|reflexivity]|exact Hi|exact Hpos|exact B|].
    { split; [exact Hal|]. intros d Hd. unfold top_args. rewrite Hargs. destruct (r_is_macro d); auto. }
    pose proof (q_rcv _ _ _ _ Q2) as Hrc. rewrite (i_rcv _ _ _ _ _ _ Hi) in Hrc.
    destruct a as [[n v]|].
    - specialize (Hp2 n eq_refl). change (inlen E) with (List.length input) in Hp2.
      set (c3 := if olt (ei_pos (c_err c2)) (i + n) then set_err (err_message (i + n) (bs "expected end of input") None (c_err c2)) c2 else c2).
      assert (Hc3 : c_rcv c3 = false) by (unfold c3; destruct (olt _ _); exact Hrc).
      exists (if p_eoi P && (i + n <? List.length input) then mk_result false (i + n) vs2 c3 else mk_result true (i + n) vs2 c2).
      split; [|].
      { eapply ev_bind; [exact A|]. cbn [len_of]. eapply ev_bind; [exact A2|]. apply ev_all. intros f. cbn [len_of].
        fold c3. destruct (_ && _); reflexivity. }
      destruct (p_eoi P); cbn [andb orb negb].
      + destruct (Nat.ltb_spec (i + n) (List.length input)); cbn.
        * split; [symmetry; apply Nat.eqb_neq; lia|]. auto.
        * split; [symmetry; apply Nat.eqb_eq; lia|]. auto.
      + cbn. auto.
    - exists (mk_result false i vs2 c2). split; [|cbn; auto].
      eapply ev_bind; [exact A|]. cbn [len_of]. eapply ev_bind; [exact A2|]. now apply ev_all.
  Qed.

  (** ... and what [parser::parse] returns. *)
  Theorem parser_parse_ref k P input dt al wal x : let E := mk_env P input in
    okA E al wal -> al (p_start P) m_top -> ref_top k E (p_start P) = Some x ->
    exists reps res, ev (fun f => parser_parse f P input dt
        = Ok (match x with Some (n, _) => negb (p_eoi P) || (n =? List.length input) | None => false end, reps, res))
      /\ match x with Some (n, vs) => rs_len res = n /\ vsrel E (rs_vs res) vs | None => True end.
  Proof.
    intros E HA Hal Hr. destruct (def_parse_ref k P input dt al wal x HA Hal Hr) as (res & A & B & C & D).
    pose proof (ok_wf _ _ (oa_main _ _ _ HA)) as HE.
    assert (Hin : in_input input res).
    { apply ev_pick in A as [f Hf]. pose proof (def_parse_safe f P input dt HE) as Hs. rewrite Hf in Hs. exact Hs. }
    destruct Hin as (_ & H1 & H2). destruct (output_log_ok (p_g P) input (rs_err res) H1 H2) as [[e rp] Hlog].
    eexists _, res. split; [|exact D]. unfold parser_parse. eapply ev_bind; [exact A|]. apply ev_all. intros f.
    rewrite Hlog. instantiate (1 := if p_log P && negb (rs_ret res) then _ else _). cbn [bind].
    destruct (p_log P && negb (rs_ret res)); cbn [bind]; rewrite B, C, andb_true_r; reflexivity.
  Qed.
End TopRef.
