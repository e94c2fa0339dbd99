(** * The engine computes the reference semantics: one lemma per operator. *)
From Verif Require Import Base BaseLemmas Utf8 Utf8Proofs Escape TrieM LineInfo Ope Ctx ErrLog Engine EngineLemmas Frame Scope Bounds Mono RefSem RefMono Refine.

Lemma obind_Some : forall {A B} (o : option A) (f : A -> option B) b,
  obind o f = Some b -> exists a, o = Some a /\ f a = Some b.
Proof. intros A B [a|] f b H; cbn in H; [eauto|discriminate]. Qed.
Ltac oinv H :=
  let a := fresh "a" in let Hm := fresh "Hm" in
  apply obind_Some in H; destruct H as (a & Hm & H).
Lemma out_of_Some {A} (o : outcome A) a : out_of o = Some a -> o = Ok a.
Proof. destruct o; cbn; congruence. Qed.

Section Ops.
  Context {V U : Type} {kp : keepvals}.
  Notation env := (env V U).
  Notation ctx := (ctx V U).
  Notation sv := (sv V).
  Implicit Types (E : env) (c : ctx) (vs : sv) (m : mode) (sd : seed V).

  Definition fin E al c (x : rv V) (op : nat -> @res V U) : Prop :=
    exists vs' c', ev (fun f => op f = Ok (len_of x, vs', c')) /\ vsok E x vs' /\ rpost E al c c'.

  Lemma rp_err E al c e : inb E (set_err e c) -> rpost E al c (set_err e c).
  Proof. intros H. apply rpost_same; auto. apply frame_pure; reflexivity. Qed.
  Lemma sep_err E pos lit c : exists e, set_error_pos E pos lit c = set_err e c.
  Proof.
    assert (Hc : exists e, c = set_err e c) by (exists (c_err c); destruct c; reflexivity).
    unfold set_error_pos. destruct (c_log c); [|exact Hc]. destruct (ole _ _); [|exact Hc]. cbv zeta.
    destruct (error_rule_of _ _ _), (match lit with Some _ => _ | None => _ end); eauto.
  Qed.
  Lemma rp_error E al pos lit c : inb E c -> pos <= inlen E -> rpost E al c (set_error_pos E pos lit c).
  Proof.
    intros Hi Hp. pose proof (step_inb _ _ _ (step_error_pos E pos lit c Hi Hp)) as H.
    destruct (sep_err E pos lit c) as [e He]. rewrite He in *. now apply rp_err.
  Qed.
  Lemma rp_rollback E al c c' : rpost E al c c' -> rpost E al c (rollback_c c c').
  Proof.
    intros Q. constructor; try apply Q.
    - apply frame_rollback, Q.
    - apply inb_same with c'; auto. apply Q.
  Qed.
  Lemma vsrel_refl E vs : vsrel E vs vs.
  Proof. now right. Qed.
  Lemma vsrel_rollback E vs vs' vr : vsrel E vs vr -> ext vs vs' -> vsrel E (rollback_vs vs vs') vr.
  Proof. intros H Hx. rewrite rollback_ext by assumption. exact H. Qed.

  Lemma fin_ok E al c n vr vs c' op : rpost E al c c' -> vsrel E vs vr ->
    (forall f, op f = Ok (Some n, vs, c')) -> fin E al c (Some (n, vr)) op.
  Proof. intros Q Hv Ho. exists vs, c'. split; [now apply ev_all|]. split; [exact Hv|exact Q]. Qed.
  Lemma fin_fail E al c vs c' op : rpost E al c c' ->
    (forall f, op f = Ok (None, vs, c')) -> fin E al c None op.
  Proof. intros Q Ho. exists vs, c'. split; [now apply ev_all|]. split; [exact I|exact Q]. Qed.
  Lemma fin_post E al c1 c x op : rpost E al c1 c -> fin E al c x op -> fin E al c1 x op.
  Proof. intros Q (vs' & c' & A & B & D). exists vs', c'. split; [exact A|]. split; [exact B|]. eapply rpost_trans; eauto. Qed.
  Lemma fin_ext E al c x op op' : (forall f, op f = op' f) -> fin E al c x op -> fin E al c x op'.
  Proof.
    intros H (vs' & c' & A & B & D). exists vs', c'. split; [|auto].
    eapply ev_imp; [exact A|]. cbn. intros f Hf. now rewrite <- H.
  Qed.

  Lemma chk_pre E al fr m o c : chk E al m o ->
    (mref (e_g E) o = true -> top_args c = snd fr /\ params_ok E c (fst fr)) -> pre E al fr m o c.
  Proof. intros H1 H2. destruct o; try (split; assumption). contradiction. Qed.
  Lemma fram_none E al : fram_ok E al no_frame.
  Proof. split; [constructor|reflexivity]. Qed.
  Lemma fram_params E al ps : fram_ok E al (ps, []).
  Proof. split; [constructor|reflexivity]. Qed.

  Section Step.
    Variable k : nat.
    Hypothesis IH : @refines V U kp k.

    Lemma f_skip E al wal sd m pos vr x vs c :
      okA E al wal -> ref_skip (ref k) E m pos vr = Some x -> inv k E al sd m c -> pos <= inlen E ->
      vsrel E vs vr -> fin E al c x (fun f => skip_whitespace E (parse f) pos vs c).
    Proof.
      intros HA Hr Hi Hp Hv. unfold ref_skip in Hr. unfold skip_whitespace.
      destruct (e_ws E) as [w|] eqn:Hw.
      - rewrite (i_tb _ _ _ _ _ _ Hi) by congruence. destruct (m_tok m) eqn:Hm.
        + inv Hr. eapply fin_ok; [apply rpost_refl, Hi|eassumption|reflexivity].
        + destruct (ok_ws _ _ (oa_main _ _ _ HA) w Hw) as [Hmr Hck].
          set (c1 := set_ign (negb (e_verbose E)) c).
          destruct (IH E al wal None no_frame m w pos vr x vs c1) as (vs' & c' & A & B & Q & _); auto.
          * eapply sc_ws; [|exact Hw]. apply HA.
          * apply chk_pre; auto. congruence.
          * constructor.
          * apply fram_none.
          * apply inv_noseed in Hi. eapply inv_same; [exact Hi|..]; try reflexivity.
            -- apply inb_same with c; auto. apply Hi.
            -- exact (i_args _ _ _ _ _ _ Hi).
          * exists vs', (set_ign (c_ign c) c'). split; [|split; [exact B|]].
            -- eapply ev_bind; [exact A|]. now apply ev_all.
            -- destruct Q. constructor; auto.
               ++ destruct q_frame. constructor; auto.
               ++ now apply inb_same with c'.
      - inv Hr. eapply fin_ok; [apply rpost_refl, Hi|eassumption|reflexivity].
    Qed.
    Lemma f_then E al wal sd m pos n vr x vs c :
      okA E al wal -> ref_then (ref k) E m pos n vr = Some x -> inv k E al sd m c -> pos + n <= inlen E ->
      vsrel E vs vr -> fin E al c x (fun f => then_skip E (parse f) pos n vs c).
    Proof.
      intros HA Hr Hi Hp Hv. unfold ref_then in Hr. oinv Hr. inv Hr.
      destruct (f_skip E al wal sd m (pos + n) vr a vs c HA Hm Hi Hp Hv) as (vs' & c' & A & B & Q).
      exists vs', c'. split; [|split; [|exact Q]].
      - unfold then_skip. eapply ev_bind; [exact A|]. apply ev_all. intros f. destruct a as [[w v]|]; reflexivity.
      - destruct a as [[w v]|]; auto.
    Qed.

    (** The %word checks. *)
    Lemma word_inv E wal inp : inv k (word_env E inp) wal None m_top (word_ctx E).
    Proof.
      unfold word_ctx, ctx_new. constructor; cbn; auto; try discriminate; try contradiction.
      - constructor; cbn; auto; discriminate.
      - repeat constructor.
    Qed.
    Lemma f_word E al wal w inp o pos x : okA E al wal -> e_word E = Some w -> (o = w \/ o = Not w) ->
      pos <= List.length inp -> ref k (word_env E inp) None no_frame m_top o pos sv_new = Some x ->
      exists vs' c', ev (fun f => parse f (word_env E inp) o pos sv_new (word_ctx E) = Ok (len_of x, vs', c')).
    Proof.
      intros HA Hw Ho Hp Hr. destruct (oa_chk _ _ _ HA w Hw) as (Hmr & Hn & Hc).
      destruct (IH (word_env E inp) wal wal None no_frame m_top o pos sv_new x sv_new (word_ctx E))
        as (vs' & c' & A & _); eauto.
      - now apply okA_word with al.
      - destruct Ho as [-> | ->]; auto.
      - apply chk_pre; destruct Ho as [-> | ->]; cbn; auto; congruence.
      - constructor.
      - apply fram_none.
      - apply word_inv.
      - apply vsrel_refl.
    Qed.
    Lemma f_is_word E al wal w lit b : okA E al wal -> e_word E = Some w ->
      ref_is_word (ref k) E w lit = Some b -> ev (fun f => is_word E (parse f) w lit = Ok b).
    Proof.
      intros HA Hw Hr. unfold ref_is_word in Hr. oinv Hr. inv Hr. unfold is_word.
      destruct (f_word E al wal w lit w 0 a HA Hw) as (vs' & c' & A); auto; [lia|].
      eapply ev_bind; [exact A|]. apply ev_all. intros f. destruct a as [[? ?]|]; reflexivity.
    Qed.
    Lemma f_not_word E al wal w pos b : okA E al wal -> e_word E = Some w -> pos <= inlen E ->
      ref_not_word (ref k) E w pos = Some b -> ev (fun f => not_word E (parse f) w pos = Ok b).
    Proof.
      intros HA Hw Hp Hr. unfold ref_not_word in Hr. oinv Hr. inv Hr. unfold not_word.
      destruct (f_word E al wal w (e_input E) (Not w) pos a HA Hw) as (vs' & c' & A); auto.
      eapply ev_bind; [exact A|]. apply ev_all. intros f. destruct a as [[? ?]|]; reflexivity.
    Qed.

    Lemma lit_len inp pat ic : forall pos n, lit_loop inp pos n pat ic = Ok true -> List.length pat <= n.
    Proof.
      induction pat as [|p pat IHp]; intros pos n H; cbn; [lia|]. destruct n as [|n]; cbn in H; [discriminate|].
      destruct (rd inp pos); cbn in H; try discriminate.
      destruct (beq _ _); [|discriminate]. apply IHp in H. lia.
    Qed.
    Lemma f_lit E al wal sd m lit ic pos vr x vs c :
      okA E al wal -> ref_lit (ref k) E m lit ic pos vr = Some x -> inv k E al sd m c -> pos <= inlen E ->
      vsrel E vs vr -> fin E al c x (fun f => parse_literal E (parse f) lit ic pos vs c).
    Proof.
      intros HA Hr Hi Hp Hv. unfold ref_lit in Hr. oinv Hr. apply out_of_Some in Hm. unfold parse_literal.
      rewrite Hm. cbn [bind].
      assert (Hfail : x = None -> fin E al c x (fun f => Ok (None, vs, set_error_pos E pos (Some lit) c))).
      { intros ->. eapply fin_fail; [|reflexivity]. apply rp_error; [apply Hi|assumption]. }
      destruct a; [|inv Hr; now apply Hfail].
      assert (Hl : pos + List.length lit <= inlen E).
      { apply lit_len in Hm. unfold left in Hm. destruct ic; [unfold to_lower in Hm; rewrite map_length in Hm|]; lia. }
      oinv Hr. cbv zeta.
      assert (Hw : ev (fun f => match e_word E with
                   | None => Ok true
                   | Some w =>
                     let* isw := is_word E (parse f) w lit in
                     if isw then not_word E (parse f) w (pos + List.length lit) else Ok true
                   end = Ok a)).
      { destruct (e_word E) as [w|] eqn:Ew; [|inv Hm0; now apply ev_all].
        oinv Hm0. eapply ev_bind; [eapply f_is_word; eauto|].
        destruct a0; [eapply f_not_word; eauto|inv Hm0; now apply ev_all]. }
      destruct a.
      - destruct (f_then E al wal sd m pos (List.length lit) vr x vs c HA Hr Hi Hl Hv) as (vs' & c' & A & B & Q).
        exists vs', c'. split; [|auto]. eapply ev_bind; [exact Hw|]. exact A.
      - inv Hr. destruct (Hfail eq_refl) as (vs' & c' & A & B & Q). exists vs', c'. split; [|auto].
        eapply ev_bind; [exact Hw|]. exact A.
    Qed.
    Lemma f_dic E al wal sd m t pos vr x vs c :
      okA E al wal -> ref_dic (ref k) E m t pos vr = Some x -> inv k E al sd m c -> pos <= inlen E ->
      vsrel E vs vr -> fin E al c x (fun f => parse_dic E (parse f) t pos vs c).
    Proof.
      intros HA Hr Hi Hp Hv. unfold ref_dic in Hr. unfold parse_dic, fail_at.
      pose proof (trie_match_len t (from (e_input E) pos)) as Hl. rewrite from_length in Hl.
      destruct (trie_match _ _) as [i id]. cbn [fst] in Hl. fold (inlen E) in Hl.
      destruct (i =? 0).
      { inv Hr. eapply fin_fail; [|reflexivity]. apply rp_error; [apply Hi|assumption]. }
      cbv zeta. oinv Hr.
      assert (Hw : ev (fun f => match e_word E with
                   | None => Ok true | Some w => not_word E (parse f) w (pos + i) end = Ok a)).
      { destruct (e_word E) as [w|] eqn:Ew; [|inv Hm; now apply ev_all]. eapply f_not_word; eauto. lia. }
      destruct a.
      - destruct (f_then E al wal sd m pos i _ x (set_choice (t_items_count t) match id with Some k => k | None => 0 end vs) c HA Hr Hi ltac:(lia)) as (vs' & c' & A & B & Q).
        { destruct Hv as [Hv| ->]; [now left|now right]. }
        exists vs', c'. split; [|auto]. eapply ev_bind; [exact Hw|]. exact A.
      - inv Hr. eexists _, _. split; [|split; [exact I|]].
        + eapply ev_bind; [exact Hw|]. apply ev_all. reflexivity.
        + apply rp_error; [apply Hi|assumption].
    Qed.
    Lemma f_cls E al wal sd m rs neg ic pos vr x vs c :
      okA E al wal -> ref_cls E rs neg ic pos vr = Some x -> inv k E al sd m c -> pos <= inlen E ->
      vsrel E vs vr -> fin E al c x (fun f => parse_cls E rs neg ic pos vs c).
    Proof.
      intros HA Hr Hi Hp Hv. unfold ref_cls in Hr. unfold parse_cls, fail_at.
      assert (Hf : rpost E al c (set_error_pos E pos None c)) by (apply rp_error; [apply Hi|assumption]).
      destruct (_ =? 0); [inv Hr; eapply fin_fail; eauto|].
      oinv Hr. destruct a as [len cp]. apply out_of_Some in Hm. rewrite Hm. cbn [bind].
      oinv Hr. apply out_of_Some in Hm0. rewrite Hm0. cbn [bind]. inv Hr. destruct (xorb _ _).
      - eapply fin_ok; [apply rpost_refl, Hi|eassumption|reflexivity].
      - eapply fin_fail; [exact Hf|reflexivity].
    Qed.
    Lemma f_chr E al wal sd m ch pos vr x vs c :
      okA E al wal -> ref_chr E ch pos vr = Some x -> inv k E al sd m c -> pos <= inlen E ->
      vsrel E vs vr -> fin E al c x (fun f => parse_chr E ch pos vs c).
    Proof.
      intros HA Hr Hi Hp Hv. unfold ref_chr in Hr. unfold parse_chr, fail_at.
      assert (Hf : rpost E al c (set_error_pos E pos None c)) by (apply rp_error; [apply Hi|assumption]).
      destruct (_ =? 0); [inv Hr; eapply fin_fail; eauto|].
      oinv Hr. destruct a as [len cp]. apply out_of_Some in Hm. rewrite Hm. cbn [bind]. inv Hr. destruct (_ =? _)%N.
      - eapply fin_ok; [apply rpost_refl, Hi|eassumption|reflexivity].
      - eapply fin_fail; [exact Hf|reflexivity].
    Qed.
    Lemma f_dot E al wal sd m pos vr x vs c :
      okA E al wal -> ref_dot E pos vr = Some x -> inv k E al sd m c -> pos <= inlen E ->
      vsrel E vs vr -> fin E al c x (fun f => parse_dot E pos vs c).
    Proof.
      intros HA Hr Hi Hp Hv. unfold ref_dot in Hr. unfold parse_dot, fail_at.
      assert (Hf : rpost E al c (set_error_pos E pos None c)) by (apply rp_error; [apply Hi|assumption]).
      oinv Hr. apply out_of_Some in Hm. rewrite Hm. cbn [bind]. inv Hr. destruct (_ <? _).
      - eapply fin_fail; [exact Hf|reflexivity].
      - eapply fin_ok; [apply rpost_refl, Hi|eassumption|reflexivity].
    Qed.

    (** Sub-expressions of the current expression. *)
    Definition subpre E (al : modes) (fr : fram) m (o : ope) c : Prop :=
      nopre o = true /\ chk E al m o /\ (mref (e_g E) o = true -> top_args c = snd fr /\ params_ok E c (fst fr)).
    Lemma subpre_frame E al fr m o c c' : frame c c' -> subpre E al fr m o c -> subpre E al fr m o c'.
    Proof.
      intros F (A & B & D). split; [assumption|]. split; [assumption|]. intros X. destruct (D X) as [D1 D2].
      split.
      - unfold top_args in *. now rewrite (f_args _ _ F).
      - unfold params_ok in *. now rewrite (f_rstk _ _ F).
    Qed.
    Lemma f_sub E al wal sd fr m o pos vr x vs c :
      okA E al wal -> ref k E sd fr m o pos vr = Some x -> subpre E al fr m o c -> seed_ok E sd -> fram_ok E al fr ->
      inv k E al sd m c -> pos <= inlen E -> vsrel E vs vr -> ran E al o pos vs c x.
    Proof. intros HA Hr (A & B & D) Hs Hf Hi Hp Hv. eapply IH; eauto. now apply chk_pre. Qed.

    Lemma f_seq_loop E al wal sd fr m l : okA E al wal -> seed_ok E sd -> fram_ok E al fr ->
      forall pos i vr x vs c, ref_seq (ref k E sd fr m) l pos i vr = Some x ->
      Forall (fun o => subpre E al fr m o c) l -> inv k E al sd m c -> pos + i <= inlen E -> vsrel E vs vr ->
      fin E al c x (fun f => seq_loop E (parse f) l pos i vs c).
    Proof.
      intros HA Hs Hf. induction l as [|o l IHl]; intros pos i vr x vs c Hr Hl Hi Hp Hv; cbn [ref_seq seq_loop] in *.
      - inv Hr. eapply fin_ok; [apply rpost_refl, Hi|eassumption|reflexivity].
      - oinv Hr. inv Hl. destruct (f_sub E al wal sd fr m o (pos + i) vr a vs c) as (vs' & c' & A & B & Q & _ & P); auto.
        destruct a as [[n v]|].
        + destruct (IHl pos (i + n) v x vs' c' Hr) as (vs2 & c2 & A2 & B2 & Q2).
          * eapply Forall_impl; [|eassumption]. intros o' Ho. eapply subpre_frame; [apply Q|exact Ho].
          * eapply inv_post; eauto.
          * specialize (P n eq_refl). lia.
          * exact B.
          * exists vs2, c2. split; [|split; [exact B2|eapply rpost_trans; eauto]].
            eapply ev_bind; [exact A|exact A2].
        + inv Hr. exists vs', c'. split; [|auto]. eapply ev_bind; [exact A|]. now apply ev_all.
    Qed.
    Lemma kg_run E al wal sd m kw pos n vr x vs c :
      okA E al wal -> inv k E al sd m c -> pos <= inlen E -> vsrel E vs vr ->
      match kg_out E kw pos with
      | KFail => x = None
      | KGo n' => n' = n /\ ref_then (ref k) E m pos n (push_tok (pos, n) vr) = Some x
      | _ => False
      end ->
      exists vs' c', ev (fun f => parse_keyword_guarded E (parse f) kw pos vs c = Ok (Some (len_of x, vs', c')))
        /\ vsok E x vs' /\ rpost E al c c'.
    Proof.
      intros HA Hi Hp Hv H. unfold kg_out in H. unfold parse_keyword_guarded. cbv zeta.
      assert (Hf : rpost E al c (set_error_pos E pos None c)) by (apply rp_error; [apply Hi|assumption]).
      assert (Hfail : x = None -> exists vs' c', ev (fun f : nat => Ok (Some (None, vs, set_error_pos E pos None c)) = Ok (Some (len_of x, vs', c')))
        /\ vsok E x vs' /\ rpost E al c c').
      { intros ->. exists vs, (set_error_pos E pos None c). split; [now apply ev_all|]. split; [exact I|exact Hf]. }
      destruct (left E pos <? 1) eqn:Hlp; [now apply Hfail|]. apply Nat.ltb_ge in Hlp. unfold left in Hlp.
      destruct (rd (e_input E) pos) as [b| | |] eqn:Hrd; try contradiction. cbn [bind].
      destruct (btest (kg_first kw) b); [|now apply Hfail].
      destruct (scan_while _ _ _ _) as [j| | |] eqn:Hsc; try contradiction. cbn [bind].
      assert (Hj : pos + S j <= inlen E).
      { pose proof (safe_scan (kg_rest kw) (e_input E) (left E pos - 1) (pos + 1)) as Hs.
        rewrite Hsc in Hs. unfold left, inlen in *. cbn in Hs. lia. }
      assert (Hgo : S j = n /\ ref_then (ref k) E m pos n (push_tok (pos, n) vr) = Some x ->
        exists vs' c', ev (fun f : nat => (let* r := then_skip E (parse f) pos (S j)
             (if e_recog E then vs else push_tok (pos, S j) vs) c in Ok (Some r)) = Ok (Some (len_of x, vs', c')))
        /\ vsok E x vs' /\ rpost E al c c').
      { intros [<- Ht].
        destruct (f_then E al wal sd m pos (S j) _ x (if e_recog E then vs else push_tok (pos, S j) vs) c HA Ht Hi Hj)
          as (vs' & c' & A & B & Q).
        - destruct (e_recog E) eqn:Her; [now left; left|]. destruct Hv as [Hv| ->]; [now left|now right].
        - exists vs', c'. split; [|auto]. eapply ev_bind; [exact A|]. now apply ev_all. }
      destruct (_ && _); [|now apply Hgo].
      destruct (existsb _ (kg_exact kw)); [now apply Hfail|].
      destruct (existsb _ (kg_prefix kw)); [contradiction|now apply Hgo].
    Qed.
    Lemma kg_fall E rec kw pos vs c : kg_out E kw pos = KFall ->
      parse_keyword_guarded E rec kw pos vs c = Ok None.
    Proof.
      unfold kg_out, parse_keyword_guarded. cbv zeta. destruct (_ <? 1); [discriminate|].
      destruct (rd (e_input E) pos); try discriminate. cbn [bind]. destruct (btest _ _); [|discriminate].
      destruct (scan_while _ _ _ _); try discriminate. cbn [bind]. destruct (_ && _); [|discriminate].
      destruct (existsb _ (kg_exact kw)); [discriminate|]. destruct (existsb _ (kg_prefix kw)); [reflexivity|discriminate].
    Qed.
    Lemma f_seq E al wal sd fr m kg l pos vr x vs c : okA E al wal -> seed_ok E sd -> fram_ok E al fr ->
      ref_seq (ref k E sd fr m) l pos 0 vr = Some x -> ann_seq E kg l ->
      Forall (fun o => subpre E al fr m o c) l -> inv k E al sd m c -> pos <= inlen E -> vsrel E vs vr ->
      fin E al c x (fun f => parse_seq E (parse f) kg l pos vs c).
    Proof.
      intros HA Hs Hf Hr Ha Hl Hi Hp Hv. unfold parse_seq.
      assert (H0 : fin E al c x (fun f => seq_loop E (parse f) l pos 0 vs c))
        by (eapply f_seq_loop; eauto; lia).
      destruct kg as [kw|]; [|exact H0]. cbn in Ha. specialize (Ha k sd fr m pos vr x Hs Hp Hr).
      destruct (kg_out E kw pos) as [|n| |] eqn:Hk; [| | |contradiction].
      - destruct (kg_run E al wal sd m kw pos 0 vr x vs c) as (vs' & c' & A & B & Q); auto.
        { now rewrite Hk. }
        exists vs', c'. split; [|auto]. eapply ev_bind; [exact A|]. now apply ev_all.
      - destruct (kg_run E al wal sd m kw pos n vr x vs c) as (vs' & c' & A & B & Q); auto.
        { rewrite Hk. auto. }
        exists vs', c'. split; [|auto]. eapply ev_bind; [exact A|]. now apply ev_all.
      - eapply fin_ext; [|exact H0]. intros f. cbn. now rewrite (kg_fall E (parse f) kw pos vs c Hk).
    Qed.

    Lemma rp_fs_error E al fs id pos c : inb E c -> pos <= inlen E -> rpost E al c (fs_error fs id pos c).
    Proof.
      intros Hi Hp. pose proof (step_inb _ _ _ (step_fs_error E fs id pos c Hi Hp)) as H.
      revert H. unfold fs_error. destruct (nth_error fs id) as [f|]; [|intros; now apply rpost_refl].
      destruct (fs_first_literal f) as [l|], (fs_first_rule f) as [r|];
        try (intros; now apply rpost_refl); (destruct (_ && _); [|intros; now apply rpost_refl]);
        cbv zeta; apply rp_err.
    Qed.
    Lemma rp_cut_false E al c : inb E c -> rpost E al c (set_cut_top false c).
    Proof.
      intros Hi. unfold set_cut_top. destruct (c_cut c) eqn:Hc; [now apply rpost_refl|].
      apply rpost_same; auto; try (now apply inb_same with c); [|discriminate].
      pose proof (frame_cut_top false c) as Hf. unfold set_cut_top in Hf. now rewrite Hc in Hf.
    Qed.
    Lemma cut_top_false c : cut_top (set_cut_top false c) = false.
    Proof. unfold cut_top, set_cut_top. destruct (c_cut c) eqn:H; [now rewrite H|reflexivity]. Qed.

    Lemma f_cho_loop E al wal sd fr m fs total lall : okA E al wal -> seed_ok E sd -> fram_ok E al fr ->
      ann_cho E fs lall -> forall l id, (forall i o, nth_error l i = Some o -> nth_error lall (id + i) = Some o) ->
      forall pos vr x vs c, ref_cho (ref k E sd fr m) total l id pos vr = Some x ->
      Forall (fun o => subpre E al fr m o c) l -> inv k E al sd m c -> pos <= inlen E -> vsrel E vs vr ->
      fin E al c x (fun f => cho_loop E (parse f) fs total l id pos vs c).
    Proof.
      intros HA Hs Hf Han. induction l as [|o l IHl]; intros id Hn pos vr x vs c Hr Hl Hi Hp Hv;
        cbn [ref_cho cho_loop] in *.
      - inv Hr. eapply fin_fail; [apply rpost_refl, Hi|reflexivity].
      - assert (Hn' : forall i o, nth_error l i = Some o -> nth_error lall (S id + i) = Some o).
        { intros i o' Ho. replace (S id + i) with (id + S i) by lia. now apply Hn. }
        oinv Hr. inversion Hl as [|? ? Ho Hl']; subst.
        assert (Hsk : exists b, fs_skip E fs id pos = Ok b /\ (b = true -> a = None)).
        { assert (Hb : exists b, fs_skip E fs id pos = Ok b).
          { unfold fs_skip. destruct (left E pos =? 0) eqn:Hl0; [eauto|]. apply Nat.eqb_neq in Hl0.
            destruct (nth_error fs id); [|eauto]. destruct (_ || _); [eauto|].
            unfold rd. destruct (nth_error (e_input E) pos) eqn:Hne; [cbn; eauto|].
            apply nth_error_None in Hne. unfold left, inlen in *. lia. }
          destruct Hb as [b Hb]. exists b. split; [assumption|]. intros ->.
          eapply Han; [|exact Hp|exact Hb|exact Hs|exact Hm]. specialize (Hn 0 o eq_refl). now rewrite Nat.add_0_r in Hn. }
        destruct Hsk as (b & Hb & Hbn). rewrite Hb. cbn [bind]. destruct b.
        + rewrite (Hbn eq_refl) in Hr.
          assert (Q : rpost E al c (fs_error fs id pos c)) by (apply rp_fs_error; [apply Hi|assumption]).
          eapply fin_post; [exact Q|]. eapply IHl; eauto.
          * eapply Forall_impl; [|exact Hl']. intros o' Ho'. eapply subpre_frame; [apply Q|exact Ho'].
          * eapply inv_post; eauto.
        + cbv zeta. set (c1 := if e_has_cut E then set_cut_top false c else c).
          set (c2 := set_err (err_keep (0 <? id) (c_err c1)) c1).
          assert (Q1 : rpost E al c c1).
          { unfold c1. destruct (e_has_cut E); [apply rp_cut_false|apply rpost_refl]; apply Hi. }
          assert (Q2 : rpost E al c c2).
          { eapply rpost_trans; [exact Q1|]. apply rp_err. eapply step_inb, step_keep. apply Q1. }
          destruct (f_sub E al wal sd fr m o pos vr a vs c2) as (vs' & c' & A & B & Q & X & _); auto.
          { eapply subpre_frame; [apply Q2|exact Ho]. }
          { eapply inv_post; eauto. }
          destruct a as [[n v]|].
          * inv Hr. exists (set_choice total id vs'), c'. split; [|split; [|eapply rpost_trans; eauto]].
            -- eapply ev_bind; [exact A|]. now apply ev_all.
            -- destruct B as [B| ->]; [now left|now right].
          * assert (Q3 : rpost E al c2 (rollback_c c2 c')) by now apply rp_rollback.
            assert (Hct : e_has_cut E && cut_top (rollback_c c2 c') = false).
            { destruct (e_has_cut E) eqn:Hhc; [|reflexivity]. cbn [andb].
              destruct (cut_top (rollback_c c2 c')) eqn:Hct; [|reflexivity].
              apply Q3 in Hct. unfold c2, c1 in Hct.
              change (cut_top (set_cut_top false c) = true) in Hct. now rewrite cut_top_false in Hct. }
            destruct (IHl (S id) Hn' pos vr x (rollback_vs vs vs') (rollback_c c2 c') Hr) as (vs2 & c3 & A2 & B2 & Q4).
            -- eapply Forall_impl; [|exact Hl']. intros o' Ho'. eapply subpre_frame; [apply Q3|].
               eapply subpre_frame; [apply Q2|exact Ho'].
            -- eapply inv_post; [|exact Q3]. eapply inv_post; eauto.
            -- assumption.
            -- now apply vsrel_rollback.
            -- exists vs2, c3. split; [|split; [exact B2|]].
               ++ eapply ev_bind; [exact A|]. cbv beta iota zeta. cbn [len_of]. rewrite Hct. exact A2.
               ++ eapply rpost_trans; [exact Q2|]. eapply rpost_trans; eauto.
    Qed.
    Lemma f_cho E al wal sd fr m fl fs l pos vr x vs c : okA E al wal -> seed_ok E sd -> fram_ok E al fr ->
      ref_cho (ref k E sd fr m) (List.length l) l 0 pos vr = Some x -> ann_cho E fs l ->
      Forall (fun o => subpre E al fr m o c) l -> inv k E al sd m c -> pos <= inlen E -> vsrel E vs vr ->
      fin E al c x (fun f => parse_cho E (parse f) fl fs l pos vs c).
    Proof.
      intros HA Hs Hf Hr Han Hl Hi Hp Hv. unfold parse_cho. cbv zeta.
      destruct (e_has_cut E && negb fl) eqn:Htr.
      - set (c1 := set_cut (false :: c_cut c) c).
        destruct (f_cho_loop E al wal sd fr m fs (List.length l) l HA Hs Hf Han l 0 ltac:(auto) pos vr x vs c1 Hr)
          as (vs' & c' & A & B & Q); auto.
        { eapply inv_same; [exact Hi|..]; try reflexivity; [now apply inb_same with c; auto; apply Hi|apply Hi]. }
        eexists vs', _. split; [|split; [exact B|]].
        + eapply ev_bind; [exact A|]. apply ev_all. reflexivity.
        + assert (Hcut : tl (c_cut c') = c_cut c) by (pose proof (f_cut _ _ (q_frame _ _ _ _ Q)); assumption).
          destruct Q as [F Hin Hrc Hlr Hpk Hap Hac Hse Hcu]. constructor; auto.
          * destruct F. constructor; csimpl; auto; now rewrite Hcut.
          * apply inb_same with (set_err (err_keep false (c_err c')) c'); auto.
            eapply step_inb, step_keep, Hin.
          * unfold cut_top. csimpl. now rewrite Hcut.
      - destruct (f_cho_loop E al wal sd fr m fs (List.length l) l HA Hs Hf Han l 0 ltac:(auto) pos vr x vs c Hr)
          as (vs' & c' & A & B & Q); auto.
        eexists vs', _. split; [|split; [exact B|]].
        + eapply ev_bind; [exact A|]. apply ev_all. reflexivity.
        + eapply rpost_trans; [exact Q|]. apply rp_err. eapply step_inb, step_keep. apply Q.
    Qed.

    Lemma f_min E al wal sd fr m e n : okA E al wal -> seed_ok E sd -> fram_ok E al fr ->
      forall pos i vr x vs c, ref_min (ref k E sd fr m e) n pos i vr = Some x ->
      subpre E al fr m e c -> inv k E al sd m c -> pos + i <= inlen E -> vsrel E vs vr ->
      fin E al c x (fun f => rep_min E (parse f) e n pos i vs c) /\ (forall j v, x = Some (j, v) -> pos + j <= inlen E).
    Proof.
      intros HA Hs Hf. induction n as [|n IHn]; intros pos i vr x vs c Hr Hl Hi Hp Hv; cbn [ref_min rep_min] in *.
      - inv Hr. split; [|intros j v Hj; inv Hj; assumption]. eapply fin_ok; [apply rpost_refl, Hi|eassumption|reflexivity].
      - oinv Hr. destruct (f_sub E al wal sd fr m e (pos + i) vr a vs c) as (vs' & c' & A & B & Q & _ & P); auto.
        destruct a as [[j v]|].
        + destruct (IHn pos (i + j) v x vs' c' Hr) as [(vs2 & c2 & A2 & B2 & Q2) Hb].
          * eapply subpre_frame; [apply Q|exact Hl].
          * eapply inv_post; eauto.
          * specialize (P j eq_refl). lia.
          * exact B.
          * split; [|exact Hb]. exists vs2, c2. split; [|split; [exact B2|eapply rpost_trans; eauto]].
            eapply ev_bind; [exact A|exact A2].
        + inv Hr. split; [|discriminate]. exists vs', c'. split; [|auto]. eapply ev_bind; [exact A|]. now apply ev_all.
    Qed.
    Lemma f_more E al wal sd fr m e fuel : okA E al wal -> seed_ok E sd -> fram_ok E al fr ->
      forall room pos i vr x vs c, ref_more fuel (ref k E sd fr m e) room pos i vr = Some x ->
      subpre E al fr m e c -> inv k E al sd m c -> pos + i <= inlen E -> vsrel E vs vr ->
      fin E al c x (fun f => rep_more f E (parse f) e room pos i vs c).
    Proof.
      intros HA Hs Hf. induction fuel as [|fuel IHn]; intros room pos i vr x vs c Hr Hl Hi Hp Hv; cbn [ref_more] in Hr.
      - destruct room as [[|n]|]; try discriminate. inv Hr. eapply fin_ok; eauto; [apply rpost_refl, Hi|].
        intros [|f]; reflexivity.
      - assert (Hmain : (let? r := ref k E sd fr m e (pos + i) vr in
                 match r with
                 | Some (k', vs') => ref_more fuel (ref k E sd fr m e) (option_map pred room) pos (i + k') vs'
                 | None => Some (Some (i, vr))
                 end) = Some x -> room <> Some 0 ->
                 fin E al c x (fun f => rep_more f E (parse f) e room pos i vs c)); [|destruct room as [[|n]|]].
        2: { inv Hr. eapply fin_ok; eauto; [apply rpost_refl, Hi|]. intros [|f]; reflexivity. }
        2, 3: apply Hmain; [exact Hr|discriminate].
        clear Hr. intros Hr Hroom. oinv Hr.
        destruct (f_sub E al wal sd fr m e (pos + i) vr a vs c) as (vs' & c' & A & B & Q & X & P); auto.
        assert (Hun : forall f, rep_more (S f) E (parse (S f)) e room pos i vs c =
          (let* (r, vs', c') := parse (S f) E e (pos + i) vs c in
           match r with
           | None => Ok (Some i, rollback_vs vs vs', rollback_c c c')
           | Some len => rep_more f E (parse (S f)) e (option_map pred room) pos (i + len) vs' c'
           end)).
        { intros f. destruct room as [[|]|]; try reflexivity. congruence. }
        destruct a as [[j v]|].
        + destruct (IHn (option_map pred room) pos (i + j) v x vs' c' Hr) as (vs2 & c2 & A2 & B2 & Q2).
          * eapply subpre_frame; [apply Q|exact Hl].
          * eapply inv_post; eauto.
          * specialize (P j eq_refl). lia.
          * exact B.
          * exists vs2, c2. split; [|split; [exact B2|eapply rpost_trans; eauto]].
            destruct A as [FA A], A2 as [FB A2]. exists (S (FA + FB)). intros [|f] Hff; [lia|].
            rewrite Hun. rewrite A by lia. cbn [bind len_of].
            assert (A3 : rep_more f E (parse f) e (option_map Nat.pred room) pos (i + j) vs' c' = Ok (len_of x, vs2, c2))
              by (apply A2; lia).
            eapply below_Ok; [|exact A3]. apply b_rep_more; [|lia]. intros. apply parse_below. lia.
        + inv Hr. exists (rollback_vs vs vs'), (rollback_c c c'). split; [|split; [now apply vsrel_rollback|now apply rp_rollback]].
          destruct A as [FA A]. exists (S FA). intros [|f] Hff; [lia|]. rewrite Hun. rewrite A by lia. reflexivity.
    Qed.
    Lemma f_rep fuel E al wal sd fr m e mn mx sp pos vr x vs c : fuel <= k ->
      okA E al wal -> seed_ok E sd -> fram_ok E al fr ->
      ref_rep fuel (ref k E sd fr m e) mn mx pos vr = Some x -> ann_rep E e mn mx sp ->
      subpre E al fr m e c -> inv k E al sd m c -> pos <= inlen E -> vsrel E vs vr ->
      fin E al c x (fun f => parse_rep f E (parse f) e mn mx sp pos vs c).
    Proof.
      intros Hfk HA Hs Hf Hr Han Hl Hi Hp Hv. unfold parse_rep. destruct sp as [s|].
      - unfold ann_rep in Han. assert (Hr' : ref_rep k (ref k E sd fr m e) mn mx pos vr = Some x).
        { eapply sub_Some; [|exact Hr]. apply s_rep; [intros; apply sub_refl|assumption]. }
        destruct (Han k sd fr m pos vr x Hs Hp Hr') as (i & Hsc & ->). fold (span_limit E mx pos).
        cbv zeta. rewrite Hsc. cbn [bind]. destruct (i <? mn) eqn:Hlt.
        + eapply fin_fail; [|reflexivity]. apply rp_error; [apply Hi|].
          pose proof (safe_scan s (e_input E) (span_limit E mx pos) pos) as Hsa. rewrite Hsc in Hsa. cbn in Hsa.
          assert (span_limit E mx pos <= left E pos) by (unfold span_limit; destruct mx; lia).
          unfold left, inlen in *. lia.
        + eapply fin_ok; [apply rpost_refl, Hi|eassumption|reflexivity].
      - unfold ref_rep in Hr. oinv Hr.
        destruct (f_min E al wal sd fr m e mn HA Hs Hf pos 0 vr a vs c Hm Hl Hi ltac:(lia) Hv) as [(vs' & c' & A & B & Q) Hb].
        destruct a as [[i v]|].
        + assert (Hmore : forall room, ref_more fuel (ref k E sd fr m e) room pos i v = Some x ->
            fin E al c x (fun f => rep_more f E (parse f) e room pos i vs' c')).
          { intros room Hroom. eapply fin_post; [exact Q|]. eapply f_more; eauto.
            - eapply subpre_frame; [apply Q|exact Hl].
            - eapply inv_post; eauto. }
          destruct mx as [mx|].
          * destruct (mn <? mx).
            -- destruct (Hmore _ Hr) as (vs2 & c2 & A2 & B2 & Q2). exists vs2, c2. split; [|auto]. eapply ev_bind; eauto.
            -- inv Hr. exists vs', c'. split; [|auto]. eapply ev_bind; [exact A|]. now apply ev_all.
          * destruct (Hmore _ Hr) as (vs2 & c2 & A2 & B2 & Q2). exists vs2, c2. split; [|auto]. eapply ev_bind; eauto.
        + inv Hr. exists vs', c'. split; [|auto]. eapply ev_bind; [exact A|]. now apply ev_all.
    Qed.

    (** Changes around a sub-parse that touch no memo table. *)
    Lemma rpost_wrap E al c c1 c2 c3 : rpost E al c1 c2 -> frame c c3 ->
      c_rcv c1 = c_rcv c -> c_lrm c1 = c_lrm c -> c_pkr c1 = c_pkr c -> c_pkv c1 = c_pkv c ->
      c_actp c1 = c_actp c -> c_acts c1 = c_acts c -> c_cut c1 = c_cut c ->
      c_rcv c3 = c_rcv c2 -> c_lrm c3 = c_lrm c2 -> c_pkr c3 = c_pkr c2 -> c_pkv c3 = c_pkv c2 ->
      c_actp c3 = c_actp c2 -> c_acts c3 = c_acts c2 -> c_cut c3 = c_cut c2 -> c_err c3 = c_err c2 -> c_out c3 = c_out c2 ->
      c_dt c1 = c_dt c -> c_dt c3 = c_dt c2 -> rpost E al c c3.
    Proof.
      intros [] F A1 A2 A3 A4 A5 A6 A7 B1 B2 B3 B4 B5 B6 B7 B8 B9 C1 C2.
      unfold cut_top in *. constructor; auto; try congruence.
      - now apply inb_same with c2.
      - intros r p l v. rewrite B2, <- A2. auto.
      - intros Hp r s p l. rewrite B3, B4, <- A3, <- A4. auto.
      - intros r p. rewrite B2, <- A2, <- A6. auto.
      - unfold cut_top. rewrite B7, <- A7. auto.
      - intros D HK H. rewrite C2. apply (q_dt D HK). now rewrite C1.
    Qed.

    Lemma f_and E al wal sd fr m e pos vr x vs c :
      okA E al wal -> seed_ok E sd -> fram_ok E al fr ->
      (let? r := ref k E sd fr m e pos vr in Some (match r with Some _ => Some (0, vr) | None => None end)) = Some x ->
      subpre E al fr m e c -> inv k E al sd m c -> pos <= inlen E -> vsrel E vs vr ->
      fin E al c x (fun f => parse_and E (parse f) e pos vs c).
    Proof.
      intros HA Hs Hf Hr Hl Hi Hp Hv. oinv Hr. inv Hr.
      destruct (f_sub E al wal sd fr m e pos vr a vs c) as (vs' & c' & A & B & Q & X & _); auto.
      exists (rollback_vs vs vs'), (rollback_c c c'). split; [|split; [|now apply rp_rollback]].
      - eapply ev_bind; [exact A|]. apply ev_all. intros f. destruct a as [[? ?]|]; reflexivity.
      - destruct a as [[? ?]|]; [now apply vsrel_rollback|exact I].
    Qed.
    Lemma f_not E al wal sd fr m e pos vr x vs c :
      okA E al wal -> seed_ok E sd -> fram_ok E al fr ->
      (let? r := ref k E sd fr m e pos vr in Some (match r with Some _ => None | None => Some (0, vr) end)) = Some x ->
      subpre E al fr m e c -> inv k E al sd m c -> pos <= inlen E -> vsrel E vs vr ->
      fin E al c x (fun f => parse_not E (parse f) e pos vs c).
    Proof.
      intros HA Hs Hf Hr Hl Hi Hp Hv. oinv Hr. inv Hr.
      destruct (f_sub E al wal sd fr m e pos vr a vs c) as (vs' & c' & A & B & Q & X & _); auto.
      assert (Q' : rpost E al c (rollback_c c c')) by now apply rp_rollback.
      destruct a as [[? ?]|].
      - eexists _, _. split; [|split; [exact I|]].
        + eapply ev_bind; [exact A|]. apply ev_all. reflexivity.
        + eapply rpost_trans; [exact Q'|]. apply rp_error; [apply Q'|assumption].
      - eexists _, _. split; [|split; [|exact Q']].
        + eapply ev_bind; [exact A|]. apply ev_all. reflexivity.
        + now apply vsrel_rollback.
    Qed.
    Lemma f_csc E al wal sd fr m e pos vr x vs c :
      okA E al wal -> seed_ok E sd -> fram_ok E al fr -> ref k E sd fr m e pos vr = Some x ->
      subpre E al fr m e c -> inv k E al sd m c -> pos <= inlen E -> vsrel E vs vr ->
      fin E al c x (fun f => parse_csc E (parse f) e pos vs c).
    Proof.
      intros HA Hs Hf Hr Hl Hi Hp Hv.
      destruct (f_sub E al wal sd fr m e pos vr x vs c) as (vs' & c' & A & B & Q & X & _); auto.
      exists vs', (rollback_c c c'). split; [|split; [exact B|now apply rp_rollback]].
      eapply ev_bind; [exact A|]. now apply ev_all.
    Qed.
    Lemma f_cap E al wal sd fr m n e pos vr x vs c :
      okA E al wal -> seed_ok E sd -> fram_ok E al fr -> ref k E sd fr m e pos vr = Some x ->
      subpre E al fr m e c -> inv k E al sd m c -> pos <= inlen E -> vsrel E vs vr ->
      fin E al c x (fun f => parse_cap E (parse f) n e pos vs c).
    Proof.
      intros HA Hs Hf Hr Hl Hi Hp Hv.
      destruct (f_sub E al wal sd fr m e pos vr x vs c) as (vs' & c' & A & B & Q & X & _); auto.
      destruct x as [[len v]|].
      - eexists vs', _. split; [|split; [exact B|]].
        + eapply ev_bind; [exact A|]. apply ev_all. reflexivity.
        + eapply rpost_wrap; [exact Q|..]; try reflexivity.
          destruct (q_frame _ _ _ _ Q). constructor; auto. csimpl.
          eapply prefix_trans; [eassumption|]. now exists [(n, sub (e_input E) pos len)].
      - eexists vs', _. split; [|split; [exact B|exact Q]]. eapply ev_bind; [exact A|]. now apply ev_all.
    Qed.
    Lemma inv_mode j E al sd m m' c c' : inv j E al sd m c ->
      (e_ws E <> None -> (0 <? c_tb c') = m_tok m') -> c_inws c' = m_ws m' ->
      c_rcv c' = c_rcv c -> c_prec c' = c_prec c -> c_args c' = c_args c ->
      c_lrm c' = c_lrm c -> c_pkr c' = c_pkr c -> c_pkv c' = c_pkv c -> c_err c' = c_err c ->
      c_actp c' = c_actp c -> c_acts c' = c_acts c -> c_out c' = c_out c -> inv j E al sd m' c'.
    Proof.
      intros Hi H1 H2 H3 H4 H5 H6 H7 H8 H9 H10 H11 H12.
      constructor; unfold wrapped; rewrite ?H3, ?H4, ?H6, ?H7, ?H8, ?H10, ?H11; try apply Hi; try assumption.
      - apply inb_same with c; auto. apply Hi.
      - unfold okargs. rewrite H5. apply Hi.
    Qed.
    Lemma tok_mode_tb E m n : e_ws E <> None -> (0 <? S n) = m_tok (tok_mode E m).
    Proof. unfold tok_mode. destruct (e_ws E); [reflexivity|congruence]. Qed.
    Lemma tok_mode_ws E m : m_ws (tok_mode E m) = m_ws m.
    Proof. unfold tok_mode. destruct (e_ws E); reflexivity. Qed.
    Lemma f_tok E al wal sd fr m e pos vr x vs c :
      okA E al wal -> seed_ok E sd -> fram_ok E al fr ->
      (let? r := ref k E sd fr (tok_mode E m) e pos vr in
               match r with
               | None => Some None
               | Some (n, vs') => ref_then (ref k) E m pos n (push_tok (pos, n) vs')
               end) = Some x ->
      subpre E al fr (tok_mode E m) e c -> inv k E al sd m c -> pos <= inlen E -> vsrel E vs vr ->
      fin E al c x (fun f => parse_tok E (parse f) e pos vs c).
    Proof.
      intros HA Hs Hf Hr Hl Hi Hp Hv. oinv Hr. unfold parse_tok. cbv zeta.
      set (c1 := set_tb (S (c_tb c)) (set_ign (negb (e_verbose E)) c)).
      destruct (f_sub E al wal sd fr (tok_mode E m) e pos vr a vs c1) as (vs' & c' & A & B & Q & X & P); auto.
      { eapply inv_mode; [exact Hi|..]; try reflexivity; [now apply tok_mode_tb|rewrite tok_mode_ws; apply Hi]. }
      assert (F : frame c (set_ign (c_ign c) (set_tb (Nat.pred (c_tb c')) c'))).
      { destruct (q_frame _ _ _ _ Q). constructor; csimpl; auto. now rewrite f_tb. }
      assert (Q1 : rpost E al c (set_ign (c_ign c) (set_tb (Nat.pred (c_tb c')) c'))).
      { eapply rpost_wrap; [exact Q|exact F|..]; reflexivity. }
      destruct a as [[n v]|].
      - destruct (f_then E al wal sd m pos n _ x (if e_recog E then vs' else push_tok (pos, n) vs')
                   (set_tb (Nat.pred (c_tb c')) c') HA Hr) as (vs2 & c2 & A2 & B2 & Q2).
        + eapply inv_mode; [eapply inv_post; [exact Hi|exact Q1]|..]; try reflexivity.
          * intros Hw. pose proof (f_tb _ _ F) as Htb. change (c_tb (set_tb (Nat.pred (c_tb c')) c') = c_tb c) in Htb.
            rewrite Htb. now apply Hi.
          * rewrite <- (i_inws _ _ _ _ _ _ Hi). exact (f_inws _ _ F).
        + specialize (P n eq_refl). lia.
        + destruct (e_recog E) eqn:Her; [now left; left|]. destruct B as [B|B]; [now left|right; now rewrite B].
        + exists vs2, (set_ign (c_ign c) c2). split; [|split; [exact B2|]].
          * eapply ev_bind; [exact A|]. cbv beta iota. cbn [len_of]. eapply ev_bind; [exact A2|]. now apply ev_all.
          * eapply rpost_trans; [exact Q1|]. eapply rpost_wrap; [exact Q2|..]; try reflexivity.
            destruct (q_frame _ _ _ _ Q2). constructor; auto.
      - inv Hr. eexists vs', _. split; [|split; [exact I|exact Q1]].
        eapply ev_bind; [exact A|]. now apply ev_all.
    Qed.
    Lemma f_ign E al wal sd fr m e pos vr x vs c :
      okA E al wal -> seed_ok E sd -> fram_ok E al fr ->
      (let? r := ref k E sd fr m e pos sv_new in
               Some (match r with Some (n, _) => Some (n, vr) | None => None end)) = Some x ->
      subpre E al fr m e c -> inv k E al sd m c -> pos <= inlen E -> vsrel E vs vr ->
      fin E al c x (fun f => parse_ign E (parse f) e pos vs c).
    Proof.
      intros HA Hs Hf Hr Hl Hi Hp Hv. oinv Hr. inv Hr.
      destruct (f_sub E al wal sd fr m e pos sv_new a sv_new c) as (vs' & c' & A & B & Q & X & _); auto.
      { apply vsrel_refl. }
      exists vs, c'. split; [|split; [|exact Q]].
      - eapply ev_bind; [exact A|]. apply ev_all. intros f. destruct a as [[? ?]|]; reflexivity.
      - destruct a as [[? ?]|]; [exact Hv|exact I].
    Qed.
    Lemma f_wsp E al wal sd fr m e pos vr x vs c :
      okA E al wal -> seed_ok E sd -> fram_ok E al fr ->
      (if m_ws m then Some (Some (0, vr))
               else ref k E sd fr {| m_tok := m_tok m; m_ws := true |} e pos vr) = Some x ->
      (m_ws m = true \/ subpre E al fr {| m_tok := m_tok m; m_ws := true |} e c) ->
      inv k E al sd m c -> pos <= inlen E -> vsrel E vs vr ->
      fin E al c x (fun f => parse_wsp E (parse f) e pos vs c).
    Proof.
      intros HA Hs Hf Hr Hl Hi Hp Hv. unfold parse_wsp. rewrite (i_inws _ _ _ _ _ _ Hi).
      destruct (m_ws m) eqn:Hm.
      - inv Hr. eapply fin_ok; [apply rpost_refl, Hi|eassumption|reflexivity].
      - destruct Hl as [Hl|Hl]; [discriminate|]. set (c1 := set_inws true c).
        destruct (f_sub E al wal sd fr {| m_tok := m_tok m; m_ws := true |} e pos vr x vs c1) as (vs' & c' & A & B & Q & X & P); auto.
        { eapply inv_mode; [exact Hi|..]; try reflexivity. apply Hi. }
        exists vs', (set_inws false c'). split; [|split; [exact B|]].
        + eapply ev_bind; [exact A|]. now apply ev_all.
        + eapply rpost_wrap; [exact Q|..]; try reflexivity.
          pose proof (i_inws _ _ _ _ _ _ Hi) as Hw. rewrite Hm in Hw.
          destruct (q_frame _ _ _ _ Q). constructor; auto.
    Qed.
  End Step.
End Ops.
