(** * The engine computes the reference semantics: left recursion, references and
    the main theorem. *)
From Verif Require Import Base BaseLemmas Utf8 Utf8Proofs Escape TrieM LineInfo Ope Ctx ErrLog Engine EngineLemmas Frame Scope Bounds Mono RefSem RefMono Refine RefineOps RefineRule RefinePrec.

Section Main.
  Context {V U : Type} {kp : keepvals}.
  Notation env := (env V U).
  Notation ctx := (ctx V U).
  Notation sv := (sv V).
  Implicit Types (E : env) (c : ctx) (vs : sv) (m : mode) (sd : seed V) (al wal : modes).

  (** [rpost] except for the table entry of a rule being grown. *)
  Record lpost E al (key : lrkey) c c' : Prop := {
    l_frame : frame c c';
    l_inb : inb E c';
    l_rcv : c_rcv c' = c_rcv c;
    l_lrm : forall r p l v, (r, p) <> key -> lr_find (c_lrm c') (r, p) = Some (l, v) ->
      lr_find (c_lrm c) (r, p) = Some (l, v) \/ (valid E al r p l v /\ is_lr E r);
    l_pkr : e_packrat E = true -> forall r s p l, e_slot E r = Some s ->
      nfind (c_pkr c') (pk_idx E s p) = Some l ->
      (nfind (c_pkr c) (pk_idx E s p) = Some l
       /\ nfind (c_pkv c') (pk_idx E s p) = nfind (c_pkv c) (pk_idx E s p))
      \/ valid E al r p l (nfind (c_pkv c') (pk_idx E s p));
    l_actp : forall r, nfind (c_actp c') r = nfind (c_actp c) r;
    l_acts : c_acts c' = c_acts c;
    l_seed : forall r p, (r, p) <> key -> In (r, p) (c_acts c) -> lr_find (c_lrm c') (r, p) = lr_find (c_lrm c) (r, p);
    l_cut : cut_top c' = true -> cut_top c = true;
    l_dt : forall D, keeps E al D -> D (c_dt c) -> D (c_dt c')
  }.
  Lemma lpost_r E al key c c' : rpost E al c c' -> lpost E al key c c'.
  Proof. intros []. constructor; auto. Qed.
  Lemma lpost_trans E al key x y z : lpost E al key x y -> lpost E al key y z -> lpost E al key x z.
  Proof.
    intros H1 H2. constructor.
    - eapply frame_trans; [apply H1|apply H2].
    - apply H2.
    - rewrite (l_rcv _ _ _ _ _ H2). apply H1.
    - intros r p l v Hk H. apply H2 in H as [H|H]; auto. apply H1 in H; auto.
    - intros Hp r s p l Hs H. destruct (l_pkr _ _ _ _ _ H2 Hp r s p l Hs H) as [[Ha Hb]|Hv]; [|auto].
      destruct (l_pkr _ _ _ _ _ H1 Hp r s p l Hs Ha) as [[Hc Hd]|Hv].
      + left. split; [assumption|congruence].
      + right. now rewrite Hb.
    - intros r. rewrite (l_actp _ _ _ _ _ H2). apply H1.
    - rewrite (l_acts _ _ _ _ _ H2). apply H1.
    - intros r p Hk H. rewrite (l_seed _ _ _ _ _ H2); auto; [now apply H1|]. now rewrite (l_acts _ _ _ _ _ H1).
    - intros H. apply H1, H2, H.
    - intros D HD H. apply (l_dt _ _ _ _ _ H2 D HD), (l_dt _ _ _ _ _ H1 D HD), H.
  Qed.
  Definition set_entry (r : rid) (pos : nat) (l : option nat) (v : option V) c :=
    set_lrm (lr_set (r, pos) (l, v) (c_lrm c)) c.
  Lemma inb_entry E r pos l v c : inb E c -> pos_ok E pos l -> inb E (set_entry r pos l v c).
  Proof. intros Hi Hp. eapply step_inb, step_lrm_set; [exact Hi|]. cbn. exact Hp. Qed.
  Lemma lpost_set E al r pos l v c : inb E c -> pos_ok E pos l -> lpost E al (r, pos) c (set_entry r pos l v c).
  Proof.
    intros Hi Hp. unfold set_entry. constructor; csimpl; auto.
    - apply frame_pure; reflexivity.
    - now apply inb_entry.
    - intros r0 p0 l0 v0 Hk. rewrite lr_find_set. apply key_eqb_neq in Hk. rewrite Hk. auto.
    - intros r0 p0 Hk _. rewrite lr_find_set. apply key_eqb_neq in Hk. now rewrite Hk.
  Qed.
  Lemma find_entry r pos l v c : lr_find (c_lrm (set_entry r pos l v c)) (r, pos) = Some (l, v).
  Proof. unfold set_entry. csimpl. now rewrite lr_find_set, key_eqb_refl. Qed.
  (** An evaluation may be started or continued with a given seed. *)
  Lemma inv_entry k E al sd m r pos l v s c : inv k E al sd m c -> undef k E al r pos -> In (r, pos) (c_acts c) ->
    pos_ok E pos l -> rrel E s l v -> inv k E al (Some (r, pos, s)) m (set_entry r pos l v c).
  Proof.
    intros Hi Hu Ha Hp Hr. unfold set_entry. constructor; csimpl; try apply Hi.
    - apply inb_entry; [apply Hi|assumption].
    - intros r0 p0 l0 v0. rewrite lr_find_set. destruct (key_eqb (r0, p0) (r, pos)) eqn:Hk; [|apply Hi].
      apply key_eqb_eq in Hk. inv Hk. auto.
    - split; [assumption|]. exists l, v. split; [|assumption]. apply find_entry.
  Qed.

  Lemma rpost_cycle E al pos r cyc c : inb E c -> rpost E al c (clear_cycle pos r cyc c).
  Proof.
    intros Hi. assert (Hb : inb E (clear_cycle pos r cyc c)) by (eapply step_inb, step_clear_cycle, Hi).
    revert Hb. unfold clear_cycle. intros Hb. constructor; csimpl; auto.
    - apply frame_pure; reflexivity.
    - intros r0 p0 l v.
      rewrite (lr_find_filter (fun k0 => negb ((snd k0 =? pos) && negb (fst k0 =? r) && existsb (Nat.eqb (fst k0)) cyc
                  && negb (existsb (key_eqb k0) (c_acts c))))).
      destruct (negb _); [auto|discriminate].
    - intros r0 p0 Ha.
      rewrite (lr_find_filter (fun k0 => negb ((snd k0 =? pos) && negb (fst k0 =? r) && existsb (Nat.eqb (fst k0)) cyc
                  && negb (existsb (key_eqb k0) (c_acts c))))).
      assert (existsb (key_eqb (r0, p0)) (c_acts c) = true).
      { apply existsb_exists. exists (r0, p0). split; [assumption|apply key_eqb_refl]. }
      rewrite H. cbn [negb]. now rewrite andb_false_r.
  Qed.

  Lemma rrel_some E (y : rr V) n v : rrel E y (Some n) v -> exists v', y = Some (n, v') /\ (loose E \/ v = v').
  Proof. destruct y as [[n' v']|]; cbn; [|contradiction]. intros [-> H]. eauto. Qed.

  Section Lr.
    Variable k : nat.
    Hypothesis IH : @refines V U kp k.
    Hypothesis IHP : @refinesP V U kp k.
    Variables (E : env) (al wal : modes) (m : mode) (r : rid) (d : rule) (body : ope) (pos : nat).
    Hypothesis HA : okA E al wal.
    Hypothesis Hal : al r m.
    Hypothesis Hg : get_body E r = Some (d, body).
    Hypothesis Hmac : r_is_macro d = false.
    Hypothesis Hp : pos <= inlen E.
    Hypothesis Hu : undef k E al r pos.
    Hypothesis Hlr : r_lr d = true.
    Let once (s : rr V) := ref_once (ref k) E (Some (r, pos, s)) m r d body pos.

    Lemma f_grow cyc fuel : forall len vr v c y, ref_grow fuel once len vr = Some y ->
      (r_macro_ref d = true -> top_args c = []) -> (loose E \/ v = vr) ->
      inv k E al (Some (r, pos, Some (len, vr))) m c -> lr_find (c_lrm c) (r, pos) = Some (Some len, v) ->
      seed_ok E (Some (r, pos, Some (len, vr))) -> pos + len <= inlen E ->
      exists len' v' c', ev (fun f => lr_grow f E (parse f) r d body cyc pos len v c = Ok (len', v', c'))
        /\ rrel E y (Some len') v' /\ lpost E al (r, pos) c c'
        /\ lr_find (c_lrm c') (r, pos) = Some (Some len', v') /\ pos + len' <= inlen E.
    Proof.
      induction fuel as [|fuel IHf]; intros len vr v c y Hr Hta Hv Hi Hf Hs Hpl; cbn [ref_grow] in Hr; [discriminate|].
      oinv Hr. set (c1 := clear_packrat_cache E pos r c). set (c2 := clear_cycle pos r cyc c1).
      assert (Q1 : rpost E al c c1) by (eapply rpost_clear; eauto; apply Hi).
      assert (Q2 : rpost E al c c2) by (eapply rpost_trans; [exact Q1|apply rpost_cycle, Q1]).
      destruct (f_once k IH IHP E al wal (Some (r, pos, Some (len, vr))) m r d body pos a c2) as (l & w & c3 & A & R & Q & P); auto.
      { intros X. unfold top_args. rewrite (f_args _ _ (q_frame _ _ _ _ Q2)). exact (Hta X). }
      { rewrite Hlr. discriminate. }
      { eapply inv_post; eauto. }
      assert (Q3 : rpost E al c c3) by (eapply rpost_trans; eauto).
      assert (Ha : In (r, pos) (c_acts c)) by apply Hi.
      assert (Hf3 : lr_find (c_lrm c3) (r, pos) = Some (Some len, v)) by (rewrite (q_seed _ _ _ _ Q3); auto).
      assert (Hstop : Some y = Some (Some (len, vr)) -> (forall n, l = Some n -> n <= len) ->
        exists len' v' c', ev (fun f => lr_grow f E (parse f) r d body cyc pos len v c = Ok (len', v', c'))
        /\ rrel E y (Some len') v' /\ lpost E al (r, pos) c c'
        /\ lr_find (c_lrm c') (r, pos) = Some (Some len', v') /\ pos + len' <= inlen E).
      { intros Hy Hn. inv Hy. exists len, v, c3. split; [|split; [split; auto|split; [now apply lpost_r|auto]]].
        destruct A as [F A]. exists (S F). intros [|f] Hff; [lia|]. cbn [lr_grow]. fold c1. fold c2. rewrite A by lia. cbn [bind].
        destruct l as [n|]; [|reflexivity]. specialize (Hn n eq_refl). apply Nat.leb_le in Hn. now rewrite Hn. }
      destruct a as [[n w']|]; cbn in R; destruct l as [n'|]; try contradiction.
      - destruct R as [-> R]. destruct (n <=? len) eqn:Hle.
        + inv Hr. apply Hstop; [reflexivity|]. intros n0 Hn0. inv Hn0. now apply Nat.leb_le.
        + set (c4 := set_entry r pos (Some n) w c3).
          assert (Hi4 : inv k E al (Some (r, pos, Some (n, w'))) m c4).
          { eapply inv_entry; [eapply inv_post; eauto|assumption| |assumption|split; auto].
            now rewrite (q_acts _ _ _ _ Q3). }
          assert (L4 : lpost E al (r, pos) c c4).
          { eapply lpost_trans; [apply lpost_r; exact Q3|]. apply lpost_set; [apply Q3|assumption]. }
          destruct (IHf n w' w c4 y Hr) as (len' & v' & c' & A' & R' & L' & F' & P'); auto.
          * intros X. unfold top_args. rewrite (f_args _ _ (l_frame _ _ _ _ _ L4)). exact (Hta X).
          * apply find_entry.
          * eapply so_grow; eauto.
          * exists len', v', c'. split; [|split; [assumption|split; [eapply lpost_trans; eauto|auto]]].
            destruct A as [FA A], A' as [FB A']. exists (S (FA + FB)). intros [|f] Hff; [lia|].
            cbn [lr_grow]. fold c1. fold c2. rewrite A by lia. cbn [bind]. rewrite Hle.
            assert (A3 : lr_grow f E (parse f) r d body cyc pos n w c4 = Ok (len', v', c')) by (apply A'; lia).
            eapply below_Ok; [|exact A3]. apply b_grow; [|lia]. intros. apply parse_below. lia.
      - inv Hr. apply Hstop; [reflexivity|discriminate].
    Qed.

    Lemma f_lr j y sd c : call (S k) E m r pos = Some y -> call (S j) E m r pos = Some y ->
      S k <= S j -> inv (S j) E al sd m c ->
      (r_macro_ref d = true -> top_args c = []) ->
      rfin E al pos c y (fun f => parse_lr f E (parse f) r d body pos c).
    Proof.
      intros Hc Hcj Hkj Hi Hta. pose proof (get_body_inv _ _ _ _ Hg) as [Hd Hb].
      assert (Hlr' : is_lr E r) by (exists d; auto).
      unfold parse_lr. cbv zeta. destruct (lr_find (c_lrm c) (r, pos)) as [[l v]|] eqn:Hf.
      - destruct (i_lrm _ _ _ _ _ _ Hi r pos l v Hf) as [[Hv _]|Hun].
        + assert (Hr : rrel E y l v) by (eapply valid_agree; eauto).
          assert (Q : rpost E al c (set_hits (rid_add r (c_hits c)) c)).
          { apply rpost_same; auto; [apply inb_same with c; auto; apply Hi|apply frame_pure; reflexivity]. }
          destruct l as [n|].
          * eexists (Some n), v, _. split; [now apply ev_all|]. split; [assumption|]. split; [assumption|].
            intros q Hq. inv Hq.
            eapply lr_find_ok; [|exact Hf]. apply Hi.
          * eexists None, None, _. split; [now apply ev_all|]. split; [|split; [assumption|discriminate]].
            destruct y as [[? ?]|]; auto.
        + exfalso. eapply defined_not_undef; eauto.
      - assert (Hna : ~ In (r, pos) (c_acts c)).
        { intros Hin. apply (i_acts _ _ _ _ _ _ Hi) in Hin. eapply defined_not_undef; eauto. }
        cbn [call] in Hc. unfold ref_call in Hc. rewrite Hg in Hc. cbn [obind] in Hc. unfold ref_rule in Hc. rewrite Hlr in Hc.
        fold once in Hc. oinv Hc. rename Hm into Ho.
        set (c0 := set_hits [] (set_acts ((r, pos) :: c_acts c) c)).
        set (c1 := set_entry r pos None None c0).
        assert (Hi0 : inv k E al None m c0).
        { apply inv_noseed, (inv_le k) in Hi; [|lia]. unfold c0. constructor; csimpl; try apply Hi.
          - apply inb_same with c; auto. apply Hi.
          - intros r0 p0 [Hx|Hx]; [inv Hx; assumption|]. exact (i_acts _ _ _ _ _ _ Hi r0 p0 Hx). }
        assert (Hi1 : inv k E al (Some (r, pos, None)) m c1).
        { eapply inv_entry; [exact Hi0|exact Hu|now left|discriminate|exact I]. }
        destruct (f_once k IH IHP E al wal (Some (r, pos, None)) m r d body pos a c1) as (l & w & c2 & A & R & Q & P); auto.
        { eapply so_fail; eauto. }
        { rewrite Hlr. discriminate. }
        assert (Hop1 : ev (fun f => do_parse E (parse f) r d body pos
            (set_hits [] (set_acts ((r, pos) :: c_acts c) (set_lrm (lr_set (r, pos) (None, None) (c_lrm c)) c))) = Ok (l, w, c2))).
        { eapply ev_imp; [exact A|]. cbn beta. intros f Hff. rewrite <- Hff. reflexivity. }
        clear A.
        set (cyc := match c_hits c2 with [] => [] | h => rid_add r h end).
        set (c3 := set_hits (fold_right rid_add (c_hits c) cyc) c2).
        assert (Q3 : rpost E al c1 c3).
        { eapply rpost_trans; [exact Q|]. apply rpost_same; auto; [apply inb_same with c2; auto; apply Q|apply frame_pure; reflexivity]. }
        assert (Hf3 : lr_find (c_lrm c3) (r, pos) = Some (None, None)).
        { rewrite (q_seed _ _ _ _ Q3); [apply find_entry|now left]. }
        (* everything after the evaluation, given the final entry *)
        assert (Hend : forall c' l' v', lpost E al (r, pos) c1 c' -> lr_find (c_lrm c') (r, pos) = Some (l', v') ->
          rrel E y l' v' ->
          rpost E al c (set_acts (filter (fun k0 => negb (key_eqb k0 (r, pos))) (c_acts c')) c')).
        { intros c' l' v' L Hfe Hre. constructor; csimpl.
          - destruct (l_frame _ _ _ _ _ L). constructor; auto.
          - apply inb_same with c'; auto. apply L.
          - exact (l_rcv _ _ _ _ _ L).
          - intros r0 p0 l0 v0 Hx. destruct (key_eqb (r0, p0) (r, pos)) eqn:Hk.
            + apply key_eqb_eq in Hk. inv Hk. rewrite Hfe in Hx. inv Hx. right. split; [|assumption].
              eapply valid_mk; eauto.
            + pose proof Hk as Hk'. apply key_eqb_neq in Hk'. apply (l_lrm _ _ _ _ _ L) in Hx as [Hx|Hx]; auto.
              left. unfold c1, set_entry in Hx. csimpl. rewrite lr_find_set, Hk in Hx. exact Hx.
          - exact (l_pkr _ _ _ _ _ L).
          - exact (l_actp _ _ _ _ _ L).
          - rewrite (l_acts _ _ _ _ _ L). unfold c1, c0, set_entry. csimpl. cbn [filter]. rewrite key_eqb_refl. cbn [negb].
            clear - Hna. induction (c_acts c) as [|a l IHl]; [reflexivity|]. cbn [filter].
            destruct (key_eqb a (r, pos)) eqn:Hk.
            + apply key_eqb_eq in Hk. subst. exfalso. apply Hna. now left.
            + cbn [negb]. f_equal. apply IHl. intros Hx. apply Hna. now right.
          - intros r0 p0 Hin. assert (Hk : (r0, p0) <> (r, pos)) by (intros Hx; inv Hx; contradiction).
            rewrite (l_seed _ _ _ _ _ L); auto; [|now right]. unfold c1, set_entry. csimpl.
            rewrite lr_find_set. apply key_eqb_neq in Hk. now rewrite Hk.
          - exact (l_cut _ _ _ _ _ L).
          - exact (l_dt _ _ _ _ _ L). }
        destruct a as [[n w']|]; cbn in R; destruct l as [n'|]; try contradiction.
        + destruct R as [-> R]. set (c4 := set_entry r pos (Some n) w c3).
          assert (Hi3 : inv k E al (Some (r, pos, None)) m c3) by (eapply inv_post; eauto).
          assert (L4 : lpost E al (r, pos) c1 c4).
          { eapply lpost_trans; [apply lpost_r; exact Q3|]. apply lpost_set; [apply Q3|assumption]. }
          assert (Hi4 : inv k E al (Some (r, pos, Some (n, w'))) m c4).
          { eapply inv_entry; [exact Hi3|assumption| |assumption|split; auto].
            rewrite (q_acts _ _ _ _ Q3). now left. }
          destruct (f_grow cyc k n w' w c4 y Hc) as (len' & v' & c' & A' & R' & L' & F' & P'); auto.
          * intros X. unfold top_args. rewrite (f_args _ _ (l_frame _ _ _ _ _ L4)). exact (Hta X).
          * apply find_entry.
          * eapply so_grow; [eapply so_fail; eauto|exact Hg|exact Ho].
          * eexists (Some len'), v', _. split; [|split; [assumption|split; [|intros q Hq; inv Hq; assumption]]].
            -- eapply ev_bind; [exact Hop1|]. cbv beta iota zeta. fold cyc. eapply ev_bind; [exact A'|]. now apply ev_all.
            -- assert (Qw : rpost E al c' (write_packrat_cache E pos r len' v' c')).
               { eapply rpost_write; eauto. apply rpost_refl, L'. }
               eapply (Hend _ (Some len') v').
               ++ eapply lpost_trans; [exact L4|]. eapply lpost_trans; [exact L'|]. now apply lpost_r.
               ++ rewrite (q_seed _ _ _ _ Qw); [exact F'|]. rewrite (l_acts _ _ _ _ _ L'), (l_acts _ _ _ _ _ L4). now left.
               ++ assumption.
        + inv Hc. eexists None, None, _. split; [|split; [exact I|split; [|discriminate]]].
          * eapply ev_bind; [exact Hop1|]. cbv beta iota zeta. now apply ev_all.
          * eapply (Hend c3 None None); [now apply lpost_r|exact Hf3|exact I].
    Qed.
  End Lr.

  (** ** Rules that are not left-recursive *)
  Lemma f_plain k E al wal m r d body pos y (sd : seed V) c : (forall j, j <= k -> @refines V U kp j /\ @refinesP V U kp j) ->
    okA E al wal -> al r m -> get_body E r = Some (d, body) -> r_is_macro d = false -> r_lr d = false ->
    pos <= inlen E -> (r_macro_ref d = true -> top_args c = []) ->
    call (S k) E m r pos = Some y -> inv (S k) E al sd m c ->
    rfin E al pos c y (fun f => if e_packrat E then packrat E pos r (do_parse E (parse f) r d body pos) c
                                else guard pos r (do_parse E (parse f) r d body pos) c).
  Proof.
    intros IH HA Hal Hg Hmac Hlr Hp Hta Hc Hi. pose proof (get_body_inv _ _ _ _ Hg) as [Hd Hb].
    destruct (call_least _ _ _ _ _ _ Hc) as (j & Hj & Hcj & Hnj). assert (Hj' : j <= k) by lia.
    assert (Hu : undef j E al r pos) by (eapply undef_mk; eauto).
    assert (Ho : ref_once (ref j) E None m r d body pos = Some y).
    { pose proof Hcj as Ho. cbn [call] in Ho. unfold ref_call in Ho. rewrite Hg in Ho. cbn [obind] in Ho.
      unfold ref_rule in Ho. now rewrite Hlr in Ho. }
    assert (Hrun : forall c1, c_args c1 = c_args c -> inv j E al None m c1 ->
      rfin E al pos c1 y (fun f => do_parse E (parse f) r d body pos c1)).
    { intros c1 Ha Hi1. destruct (IH j Hj') as [I1 I2]. eapply (f_once j I1 I2); eauto; [|constructor]. intros X. unfold top_args. rewrite Ha. exact (Hta X). }
    assert (Hdef : ~ undef (S k) E al r pos) by (eapply defined_not_undef; eauto).
    destruct (e_packrat E) eqn:Hpk.
    - unfold packrat. destruct (e_slot E r) as [s|] eqn:Hs.
      + cbv zeta. rewrite pk_range by (auto; eapply we_slot; eauto; apply HA).
        destruct (nfind (c_pkr c) (pk_idx E s pos)) as [l|] eqn:Hf.
        * destruct (i_pkr _ _ _ _ _ _ Hi Hpk r s pos l Hs Hf) as [Hv|Hv]; [|contradiction].
          assert (Hr : rrel E y l (nfind (c_pkv c) (pk_idx E s pos))) by (eapply valid_agree; eauto).
          destruct l as [n|].
          -- eexists _, _, _. split; [now apply ev_all|]. split; [exact Hr|]. split; [apply rpost_refl, Hi|].
             intros q Hq. inv Hq.
             eapply pkr_find_ok; [apply Hi|exact Hpk| |exact Hf]. eapply we_slot; eauto. apply HA.
          -- eexists None, None, _. split; [now apply ev_all|]. split; [|split; [apply rpost_refl, Hi|discriminate]].
             destruct y as [[? ?]|]; auto.
        * destruct (Hrun (mark_pkr E s pos c)) as (l & v & c2 & A & R & Q & P); [reflexivity|eapply (inv_mark_pkr (S k)); eauto; lia|].
          exists l, v, (match l with Some k => write_packrat_cache E pos r k v c2 | None => c2 end).
          split; [eapply ev_bind; [exact A|]; now apply ev_all|].
          split; [assumption|]. split; [|assumption]. eapply rpost_mark_write; eauto.
      + destruct (Hrun (mark_actp r pos c)) as (l & v & c2 & A & R & Q & P);
          [reflexivity|eapply (inv_mark_actp (S k)); eauto; lia|].
        apply rpost_unmark_actp in Q. unfold unmark_actp in Q. destruct (nfind (c_actp c) r) as [p|] eqn:Hf.
        * assert (Hne : (p =? pos) = false).
          { apply Nat.eqb_neq. intros ->. apply Hdef. now apply (i_actp _ _ _ _ _ _ Hi). }
          rewrite Hne. eexists l, v, _. split; [eapply ev_bind; [exact A|]; now apply ev_all|]. auto.
        * eexists l, v, _. split; [eapply ev_bind; [exact A|]; now apply ev_all|]. auto.
    - unfold guard. destruct (lr_find (c_lrm c) (r, pos)) as [[l v]|] eqn:Hf.
      + exfalso. destruct (i_lrm _ _ _ _ _ _ Hi r pos l v Hf) as [[_ (d' & Hd' & Hl')]|Hv]; [congruence|contradiction].
      + destruct (Hrun (mark_lrm r pos c)) as (l & v & c2 & A & R & Q & P);
          [reflexivity|eapply (inv_mark_lrm (S k)); eauto; lia|].
        apply rpost_unmark_lrm in Q; [|assumption|intros Hx; apply Hdef; now apply (i_acts _ _ _ _ _ _ Hi)].
        eexists l, v, _. split; [eapply ev_bind; [exact A|]; now apply ev_all|]. auto.
  Qed.

  (** The recognizer's fast path for such rules. *)
  Definition fast f E (r : rid) (d : rule) (body : ope) (pos : nat) vs c : @res V U :=
    if e_packrat E then
      match e_slot E r with
      | None =>
        match nfind (c_actp c) r with
        | Some p =>
          if p =? pos then Ok (None, vs, c)
          else
            let* (len, vs', c') := parse_ope_body E (parse f) r d body pos vs (set_actp (nset r pos (c_actp c)) c) in
            Ok (len, vs', set_actp (nset r p (c_actp c')) c')
        | None =>
          let* (len, vs', c') := parse_ope_body E (parse f) r d body pos vs (set_actp (nset r pos (c_actp c)) c) in
          Ok (len, vs', set_actp (nerase r (c_actp c')) c')
        end
      | Some slot =>
        let idx := pk_idx E slot pos in
        if idx <? pk_size E then
          match nfind (c_pkr c) idx with
          | Some len => Ok (len, vs, c)
          | None =>
            let* (len, vs', c') := parse_ope_body E (parse f) r d body pos vs (set_pkr (nset idx None (c_pkr c)) c) in
            Ok (len, vs', match len with Some k => write_packrat_cache E pos r k None c' | None => c' end)
          end
        else UB BadIndex
      end
    else
      match lr_find (c_lrm c) (r, pos) with
      | Some _ => Ok (None, vs, c)
      | None =>
        let* (len, vs', c') := parse_ope_body E (parse f) r d body pos vs
             (set_lrm (lr_set (r, pos) (None, None) (c_lrm c)) c) in
        Ok (len, vs', set_lrm (lr_erase (r, pos) (c_lrm c')) c')
      end.
  Lemma f_fast k E al wal m r d body pos y (sd : seed V) vs c : (forall j, j <= k -> @refines V U kp j /\ @refinesP V U kp j) ->
    okA E al wal -> al r m -> get_body E r = Some (d, body) -> r_is_macro d = false -> r_lr d = false ->
    e_recog E = true -> pos <= inlen E -> (r_macro_ref d = true -> top_args c = []) ->
    call (S k) E m r pos = Some y -> inv (S k) E al sd m c ->
    exists l vs' c', ev (fun f => fast f E r d body pos vs c = Ok (l, vs', c')) /\ rrel E y l None /\ rpost E al c c'.
  Proof.
    intros IH HA Hal Hg Hmac Hlr Hrec Hp Hta Hc Hi. pose proof (get_body_inv _ _ _ _ Hg) as [Hd Hb].
    destruct (call_least _ _ _ _ _ _ Hc) as (j & Hj & Hcj & Hnj). assert (Hj' : j <= k) by lia.
    assert (Hu : undef j E al r pos) by (eapply undef_mk; eauto).
    assert (Ho : exists x, ref_body (ref j) E None m d body pos sv_new = Some x
      /\ y = match x with None => None | Some (n, v) => ref_value E r d body pos n v end).
    { pose proof Hcj as Ho. cbn [call] in Ho. unfold ref_call in Ho. rewrite Hg in Ho. cbn [obind] in Ho.
      unfold ref_rule in Ho. rewrite Hlr, once_body in Ho. oinv Ho. inv Ho. eauto. }
    destruct Ho as (x & Ho & Hy).
    assert (Hrel : rrel E y (len_of x) None).
    { subst y. destruct x as [[n v]|]; [|exact I]. unfold ref_value.
      rewrite (ok_recog _ _ (oa_main _ _ _ HA) r m Hrec Hal). split; [reflexivity|]. now left; left. }
    assert (Hrel' : forall l v, rrel E y l v -> rrel E y l None).
    { intros l v. unfold rrel. destruct y as [[? ?]|], l; auto. intros [? _]. split; [assumption|]. now left; left. }
    assert (Hrun : forall c1, c_args c1 = c_args c -> inv j E al None m c1 ->
      exists vs' c', ev (fun f => parse_ope_body E (parse f) r d body pos vs c1 = Ok (len_of x, vs', c'))
        /\ rpost E al c1 c' /\ pos_ok E pos (len_of x)).
    { intros c1 Ha Hi1.
      destruct (f_body j (proj1 (IH j Hj')) (proj2 (IH j Hj')) E al wal None m r d body pos sv_new x vs c1) as (vs' & c' & A & _ & Q); auto.
      - intros X. unfold top_args. rewrite Ha. exact (Hta X).
      - constructor.
      - now left; left.
      - exists vs', c'. split; [assumption|]. split; [assumption|]. apply ev_pick in A as [f Hf].
        assert (Hsf : post E pos c1 (len_of x, vs', c')).
        { eapply safe_Ok; [|exact Hf]. apply safe_body; auto; [apply parse_safe|apply HA|apply Hi1]. }
        apply Hsf. }
    assert (Hdef : ~ undef (S k) E al r pos) by (eapply defined_not_undef; eauto).
    unfold fast. destruct (e_packrat E) eqn:Hpk.
    - destruct (e_slot E r) as [s|] eqn:Hs.
      + cbv zeta. rewrite pk_range by (auto; eapply we_slot; eauto; apply HA).
        destruct (nfind (c_pkr c) (pk_idx E s pos)) as [l|] eqn:Hf.
        * destruct (i_pkr _ _ _ _ _ _ Hi Hpk r s pos l Hs Hf) as [Hv|Hv]; [|contradiction].
          assert (Hr : rrel E y l (nfind (c_pkv c) (pk_idx E s pos))) by (eapply valid_agree; eauto).
          eexists _, _, _. split; [now apply ev_all|]. split; [eauto|apply rpost_refl, Hi].
        * destruct (Hrun (mark_pkr E s pos c)) as (vs' & c2 & A & Q & P); [reflexivity|eapply (inv_mark_pkr (S k)); eauto; lia|].
          exists (len_of x), vs', (match len_of x with Some k => write_packrat_cache E pos r k None c2 | None => c2 end).
          split; [eapply ev_bind; [exact A|]; now apply ev_all|].
          split; [assumption|]. eapply rpost_mark_write; eauto.
      + destruct (Hrun (mark_actp r pos c)) as (vs' & c2 & A & Q & P);
          [reflexivity|eapply (inv_mark_actp (S k)); eauto; lia|].
        apply rpost_unmark_actp in Q. unfold unmark_actp in Q. destruct (nfind (c_actp c) r) as [p|] eqn:Hf.
        * assert (Hne : (p =? pos) = false).
          { apply Nat.eqb_neq. intros ->. apply Hdef. now apply (i_actp _ _ _ _ _ _ Hi). }
          rewrite Hne. eexists _, _, _. split; [eapply ev_bind; [exact A|]; now apply ev_all|]. auto.
        * eexists _, _, _. split; [eapply ev_bind; [exact A|]; now apply ev_all|]. auto.
    - destruct (lr_find (c_lrm c) (r, pos)) as [[l v]|] eqn:Hf.
      + exfalso. destruct (i_lrm _ _ _ _ _ _ Hi r pos l v Hf) as [[_ (d' & Hd' & Hl')]|Hv]; [congruence|contradiction].
      + destruct (Hrun (mark_lrm r pos c)) as (vs' & c2 & A & Q & P);
          [reflexivity|eapply (inv_mark_lrm (S k)); eauto; lia|].
        apply rpost_unmark_lrm in Q; [|assumption|intros Hx; apply Hdef; now apply (i_acts _ _ _ _ _ _ Hi)].
        eexists _, _, _. split; [eapply ev_bind; [exact A|]; now apply ev_all|]. auto.
  Qed.

  (** A rule seen from the expression that refers to it. *)
  Lemma f_rule k E al wal m r d body pos y (sd : seed V) c : (forall j, j <= k -> @refines V U kp j /\ @refinesP V U kp j) ->
    okA E al wal -> al r m -> get_body E r = Some (d, body) -> r_is_macro d = false ->
    pos <= inlen E -> (r_macro_ref d = true -> top_args c = []) ->
    call (S k) E m r pos = Some y -> inv (S k) E al sd m c ->
    rfin E al pos c y (fun f => if r_lr d then parse_lr f E (parse f) r d body pos c
           else if e_packrat E then packrat E pos r (do_parse E (parse f) r d body pos) c
           else guard pos r (do_parse E (parse f) r d body pos) c).
  Proof.
    intros IH HA Hal Hg Hmac Hp Hta Hc Hi. destruct (r_lr d) eqn:Hlr; [|eapply f_plain; eauto].
    destruct (call_least _ _ _ _ _ _ Hc) as (j & Hj & Hcj & Hnj). pose proof (get_body_inv _ _ _ _ Hg) as [Hd Hb].
    destruct (IH j ltac:(lia)) as [I1 I2]. eapply (f_lr j I1 I2) with (j := k); eauto. eapply undef_mk; eauto.
  Qed.

  Lemma parse_hld_eq f E r d body pos vs c : get_body E r = Some (d, body) ->
    parse_hld f E (parse f) r pos vs c =
      if r_is_macro d then
        if r_lr d then Throw "left-recursive macro: not modelled"
        else
          let* (len, vs', c') := parse f E body pos vs (set_rstk (r :: c_rstk c) c) in
          Ok (len, vs', set_rstk (tl (c_rstk c')) c')
      else if e_recog E && negb (r_lr d) then fast f E r d body pos vs c
      else
        let* (len, val, c') :=
          (if r_lr d then parse_lr f E (parse f) r d body pos c
           else if e_packrat E then packrat E pos r (do_parse E (parse f) r d body pos) c
           else guard pos r (do_parse E (parse f) r d body pos) c) in
        match len with
        | Some k =>
          Ok (Some k,
              if negb (r_ignore d) && negb (e_recog E) then push_val val (str2tag (r_name d)) vs else vs,
              c')
        | None => Ok (None, vs, c')
        end.
  Proof.
    intros Hg. apply get_body_inv in Hg as [Hd Hb]. unfold parse_hld, get_rule. rewrite Hd. cbn [bind]. rewrite Hb. reflexivity.
  Qed.

  Lemma f_hld k E al wal sd fr m r pos vr x vs c : (forall j, j <= k -> @refines V U kp j /\ @refinesP V U kp j) ->
    okA E al wal -> seed_ok E sd -> fram_ok E al fr -> ref_hld k (ref k) E sd fr m r pos vr = Some x ->
    pre E al fr m (Hld r) c -> inv (S k) E al sd m c -> pos <= inlen E -> vsrel E vs vr ->
    fin E al c x (fun f => parse_hld f E (parse f) r pos vs c).
  Proof.
    intros IH HA Hs Hfr Hr [Hal Hpre] Hi Hp Hv. unfold ref_hld in Hr. oinv Hr. destruct a as [d body]. rename Hm into Hg.
    pose proof (get_body_inv _ _ _ _ Hg) as [Hd Hb]. specialize (Hpre d Hd).
    eapply fin_ext; [intros f; symmetry; apply parse_hld_eq; exact Hg|].
    destruct (r_is_macro d) eqn:Hmac.
    - destruct (r_lr d); [discriminate|].
      destruct (ok_rule _ _ (oa_main _ _ _ HA) r m d body Hal Hd Hb) as [Hn Hck]. rewrite Hmac in Hck.
      destruct Hn as [Hn|[Hn _]]; [|congruence].
      set (c1 := set_rstk (r :: c_rstk c) c).
      destruct (f_sub k (proj1 (IH k (le_n k))) E al wal sd (r_params d, snd fr) m body pos vr x vs c1) as (vs' & c' & A & B & Q & _); auto.
      + split; [assumption|]. split; [assumption|]. intros _. split; [exact Hpre|]. exists r, (c_rstk c), d. auto.
      + eapply (inv_mode k E al sd m m c); try reflexivity; try apply Hi. apply (inv_le k (S k)); auto.
      + exists vs', (set_rstk (tl (c_rstk c')) c'). split; [|split; [exact B|]].
        * eapply ev_bind; [exact A|]. now apply ev_all.
        * eapply rpost_wrap; [exact Q|..]; try reflexivity.
          destruct (q_frame _ _ _ _ Q). constructor; csimpl; auto. now rewrite f_rstk.
    - oinv Hr. inv Hr.
      assert (Hpush : forall (n : nat) (v v0 : option V), (loose E \/ v0 = v) ->
        vsrel E (if negb (r_ignore d) && negb (e_recog E) then push_val v0 (str2tag (r_name d)) vs else vs)
          (if r_ignore d then vr else push_val v (str2tag (r_name d)) vr)).
      { intros _ v v0 Hvv. unfold vsrel in *. destruct (e_recog E) eqn:Her; [now left; left|]. rewrite andb_true_r.
        destruct Hv as [Hv| ->]; [now left|]. destruct Hvv as [Hvv| ->]; [now left|]. right.
        destruct (r_ignore d); reflexivity. }
      (* a call answered by the seed, or a full call *)
      assert (Hcase : (exists s, sd = Some (r, pos, s) /\ a = s) \/ call (S k) E m r pos = Some a).
      { cbn [call]. unfold ref_call. rewrite Hg. cbn [obind]. destruct sd as [[[r0 p0] s]|]; [|now right].
        destruct ((r0 =? r) && (p0 =? pos)) eqn:Hk; [|now right]. apply andb_prop in Hk as [H1 H2].
        apply Nat.eqb_eq in H1, H2. subst. inv Hm. left. eauto. }
      destruct Hcase as [(s & -> & ->)|Hc].
      + destruct (seed_lr _ _ Hs r pos s eq_refl) as (d' & body' & Hg' & Hlr). rewrite Hg in Hg'. inv Hg'.
        rewrite Hlr. rewrite andb_false_r. pose proof (i_seed _ _ _ _ _ _ Hi) as (Ha & l & v & Hf & Hrel).
        unfold parse_lr. rewrite Hf.
        assert (Q : rpost E al c (set_hits (rid_add r (c_hits c)) c)).
        { apply rpost_same; auto; [apply inb_same with c; auto; apply Hi|apply frame_pure; reflexivity]. }
        destruct l as [n|].
        * apply rrel_some in Hrel as (v' & -> & Hvv). eexists _, _. split; [now apply ev_all|]. split; [|exact Q].
          cbn. now apply (Hpush n).
        * destruct s as [[? ?]|]; [contradiction|]. eexists _, _. split; [now apply ev_all|]. split; [exact I|exact Q].
      + destruct (e_recog E && negb (r_lr d)) eqn:Hfast.
        * apply andb_prop in Hfast as [Her Hlr]. apply negb_true_iff in Hlr.
          destruct (f_fast k E al wal m r d body pos a sd vs c) as (l & vs' & c' & A & R & Q); auto.
          exists vs', c'. split; [|split; [|exact Q]].
          -- eapply ev_imp; [exact A|]. cbn beta. intros f ->. destruct a as [[n v]|], l; cbn in R; try contradiction; [|reflexivity].
             destruct R as [-> _]. reflexivity.
          -- destruct a as [[n v]|]; [now left; left|exact I].
        * destruct (f_rule k E al wal m r d body pos a sd c) as (l & v & c' & A & R & Q & P); auto.
          destruct l as [n|].
          -- apply rrel_some in R as (v' & -> & Hvv). eexists _, _. split; [eapply ev_bind; [exact A|]; now apply ev_all|].
             split; [|exact Q]. cbn. now apply (Hpush n).
          -- destruct a as [[? ?]|]; [contradiction|]. eexists _, _. split; [eapply ev_bind; [exact A|]; now apply ev_all|].
             split; [exact I|exact Q].
  Qed.

  (** ** References *)
  Lemma find_param_name params args name a : find_param params args name = Ok (Some a) ->
    existsb (fun p => bytes_eqb p name) params = true.
  Proof.
    revert params. induction args as [|b args IH]; intros [|p params] H; cbn [find_param] in H; try discriminate.
    cbn [existsb]. destruct (bytes_eqb p name); [reflexivity|]. cbn. now apply IH.
  Qed.
  Definition params_of E (params : list bytes) : Prop := params = [] \/ exists d, In d (e_g E) /\ r_params d = params.
  Lemma chk_subst E al params args o : params_of E params -> Forall (anychk E al) args -> forall o', find_reference params args o = Ok o' ->
    forall m, chk E al m o -> chk E al m o'.
  Proof.
    intros Hps Ha. rewrite Forall_forall in Ha.
    assert (Hlist : forall l, Forall (fun o => forall o', find_reference params args o = Ok o' ->
       forall m, chk E al m o -> chk E al m o') l -> forall l', find_references params args l = Ok l' ->
       forall m, Forall (chk E al m) l -> Forall (chk E al m) l').
    { induction l as [|a l IHl]; intros Hl l' Hf m Hc; cbn [find_references] in Hf; [inv Hf; constructor|].
      binv Hf. binv Hf. inv Hf. inv Hl. inv Hc. constructor; eauto. }
    induction o using ope_ind'; intros o' Hf mo Hc;
      try (cbn [find_reference] in Hf; inv Hf; exact Hc);
      try (cbn [find_reference] in Hf; binv Hf; inv Hf; cbn [chk] in *; eauto; fail);
      try contradiction.
    - rewrite find_reference_seq in Hf. binv Hf. inv Hf. cbn [chk] in *. destruct Hc as [_ Hc]. split; [exact I|].
      apply chk_all. apply chk_all in Hc. eauto.
    - rewrite find_reference_cho in Hf. binv Hf. inv Hf. cbn [chk] in *. destruct Hc as [_ Hc]. split.
      + intros id o pos _ _ Hsk. exfalso. unfold fs_skip in Hsk. destruct (_ =? 0); [discriminate|].
        destruct id; cbn in Hsk; discriminate.
      + apply chk_all. apply chk_all in Hc. eauto.
    - cbn [find_reference] in Hf. binv Hf. inv Hf. cbn [chk] in *. destruct Hc as [_ Hc]. split; [exact I|]. eauto.
    - cbn [find_reference] in Hf. binv Hf. destruct a as [a|]; inv Hf; [|assumption].
      pose proof (find_param_name _ _ _ _ Hm) as Hn. apply find_param_in in Hm. apply Ha; [assumption|].
      destruct rl as [rl|]; [|exact Hc]. destruct Hc as [[_ [Hc|Hc]] _]; [exact Hc|]. exfalso.
      destruct Hps as [->|(d & Hd & <-)]; [discriminate|]. unfold hygienic in Hc. rewrite forallb_forall in Hc.
      specialize (Hc d Hd). rewrite Hn in Hc. discriminate.
    - cbn [find_reference] in Hf. binv Hf. inv Hf. cbn [chk] in *. destruct Hc as [Hc|Hc]; eauto.
    - cbn [find_reference] in Hf. binv Hf. inv Hf. cbn [chk] in *. destruct Hc as [_ [Hc _]]. eauto.
  Qed.
  Lemma chk_subst_args E al params args l : params_of E params -> Forall (anychk E al) args -> forall l', subst_args params args l = Ok l' ->
    Forall (anychk E al) l -> Forall (anychk E al) l'.
  Proof.
    intros Hps Ha. induction l as [|a l IHl]; intros l' Hs Hl; cbn [subst_args] in Hs; [inv Hs; constructor|].
    binv Hs. binv Hs. inv Hs. inversion Hl as [|? ? Hx Hy]; subst. constructor; [|eauto].
    intros mo Hmo. eapply chk_subst; [exact Hps|exact Ha|eassumption|now apply Hx].
  Qed.

  Lemma f_dispatch k E al wal sd fr m nm rl iarg mac args pos vr x vs c : @refines V U kp k ->
    okA E al wal -> seed_ok E sd -> fram_ok E al fr -> ref_reference (ref k) E sd fr m rl iarg args pos vr = Some x ->
    nopre (Ref nm rl iarg mac args) = true ->
    pre E al fr m (Ref nm rl iarg mac args) c -> inv k E al sd m c -> pos <= inlen E -> vsrel E vs vr ->
    fin E al c x (fun f => parse_dispatch E (parse f) rl iarg args pos vs c).
  Proof.
    intros IH HA Hs Hfr Hr Hn [Hck Hmr] Hi Hp Hv. unfold ref_reference in Hr. unfold parse_dispatch.
    cbn [nopre] in Hn. destruct rl as [r|].
    - cbn [chk] in Hck. destruct Hck as [[Hal _] Hargs]. oinv Hr. rename a into d, Hm into Hd.
      unfold get_rule at 1. unfold get_rule. rewrite Hd. cbn [bind]. cbn [mref] in Hmr. rewrite Hd in Hmr.
      (* run the rule with new arguments on top *)
      assert (Hrun : forall fr' a', fram_ok E al fr' -> forallb nopre a' = true ->
        (if r_is_macro d then a' = snd fr' else a' = []) ->
        ref k E sd fr' m (Hld r) pos vr = Some x ->
        fin E al c x (fun f => let* (len, vs', c') := parse f E (Hld r) pos vs (set_args (a' :: c_args c) c) in
                               Ok (len, vs', set_args (tl (c_args c')) c'))).
      { intros fr' a' Hfr' Ha' Htop Hx. set (c1 := set_args (a' :: c_args c) c).
        destruct (IH E al wal sd fr' m (Hld r) pos vr x vs c1) as (vs' & c' & A & B & Q & _); auto.
        - split; [assumption|]. intros d' Hd'. rewrite Hd in Hd'. inv Hd'. destruct (r_is_macro d'); [exact Htop|]. intros _. exact Htop.
        - constructor; try apply Hi.
          + apply inb_same with c; auto. apply Hi.
          + unfold okargs, c1. csimpl. cbn [forallb]. rewrite Ha'. apply Hi.
        - eexists vs', _. split; [eapply ev_bind; [exact A|]; now apply ev_all|]. split; [exact B|].
          eapply rpost_wrap; [exact Q|..]; try reflexivity.
          destruct (q_frame _ _ _ _ Q). constructor; csimpl; auto. now rewrite f_args. }
      destruct (r_is_macro d) eqn:Hmac.
      + destruct (Hmr eq_refl) as [Hta (t & stk & td & Hrs & Htd & Hpar)].
        oinv Hr. apply out_of_Some in Hm. rewrite Hrs. rewrite Htd. cbn [bind].
        rewrite Hpar, Hta, Hm. cbn [bind]. destruct (r_lr d); [discriminate|].
        apply (Hrun (r_params d, a)); [| |reflexivity|exact Hr].
        * split.
          -- destruct Hfr as [Hf1 _]. refine (chk_subst_args _ _ _ _ _ _ Hf1 _ Hm _); [|now apply chk_every].
             right. exists td. split; [eapply nth_error_In; eassumption|assumption].
          -- destruct Hfr as [_ Hf2]. exact (nopre_subst_args _ _ _ _ Hf2 Hm Hn).
        * destruct Hfr as [_ Hf2]. exact (nopre_subst_args _ _ _ _ Hf2 Hm Hn).
      + destruct (negb (r_macro_ref d) && negb (r_lr d) && e_packrat E) eqn:Hsk.
        * apply andb_prop in Hsk as [Hsk _]. apply andb_prop in Hsk as [Hsk _]. apply negb_true_iff in Hsk.
          destruct (IH E al wal sd no_frame m (Hld r) pos vr x vs c) as (vs' & c' & A & B & Q & _); auto.
          -- split; [assumption|]. intros d' Hd'. rewrite Hd in Hd'. inv Hd'. rewrite Hmac. congruence.
          -- apply fram_none.
          -- exists vs', c'. auto.
        * eapply Hrun; [apply fram_none|reflexivity|reflexivity|exact Hr].
    - oinv Hr. destruct (Hmr eq_refl) as [Hta Hpar]. rewrite Hta, Hm. destruct Hfr as [Hf1 Hf2].
      rewrite Forall_forall in Hf1. rewrite forallb_forall in Hf2. pose proof (nth_error_In _ _ Hm) as Hin.
      destruct (f_sub k IH E al wal sd fr m a pos vr x vs c) as (vs' & c' & A & B & Q & _); auto.
      + split; [now apply Hf2|]. split; [now apply Hf1; [|exact Hck]|auto].
      + split; [now apply Forall_forall|now apply forallb_forall].
      + exists vs', c'. auto.
  Qed.
  Lemma f_ref k E al wal sd fr m nm rl iarg mac args pos vr x vs c : @refines V U kp k ->
    okA E al wal -> seed_ok E sd -> fram_ok E al fr -> ref_reference (ref k) E sd fr m rl iarg args pos vr = Some x ->
    nopre (Ref nm rl iarg mac args) = true ->
    pre E al fr m (Ref nm rl iarg mac args) c -> inv k E al sd m c -> pos <= inlen E -> vsrel E vs vr ->
    fin E al c x (fun f => parse_ref E (parse f) rl iarg args pos vs c).
  Proof.
    intros IH HA Hs Hfr Hr Hn Hpre Hi Hp Hv. unfold parse_ref. destruct (e_tracer E); [|eapply f_dispatch; eauto].
    cbv zeta.
    set (c1 := if _ : bool then set_ign (negb (e_verbose E)) c else c).
    assert (H1 : exists g, c1 = set_ign g c).
    { unfold c1. destruct (match rl with Some _ => _ | None => _ end); [eauto|]. exists (c_ign c). destruct c; reflexivity. }
    destruct H1 as [g H1]. rewrite H1.
    destruct (f_dispatch k E al wal sd fr m nm rl iarg mac args pos vr x vs (set_ign g c)) as (vs' & c' & A & B & Q); auto.
    - eapply inv_mode; [exact Hi|..]; try reflexivity; apply Hi.
    - eexists vs', _. split; [eapply ev_bind; [exact A|]; now apply ev_all|]. split; [exact B|].
      eapply rpost_wrap; [exact Q|..]; try reflexivity. destruct (q_frame _ _ _ _ Q). constructor; auto.
  Qed.

  (** ** Main theorem *)
  Lemma fin_ran E al wal o pos vs c x : okA E al wal -> nopre o = true -> pos <= inlen E -> inb E c -> okargs c ->
    fin E al c x (fun f => parse f E o pos vs c) -> ran E al o pos vs c x.
  Proof.
    intros HA Hn Hp Hb Hargs (vs' & c' & A & B & Q). exists vs', c'. split; [exact A|]. split; [exact B|]. split; [exact Q|].
    apply ev_pick in A as [f Hf]. split.
    - eapply parse_ext; [|exact Hargs|exact Hn|exact Hf]. apply HA.
    - assert (Hsf : post E pos c (len_of x, vs', c')).
      { eapply safe_Ok; [|exact Hf]. apply parse_safe; auto. apply HA. }
      apply Hsf.
  Qed.

  (** Tracing around an operator changes nothing. *)
  Lemma fin_traced k E al sd m o pos vs c x : inv (S k) E al sd m c ->
    (forall c1, c_args c1 = c_args c -> c_rstk c1 = c_rstk c -> inv (S k) E al sd m c1 ->
      fin E al c1 x (fun f => parse_core f (parse f) E o pos vs c1)) ->
    fin E al c x (fun f => parse f E o pos vs c).
  Proof.
    intros Hi Hcore.
    assert (Hev : forall op, fin E al c x op -> fin E al c x (fun f => match f with O => OutOfFuel | S f' => op f' end)).
    { intros op (vs' & c' & [F A] & B & Q). exists vs', c'. split; [|auto]. exists (S F). intros [|f] Hf; [lia|]. apply A. lia. }
    enough (Ht : fin E al c x (fun f => traced E o pos (parse_core f (parse f) E o pos vs) c)).
    { apply Hev in Ht. eapply fin_ext; [|exact Ht]. intros [|f]; reflexivity. }
    unfold traced. destruct (is_traceable E o c); [|apply Hcore; auto].
    destruct (Hcore (set_evs (TEnter o pos :: c_evs c) (set_tnext (S (c_tnext c)) (set_tids (c_tnext c :: c_tids c) c))))
      as (vs' & c' & A & B & Q); auto.
    { eapply inv_mode; [exact Hi|..]; try reflexivity; apply Hi. }
    eexists vs', _. split; [eapply ev_bind; [exact A|]; now apply ev_all|]. split; [exact B|].
    eapply rpost_wrap; [exact Q|..]; try reflexivity. destruct (q_frame _ _ _ _ Q). csimpl. constructor; csimpl; auto.
    now rewrite f_tids.
  Qed.

  Theorem refines_both : forall k, @refines V U kp k /\ @refinesP V U kp k.
  Proof.
    induction k as [k IHs] using lt_wf_ind. destruct k as [|k].
    { split; [intros E al wal sd fr m o pos vr x vs c HA Hr; discriminate|intros E al wal sd fr m a b i q pos x c HA Hr; discriminate]. }
    assert (IH : @refines V U kp k) by (apply IHs; lia).
    assert (IHle : forall j, j <= k -> @refines V U kp j /\ @refinesP V U kp j) by (intros; apply IHs; lia).
    split.
    2:{ intros E al wal sd fr m a b i q pos x c HA Hr Hck Hops Hs Hfr Hi Hp. cbn [ref ref_core] in Hr.
        destruct (fin_traced k E al sd m (Pre a b i q) pos sv_new c x Hi) as (vs' & c' & A & B & Q).
        - intros c1 _ _ Hi1. cbn [parse_core]. eapply f_pre; eauto. apply (inv_le k (S k)); auto.
        - exists vs', c'. split; [exact A|]. split; [exact B|]. split; [exact Q|].
          apply ev_pick in A as [f Hf].
          assert (Hsf : post E pos c (len_of x, vs', c')).
          { eapply safe_Ok; [|exact Hf]. apply parse_safe; auto; [apply HA|apply Hi]. }
          apply Hsf. }
    intros E al wal sd fr m o pos vr x vs c HA Hr Hn Hpre Hs Hfr Hi Hp Hv. cbn [ref] in Hr.
    apply (fin_ran E al wal); auto; try apply Hi.
    apply (fin_traced k E al sd m); auto.
    { intros c1 Ha Hrk Hi1S.
      assert (Hi1 : inv k E al sd m c1) by (apply (inv_le k (S k)); auto).
      assert (Hpre1 : pre E al fr m o c1).
      { unfold pre, params_ok, top_args in *. rewrite Ha, Hrk. exact Hpre. }
      clear Hi Hpre.
      assert (Hsub : forall e m', nopre e = true -> chk E al m' e -> (mref (e_g E) e = true -> mref (e_g E) o = true) ->
        (forall r, o <> Hld r) -> subpre E al fr m' e c1).
      { intros e m' He Hce Hme Ho. split; [assumption|]. split; [assumption|]. intros X. specialize (Hme X).
        destruct o; try (apply Hpre1; exact Hme). exfalso. eapply Ho; reflexivity. }
      assert (Hlist : forall l, forallb nopre l = true -> Forall (chk E al m) l ->
        (existsb (mref (e_g E)) l = true -> mref (e_g E) o = true) -> (forall r, o <> Hld r) ->
        Forall (fun o => subpre E al fr m o c1) l).
      { intros l Hl Hcl Hml Ho. apply Forall_forall. intros e He. rewrite Forall_forall in Hcl. rewrite forallb_forall in Hl.
        apply Hsub; auto. intros X. apply Hml. apply existsb_exists. eauto. }
      destruct o; cbn [ref_core parse_core nopre] in *; try discriminate; try (pose proof Hpre1 as [Hck _]; cbn [chk] in Hck).
      - destruct Hck as [Han Hck]. apply chk_all in Hck. eapply f_seq; eauto. apply Hlist; auto. discriminate.
      - destruct Hck as [Han Hck]. apply chk_all in Hck. eapply f_cho; eauto. apply Hlist; auto. discriminate.
      - destruct Hck as [Han Hck]. eapply (f_rep k IH k); eauto. apply Hsub; auto. discriminate.
      - eapply f_and; eauto. apply Hsub; auto. discriminate.
      - eapply f_not; eauto. apply Hsub; auto. discriminate.
      - eapply f_dic; eauto.
      - eapply f_lit; eauto.
      - eapply f_cls; eauto.
      - eapply f_chr; eauto.
      - eapply f_dot; eauto.
      - eapply f_csc; eauto. apply Hsub; auto. discriminate.
      - eapply f_cap; eauto. apply Hsub; auto. discriminate.
      - eapply f_tok; eauto. apply Hsub; auto. discriminate.
      - eapply f_ign; eauto. apply Hsub; auto. discriminate.
      - destruct Hck as [Hal (d & Hd & Hm1 & Hm2)].
        destruct (IH E al wal sd fr m (Hld r) pos vr x vs c1) as (vs' & c' & A & B & Q & _); auto.
        + split; [assumption|]. intros d' Hd'. rewrite Hd in Hd'. inv Hd'. rewrite Hm1. congruence.
        + exists vs', c'. auto.
      - eapply f_hld; eauto.
      - eapply f_ref; eauto.
      - eapply f_wsp; eauto. destruct Hck as [Hck|Hck]; [now left|right]. apply Hsub; auto. discriminate. }
  Qed.
  Theorem refines_all : forall k, @refines V U kp k.
  Proof. intros k. apply refines_both. Qed.
End Main.
