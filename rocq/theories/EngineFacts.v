(** * Operator-level facts about the engine (proofs for PropEngine.v). *)
From Verif Require Import Base BaseLemmas Utf8 Utf8Proofs Escape TrieM LineInfo Ope Ctx ErrLog Engine EngineLemmas Frame Scope Bounds Mono EngineSpec Cut.

Section Facts.
  Context {V U : Type}.
  Notation env := (env V U).
  Notation ctx := (ctx V U).
  Notation sv := (sv V).
  Implicit Types (E : env) (c : ctx) (vs : sv).

  (** Removing the tracing layer. *)
  Lemma untrace fuel E o pos vs c r vs' c' :
    parse fuel E o pos vs c = Ok (r, vs', c') ->
    exists f c1 c2, fuel = S f /\ parse_core f (parse f) E o pos vs c1 = Ok (r, vs', c2)
      /\ view c1 = view c /\ c_cut c1 = c_cut c /\ view c' = view c2 /\ c_cut c' = c_cut c2
      /\ c_log c1 = c_log c /\ c_err c1 = c_err c.
  Proof.
    destruct fuel as [|f]; cbn [parse]; [discriminate|]. unfold traced. intros H.
    destruct (is_traceable E o c).
    - binv H. inv H. exists f. eexists _, _. split; [reflexivity|]. split; [exact Hm|].
      repeat split; reflexivity.
    - exists f, c, c'. repeat split; auto.
  Qed.

  Lemma view_rollback c c' : frame c c' -> view (rollback_c c c') = view c.
  Proof.
    intros F. unfold view. rewrite rollback_caps by assumption. destruct F. unfold rollback_c. csimpl.
    now rewrite f_args, f_rstk, f_tb, f_inws.
  Qed.
  Lemma view_cut_top b c : view (set_cut_top b c) = view c.
  Proof. unfold set_cut_top. destruct (c_cut c); reflexivity. Qed.
  Lemma view_error_pos E pos l c : view (set_error_pos E pos l c) = view c.
  Proof.
    unfold set_error_pos. destruct (c_log c); [|reflexivity]. destruct (ole _ _); [|reflexivity].
    cbv zeta. destruct (match l with Some _ => _ | None => _ end), (error_rule_of _ _ _); reflexivity.
  Qed.
  Lemma view_fs_error fs id pos c : view (fs_error fs id pos c) = view c.
  Proof.
    unfold fs_error. destruct (nth_error fs id) as [f|]; [|reflexivity].
    destruct (fs_first_literal f), (fs_first_rule f); try reflexivity;
    destruct (c_log c && ole _ _); reflexivity.
  Qed.
  Lemma okargs_view c c' : view c' = view c -> okargs c -> okargs c'.
  Proof. unfold view, okargs. now intros [= _ -> _ _ _]. Qed.

  (** ** Ordered choice *)
  Lemma cho_loop_inv E f fs total l : scoped E -> forallb nopre l = true ->
    forall id pos vs c r vs' c', okargs c ->
    cho_loop E (parse f) fs total l id pos vs c = Ok (r, vs', c') ->
    match r with
    | None => vs' = vs /\ view c' = view c
    | Some n => exists i o c1 vs1, nth_error l i = Some o /\ view c1 = view c
        /\ parse f E o pos vs c1 = Ok (Some n, vs1, c') /\ vs' = set_choice total (id + i) vs1
        /\ forall j oj, j < i -> nth_error l j = Some oj ->
             fs_skip E fs (id + j) pos = Ok true
             \/ exists cj vj cj', view cj = view c /\ parse f E oj pos vs cj = Ok (None, vj, cj')
                /\ tl (c_cut cj) = tl (c_cut c) /\ List.length (c_cut cj) = List.length (c_cut c)
                /\ (e_has_cut E = true -> cut_top cj' = false)
    end.
  Proof.
    intros HE. induction l as [|o l IH]; intros Hn id pos vs c r vs' c' Hc H; cbn [cho_loop] in H.
    { inv H. split; reflexivity. }
    cbn [forallb] in Hn. apply andb_prop in Hn as [Ho Hl].
    binv H. destruct a.
    - apply IH in H; [|assumption|eapply okargs_view; [apply view_fs_error|assumption]].
      rewrite view_fs_error, cut_fs_error in H. destruct r as [n|]; [|assumption].
      destruct H as (i & o' & c1 & vs1 & A & B & C & D & F). exists (S i), o', c1, vs1.
      split; [assumption|]. split; [assumption|]. split; [assumption|].
      split; [rewrite D; f_equal; lia|].
      intros [|j] oj Hj Hoj; [left; rewrite Nat.add_0_r; assumption|].
      cbn in Hoj. replace (id + S j) with (S id + j) by lia. apply F; [lia|assumption].
    - match type of H with context [parse f E o pos vs ?cc] => set (c2 := cc) in * end.
      assert (Hv : view c2 = view c).
      { unfold c2. destruct (e_has_cut E); [|reflexivity].
        change (view (set_cut_top false c) = view c). apply view_cut_top. }
      assert (Hct : tl (c_cut c2) = tl (c_cut c) /\ List.length (c_cut c2) = List.length (c_cut c)).
      { unfold c2. destruct (e_has_cut E); [|split; reflexivity].
        unfold set_cut_top. destruct (c_cut c) eqn:Hcc; csimpl; rewrite ?Hcc; split; reflexivity. }
      binv H. pose proof Hm0 as Hp. apply parse_frame in Hm0 as Fr.
      destruct r0 as [n|].
      + inv H. exists 0, o, c2, v. split; [reflexivity|]. split; [assumption|]. split; [assumption|].
        split; [f_equal; lia|]. intros j oj Hj. lia.
      + assert (Hx : rollback_vs vs v = vs).
        { apply rollback_ext. eapply parse_ext; [exact HE| |exact Ho|exact Hp]. eapply okargs_view; eauto. }
        rewrite Hx in H.
        destruct (e_has_cut E && cut_top (rollback_c c2 k)) eqn:Hcut.
        * inv H. split; [reflexivity|]. rewrite view_rollback by assumption. assumption.
        * apply IH in H; [|assumption|].
          2:{ eapply okargs_view; [|exact Hc]. rewrite view_rollback by assumption. assumption. }
          rewrite (view_rollback c2 k) in H by assumption. rewrite Hv in H.
          assert (Hrk : tl (c_cut (rollback_c c2 k)) = tl (c_cut c) /\ List.length (c_cut (rollback_c c2 k)) = List.length (c_cut c)).
          { change (c_cut (rollback_c c2 k)) with (c_cut k). rewrite (f_cut _ _ Fr), (f_cutl _ _ Fr). exact Hct. }
          destruct Hrk as [Hr1 Hr2]. rewrite Hr1, Hr2 in H.
          destruct r as [n|]; [|assumption].
          destruct H as (i & o' & c1 & vs1 & A & B & C & D & F). exists (S i), o', c1, vs1.
          split; [assumption|]. split; [assumption|]. split; [assumption|].
          split; [rewrite D; f_equal; lia|].
          intros [|j] oj Hj Hoj.
          -- cbn in Hoj. inv Hoj. right. exists c2, v, k. split; [assumption|]. split; [assumption|].
             split; [apply Hct|]. split; [apply Hct|]. intros Hh. rewrite Hh in Hcut. exact Hcut.
          -- cbn in Hoj. replace (id + S j) with (S id + j) by lia. apply F; [lia|assumption].
  Qed.

  Lemma view_push_cut b c : view (set_cut (b :: c_cut c) c) = view c.
  Proof. reflexivity. Qed.

  Lemma choice_inv fuel E fl fs l pos vs c r vs' c' :
    scoped E -> okargs c -> forallb nopre l = true ->
    parse fuel E (Cho fl fs l) pos vs c = Ok (r, vs', c') ->
    match r with
    | None => vs' = vs /\ view c' = view c
    | Some n => exists f i o c1 vs1 c2, nth_error l i = Some o /\ view c1 = view c
        /\ parse f E o pos vs c1 = Ok (Some n, vs1, c2)
        /\ vs' = set_choice (List.length l) i vs1 /\ view c' = view c2
        /\ forall j oj, j < i -> nth_error l j = Some oj ->
             fs_skip E fs j pos = Ok true
             \/ exists cj vj cj', view cj = view c /\ parse f E oj pos vs cj = Ok (None, vj, cj')
    end.
  Proof.
    intros HE Hc Hn H. apply untrace in H as (f & c1 & c2 & -> & H & Hv1 & _ & Hv2 & _).
    cbn [parse_core] in H. unfold parse_cho in H. cbv zeta in H. binv H. inv H.
    apply cho_loop_inv in Hm; auto.
    2:{ eapply okargs_view; [|exact Hc]. destruct (e_has_cut E && negb fl); assumption. }
    set (cc := if e_has_cut E && negb fl then set_cut (false :: c_cut c1) c1 else c1) in *.
    assert (Hcc : view cc = view c) by (unfold cc; destruct (e_has_cut E && negb fl); assumption).
    assert (Hk : view c' = view k) by (rewrite Hv2; destruct (e_has_cut E && negb fl); reflexivity).
    clearbody cc. rewrite Hcc in Hm. rewrite Hk.
    destruct r as [n|]; [|assumption].
    destruct Hm as (i & o & c3 & vs1 & A & B & C & D & F).
    exists f, i, o, c3, vs1, k. repeat (split; [assumption || reflexivity|]).
    intros j oj Hj Hoj. destruct (F j oj Hj Hoj) as [Hs|(cj & vj & cj' & G1 & G2 & _)]; [left; exact Hs|].
    right. exists cj, vj, cj'. auto.
  Qed.

  (** ** Cut *)
  Lemma seq_loop_turn E f l : forall pos i vs c r vs' c',
    seq_loop E (parse f) l pos i vs c = Ok (r, vs', c') ->
    match r with
    | Some j => in_turn E f l (pos + i) vs c (pos + j) vs' c' /\ i <= j
    | None => exists l1 o l2 pos1 vs1 c1, l = l1 ++ o :: l2
        /\ in_turn E f l1 (pos + i) vs c pos1 vs1 c1 /\ parse f E o pos1 vs1 c1 = Ok (None, vs', c')
    end.
  Proof.
    induction l as [|o l IH]; intros pos i vs c r vs' c' H; cbn [seq_loop] in H.
    - inv H. split; [constructor|lia].
    - binv H. destruct r0 as [len|].
      + apply IH in H. destruct r as [j|].
        * destruct H as [A B]. split; [|lia]. econstructor; [exact Hm|]. now rewrite <- Nat.add_assoc.
        * destruct H as (l1 & x & l2 & p1 & v1 & c1 & -> & A & B).
          exists (o :: l1), x, l2, p1, v1, c1. split; [reflexivity|]. split; [|assumption].
          econstructor; [exact Hm|]. now rewrite <- Nat.add_assoc.
      + inv H. exists [], o, l, (pos + i), vs, c. split; [reflexivity|]. split; [constructor|assumption].
  Qed.
  Lemma in_turn_frame E f l pos vs c pos' vs' c' : in_turn E f l pos vs c pos' vs' c' -> frame c c'.
  Proof. induction 1; [apply frame_refl|]. eapply frame_trans; [eapply parse_frame; eassumption|assumption]. Qed.
  Lemma in_turn_app E f l1 l2 : forall pos vs c pos' vs' c', in_turn E f (l1 ++ l2) pos vs c pos' vs' c' ->
    exists p v k, in_turn E f l1 pos vs c p v k /\ in_turn E f l2 p v k pos' vs' c'.
  Proof.
    induction l1 as [|o l1 IH]; intros pos vs c pos' vs' c' H; cbn [app] in H.
    - exists pos, vs, c. split; [constructor|assumption].
    - inversion H as [|? ? ? ? ? ? ? ? ? ? ? Hp Hin]; subst.
      apply IH in Hin as (p & v & k0 & A & B). exists p, v, k0. split; [econstructor; eauto|assumption].
  Qed.
  Lemma in_turn_sticky E f l pos vs c pos' vs' c' : nolabels E -> nlargs c -> forallb nolabel l = true ->
    in_turn E f l pos vs c pos' vs' c' -> sticky c c' /\ nlargs c'.
  Proof.
    intros HE Hc Hn H. induction H.
    - split; [apply sticky_refl|assumption].
    - cbn in Hn. apply andb_prop in Hn as [A B].
      pose proof (nlargs_frame _ _ (parse_frame _ _ _ _ _ _ _ _ _ H) Hc) as Hc1.
      apply parse_sticky in H; auto. destruct (IHin_turn Hc1 B) as [C D].
      split; [eapply sticky_trans; eauto|assumption].
  Qed.
  Lemma nlargs_view c c' : view c' = view c -> nlargs c -> nlargs c'.
  Proof. unfold view, nlargs. now intros [= _ -> _ _ _]. Qed.

  (** A failing sequence with a cut that leaves the flag unset never passed it. *)
  Lemma cut_not_passed fuel E l1 l2 pos vs c v c' : nolabels E -> nlargs c ->
    forallb nolabel l1 = true -> forallb nolabel l2 = true -> c_cut c <> [] ->
    parse fuel E (Seq None (l1 ++ Cut :: l2)) pos vs c = Ok (None, v, c') -> cut_top c' = false ->
    exists f c1, view c1 = view c /\ fails_in_turn E f l1 pos vs c1.
  Proof.
    intros HE Hc Hn1 Hn2 Hne H Hcut.
    apply untrace in H as (f & c1 & c2 & -> & H & Hv1 & Hk1 & Hv2 & Hk2 & _).
    cbn [parse_core parse_seq] in H. unfold parse_seq in H. apply seq_loop_turn in H.
    rewrite Nat.add_0_r in H. destruct H as (a & o & b & p1 & v1 & c3 & Heq & A & B).
    exists f, c1. split; [assumption|].
    assert (Hc1 : nlargs c1) by (eapply nlargs_view; eauto).
    (* where is the failing element? *)
    assert (Hsplit : (exists t, l1 = a ++ o :: t) \/ (a = l1 /\ o = Cut) \/ (exists t, a = l1 ++ Cut :: t /\ l2 = t ++ o :: b)).
    { clear -Heq. revert a Heq. induction l1 as [|x l1 IH]; intros a Heq; destruct a as [|y a]; cbn in Heq.
      - inv Heq. right. left. auto.
      - inv Heq. right. right. exists a. auto.
      - inv Heq. left. exists l1. reflexivity.
      - inv Heq. destruct (IH a H1) as [[t ->]|[[-> ->]|[t [-> ->]]]].
        + left. exists t. reflexivity.
        + right. left. auto.
        + right. right. exists t. auto. }
    destruct Hsplit as [[t ->]|[[-> ->]|[t [-> ->]]]].
    - exists a, o, t, p1, v1, c3, v, c2. auto.
    - exfalso. apply untrace in B as (f' & d1 & d2 & -> & B & _). cbn [parse_core] in B. discriminate.
    - exfalso.
      assert (Hap : exists p v0 k, in_turn E f l1 pos vs c1 p v0 k /\ in_turn E f (Cut :: t) p v0 k p1 v1 c3).
      { apply in_turn_app. exact A. }
      destruct Hap as (p & v0 & k & A1 & A2).
      inversion A2 as [|? ? ? ? ? ? vx c0 ? ? ? Hcutp Hin2]; subst.
      assert (Hck : c_cut k <> []).
      { apply in_turn_frame in A1. pose proof (f_cutl _ _ A1) as Hl. intros Hk. rewrite Hk in Hl. cbn in Hl.
        rewrite Hk1 in Hl. destruct (c_cut c); [now apply Hne|discriminate]. }
      apply in_turn_sticky in A1 as [_ Hka]; auto.
      assert (Htrue : cut_top c0 = true /\ nlargs c0).
      { split; [|eapply nlargs_frame; [eapply parse_frame; eassumption|assumption]].
        apply untrace in Hcutp as (f' & d1 & d2 & -> & H2 & _ & Hd1 & _ & Hd2 & _). cbn [parse_core] in H2.
        inv H2. unfold cut_top. rewrite Hd2. unfold set_cut_top. rewrite Hd1.
        destruct (c_cut k) eqn:Hkk; [congruence|]. reflexivity. }
      destruct Htrue as [Ht Hl0].
      rewrite forallb_app in Hn2. apply andb_prop in Hn2 as [Hn2 Hn3]. cbn in Hn3. apply andb_prop in Hn3 as [Hn3 _].
      apply in_turn_sticky in Hin2 as [Hs Hl3]; auto.
      apply parse_sticky in B; auto. specialize (B (Hs Ht)). unfold cut_top in *. rewrite Hk2 in Hcut. congruence.
  Qed.

  Lemma cut_commits fuel E fs l pos vs c n vs' c' j l1 l2 :
    scoped E -> okargs c -> forallb nopre l = true ->
    nolabels E -> nlargs c -> e_has_cut E = true ->
    parse fuel E (Cho false fs l) pos vs c = Ok (Some n, vs', c') ->
    nth_error l j = Some (Seq None (l1 ++ Cut :: l2)) ->
    forallb nolabel (l1 ++ l2) = true ->
    v_ch vs' <= j
    \/ fs_skip E fs j pos = Ok true
    \/ exists f c1, view c1 = view c /\ fails_in_turn E f l1 pos vs c1.
  Proof.
    intros HE Hc Hn HL Hla Hhc H Hj Hnl. rewrite forallb_app in Hnl. apply andb_prop in Hnl as [Hn1 Hn2].
    apply untrace in H as (f & c1 & c2 & -> & H & Hv1 & _ & Hv2 & _).
    cbn [parse_core] in H. unfold parse_cho in H. rewrite Hhc in H. cbn [andb negb] in H. cbv zeta in H. binv H. inv H.
    apply cho_loop_inv in Hm; auto.
    2:{ eapply okargs_view; [|exact Hc]. exact Hv1. }
    destruct Hm as (i & o & c3 & vs1 & A & B & C & D & F). rewrite D. csimpl. cbn [Nat.add] in *.
    destruct (Nat.le_gt_cases i j) as [Hij|Hij]; [left; exact Hij|].
    right. destruct (F j _ Hij Hj) as [Hs|(cj & vj & cj' & G1 & G2 & G3 & G4 & G5)]; [left; exact Hs|]. right.
    assert (Hne : c_cut cj <> []) by (intros Hx; rewrite Hx in G4; discriminate).
    destruct (cut_not_passed _ _ _ _ _ _ _ _ _ HL (nlargs_view c cj (eq_trans G1 Hv1) Hla) Hn1 Hn2 Hne G2 (G5 Hhc)) as (f' & c'' & K1 & K2).
    exists f', c''. split; [|assumption]. rewrite K1, G1. exact Hv1.
  Qed.

  (** A choice leaves the cut flags of the choices around it alone. *)
  Lemma cut_local fuel E fs l pos vs c r vs' c' : e_has_cut E = true ->
    parse fuel E (Cho false fs l) pos vs c = Ok (r, vs', c') -> c_cut c' = c_cut c.
  Proof.
    intros Hhc H. apply untrace in H as (f & c1 & c2 & -> & H & _ & Hk1 & _ & Hk2 & _).
    cbn [parse_core] in H. unfold parse_cho in H. rewrite Hhc in H. cbn [andb negb] in H. cbv zeta in H. binv H. inv H.
    apply (frame_cho_loop (parse f) (parse_frame f)) in Hm. rewrite Hk2. csimpl. rewrite (f_cut _ _ Hm). exact Hk1.
  Qed.

  (** ** Repetition *)
  Lemma rep_min_inv E f e : forall m pos i vs c r vs' c',
    rep_min E (parse f) e m pos i vs c = Ok (r, vs', c') ->
    match r with
    | Some j => exists p, iterations E f e m (pos + i) vs c p vs' c' /\ p = pos + j /\ i <= j
    | None => exists n p v1 c1, n < m /\ iterations E f e n (pos + i) vs c p v1 c1
              /\ parse f E e p v1 c1 = Ok (None, vs', c')
    end.
  Proof.
    induction m as [|m IH]; intros pos i vs c r vs' c' H; cbn [rep_min] in H.
    - inv H. eexists. split; [constructor|]. split; [reflexivity|lia].
    - binv H. destruct r0 as [len|].
      + apply IH in H. destruct r as [j|].
        * destruct H as (p & A & -> & B). eexists. split; [econstructor; [exact Hm|]|].
          -- rewrite <- Nat.add_assoc. exact A.
          -- split; [reflexivity|lia].
        * destruct H as (n & p & v1 & c1 & A & B & C). exists (S n), p, v1, c1.
          split; [lia|]. split; [|exact C]. econstructor; [exact Hm|]. rewrite <- Nat.add_assoc. exact B.
      + inv H. exists 0, (pos + i), vs, c. split; [lia|]. split; [constructor|assumption].
  Qed.
  Lemma it_app E f e n1 n2 pos vs c p1 v1 c1 p2 v2 c2 :
    iterations E f e n1 pos vs c p1 v1 c1 -> iterations E f e n2 p1 v1 c1 p2 v2 c2 ->
    iterations E f e (n1 + n2) pos vs c p2 v2 c2.
  Proof. induction 1; [auto|]. intros H2. cbn. econstructor; eauto. Qed.
  Lemma it_frame E f e n pos vs c p v' c' :
    iterations E f e n pos vs c p v' c' -> frame c c'.
  Proof. induction 1; [apply frame_refl|]. eapply frame_trans; [eapply parse_frame; eassumption|assumption]. Qed.
  Lemma it_le E f e n pos vs c p v' c' : iterations E f e n pos vs c p v' c' -> pos <= p.
  Proof. induction 1; lia. Qed.

  Lemma rep_more_inv E f e : scoped E -> nopre e = true ->
    forall fuel room pos i vs c r vs' c', okargs c ->
    rep_more fuel E (parse f) e room pos i vs c = Ok (r, vs', c') ->
    exists n j v1 c1, r = Some j /\ iterations E f e n (pos + i) vs c (pos + j) v1 c1 /\ vs' = v1
      /\ view c' = view c1
      /\ (room = Some n \/ (match room with Some k => n < k | None => True end)
          /\ exists v2 c2, parse f E e (pos + j) v1 c1 = Ok (None, v2, c2)).
  Proof.
    intros HE He. induction fuel as [|fuel IH]; intros room pos i vs c r vs' c' Hc H; cbn [rep_more] in H.
    { destruct room as [[|k]|]; try discriminate. inv H. exists 0, i, vs', c'.
      repeat split; auto. constructor. }
    destruct room as [[|k]|].
    - inv H. exists 0, i, vs', c'. repeat split; auto. constructor.
    - binv H. destruct r0 as [len|].
      + apply IH in H; [|eapply okargs_frame; [eapply parse_frame; eassumption|assumption]].
        destruct H as (n & j & v1 & c1 & -> & A & B & C & D). exists (S n), j, v1, c1.
        split; [reflexivity|]. split.
        { econstructor; [exact Hm|]. rewrite <- Nat.add_assoc. exact A. }
        split; [assumption|]. split; [assumption|]. cbn [option_map pred] in D.
        destruct D as [D|[D1 D2]]; [left; now inv D|right; split; [lia|assumption]].
      + inv H. exists 0, i, vs, c. split; [reflexivity|]. split; [constructor|].
        split; [apply rollback_ext; eapply parse_ext; eauto|].
        split; [apply view_rollback; eapply parse_frame; eauto|].
        right. split; [lia|eauto].
    - binv H. destruct r0 as [len|].
      + apply IH in H; [|eapply okargs_frame; [eapply parse_frame; eassumption|assumption]].
        destruct H as (n & j & v1 & c1 & -> & A & B & C & D). exists (S n), j, v1, c1.
        split; [reflexivity|]. split.
        { econstructor; [exact Hm|]. rewrite <- Nat.add_assoc. exact A. }
        split; [assumption|]. split; [assumption|]. cbn [option_map] in D.
        destruct D as [D|[D1 D2]]; [discriminate|right; split; auto].
      + inv H. exists 0, i, vs, c. split; [reflexivity|]. split; [constructor|].
        split; [apply rollback_ext; eapply parse_ext; eauto|].
        split; [apply view_rollback; eapply parse_frame; eauto|].
        right. split; eauto.
  Qed.

  Lemma repetition_inv fuel E e mn mx pos vs c r vs' c' :
    scoped E -> okargs c -> nopre e = true ->
    parse fuel E (Rep e mn mx None) pos vs c = Ok (r, vs', c') ->
    exists f c0, view c0 = view c /\
    match r with
    | None => exists n p v1 c1 c2, n < mn /\ iterations E f e n pos vs c0 p v1 c1
                /\ parse f E e p v1 c1 = Ok (None, vs', c2)
    | Some j => exists n c1, iterations E f e n pos vs c0 (pos + j) vs' c1 /\ view c' = view c1
        /\ mn <= n
        /\ (match mx with Some x => n = Nat.max mn x | None => False end
            \/ (match mx with Some x => n < x | None => True end)
               /\ exists v2 c2, parse f E e (pos + j) vs' c1 = Ok (None, v2, c2))
    end.
  Proof.
    intros HE Hc He H. apply untrace in H as (f & c1 & c2 & -> & H & Hv & _ & Hv2 & _).
    exists f, c1. split; [assumption|].
    cbn [parse_core] in H. unfold parse_rep in H. binv H.
    apply rep_min_inv in Hm. rewrite Nat.add_0_r in Hm. destruct r0 as [i|].
    2:{ inv H. destruct Hm as (n & p & v1 & c3 & A & B & C). exists n, p, v1, c3, c2. auto. }
    destruct Hm as (p & A & -> & _).
    assert (Hk : okargs k).
    { eapply okargs_frame; [eapply it_frame; exact A|]. eapply okargs_view; eauto. }
    destruct mx as [x|].
    - destruct (mn <? x) eqn:Hx.
      + apply Nat.ltb_lt in Hx. apply rep_more_inv in H; auto.
        destruct H as (n & j & v1 & c3 & -> & B & -> & C & D).
        exists (mn + n), c3. split; [eapply it_app; eassumption|]. split; [congruence|].
        split; [lia|]. destruct D as [D|[D1 D2]]; [left; inv D; lia|right; split; [lia|assumption]].
      + apply Nat.ltb_ge in Hx. inv H. exists mn, c2. split; [assumption|]. split; [assumption|].
        split; [lia|left; lia].
    - apply rep_more_inv in H; auto.
      destruct H as (n & j & v1 & c3 & -> & B & -> & C & D).
      exists (mn + n), c3. split; [eapply it_app; eassumption|]. split; [congruence|].
      split; [lia|]. destruct D as [D|[D1 D2]]; [discriminate|right; split; auto].
  Qed.

  (** ** Predicates *)
  Lemma and_inv fuel E e pos vs c r vs' c' :
    scoped E -> okargs c -> nopre e = true ->
    parse fuel E (And e) pos vs c = Ok (r, vs', c') ->
    vs' = vs /\ view c' = view c
    /\ exists f c1 re v2 c2, view c1 = view c /\ parse f E e pos vs c1 = Ok (re, v2, c2)
         /\ r = match re with Some _ => Some 0 | None => None end.
  Proof.
    intros HE Hc He H. apply untrace in H as (f & c1 & c2 & -> & H & Hv & _ & Hv2 & _).
    cbn [parse_core] in H. unfold parse_and in H. binv H. inv H.
    split; [apply rollback_ext; eapply parse_ext; [exact HE| |exact He|exact Hm]; eapply okargs_view; eauto|].
    split; [rewrite Hv2, view_rollback; [assumption|eapply parse_frame; exact Hm]|].
    exists f, c1, r0, v, k. auto.
  Qed.
  Lemma not_inv fuel E e pos vs c r vs' c' :
    scoped E -> okargs c -> nopre e = true ->
    parse fuel E (Not e) pos vs c = Ok (r, vs', c') ->
    vs' = vs /\ view c' = view c
    /\ exists f c1 re v2 c2, view c1 = view c /\ parse f E e pos vs c1 = Ok (re, v2, c2)
         /\ r = match re with Some _ => None | None => Some 0 end.
  Proof.
    intros HE Hc He H. apply untrace in H as (f & c1 & c2 & -> & H & Hv & _ & Hv2 & _).
    cbn [parse_core] in H. unfold parse_not in H. binv H. cbv zeta in H.
    pose proof (parse_frame _ _ _ _ _ _ _ _ _ Hm) as Fr.
    assert (Hx : rollback_vs vs v = vs).
    { apply rollback_ext. eapply parse_ext; [exact HE| |exact He|exact Hm]. eapply okargs_view; eauto. }
    destruct r0; inv H; (split; [assumption|]); (split; [rewrite Hv2, ?view_error_pos, view_rollback; assumption|]);
    exists f, c1; eexists _, v, k; (split; [assumption|]); (split; [exact Hm|reflexivity]).
  Qed.

  (** ** Captures *)
  Lemma csc_inv fuel E e pos vs c r vs' c' :
    parse fuel E (Csc e) pos vs c = Ok (r, vs', c') ->
    view c' = view c /\ exists f c1 c2, view c1 = view c /\ parse f E e pos vs c1 = Ok (r, vs', c2).
  Proof.
    intros H. apply untrace in H as (f & c1 & c2 & -> & H & Hv & _ & Hv2 & _).
    cbn [parse_core] in H. unfold parse_csc in H. binv H. inv H.
    split; [rewrite Hv2, view_rollback; [assumption|eapply parse_frame; exact Hm]|].
    exists f, c1, k. auto.
  Qed.
  Lemma cap_inv fuel E n e pos vs c r vs' c' :
    parse fuel E (Cap n e) pos vs c = Ok (r, vs', c') ->
    exists f c1 c2, view c1 = view c /\ parse f E e pos vs c1 = Ok (r, vs', c2)
      /\ c_caps c' = c_caps c2 ++ match r with Some k => [(n, sub (e_input E) pos k)] | None => [] end.
  Proof.
    intros H. apply untrace in H as (f & c1 & c2 & -> & H & Hv & _ & Hv2 & _).
    cbn [parse_core] in H. unfold parse_cap in H. binv H. exists f, c1, k.
    assert (Hcc : c_caps c' = c_caps c2) by (unfold view in Hv2; congruence).
    destruct r0 as [len|]; inv H; (split; [assumption|]); (split; [assumption|]); rewrite Hcc; csimpl;
      [reflexivity|now rewrite app_nil_r].
  Qed.
  Lemma bkr_inv fuel E n pos vs c r vs' c' :
    parse fuel E (Bkr n) pos vs c = Ok (r, vs', c') ->
    match last_capture (c_caps c) n with
    | None => r = None /\ vs' = vs /\ view c' = view c
    | Some t => exists f c1 c2, view c1 = view c /\ view c' = view c2
        /\ parse_literal E (parse f) t false pos vs c1 = Ok (r, vs', c2)
    end.
  Proof.
    intros H. apply untrace in H as (f & c1 & c2 & -> & H & Hv & _ & Hv2 & _).
    cbn [parse_core] in H. unfold parse_bkr in H.
    assert (Hcc : c_caps c1 = c_caps c) by (unfold view in Hv; congruence).
    rewrite Hcc in H. destruct (last_capture (c_caps c) n) as [t|].
    - exists f, c1, c2. auto.
    - inv H. split; [reflexivity|]. split; [reflexivity|]. now rewrite Hv2.
  Qed.

  (** ** Literals *)
  Lemma lit_loop_iff inp ic : forall pat pos n, pos + n = List.length inp ->
    exists b, lit_loop inp pos n pat ic = Ok b /\
      (b = true <-> (if ic then to_lower (sub inp pos (List.length pat)) else sub inp pos (List.length pat)) = pat).
  Proof.
    induction pat as [|p pat IH]; intros pos n Hn.
    { exists true. replace (lit_loop inp pos n [] ic) with (@Ok bool true) by (destruct n; reflexivity). split; [reflexivity|]. unfold sub. cbn. destruct ic; tauto. }
    destruct n as [|n]; cbn [lit_loop].
    - exists false. split; [reflexivity|]. unfold sub. cbn [List.length].
      rewrite skipn_all2 by lia. cbn. destruct ic; cbn; split; discriminate.
    - unfold rd. destruct (nth_error inp pos) as [b|] eqn:Hb.
      2:{ apply nth_error_None in Hb. lia. }
      cbn [bind].
      assert (Hs : sub inp pos (List.length (p :: pat)) = b :: sub inp (pos + 1) (List.length pat)).
      { unfold sub. cbn [List.length]. rewrite Nat.add_1_r.
        clear -Hb. revert pos Hb. induction inp as [|x inp IH]; intros [|pos] Hb; cbn in *; try discriminate.
        - now inv Hb.
        - now apply IH. }
      rewrite Hs. destruct (beq (if ic then tolower b else b) p) eqn:Hp.
      + assert (Hbp : (if ic then tolower b else b) = p) by (apply beq_eq; exact Hp).
        destruct (IH (pos + 1) n ltac:(lia)) as (r & Hr & Hi). exists r. split; [assumption|].
        rewrite Hi. destruct ic; cbn [to_lower map].
        * unfold to_lower. cbn [map]. rewrite Hbp. split; [now intros ->|now intros [=]].
        * rewrite Hbp. split; [now intros ->|now intros [=]].
      + exists false. split; [reflexivity|]. split; [discriminate|].
        intros He. exfalso. assert ((if ic then tolower b else b) = p).
        { destruct ic; unfold to_lower in He; cbn [map] in He; inv He; reflexivity. }
        subst p. rewrite beq_refl in Hp. discriminate.
  Qed.

  Lemma not_word_inv f E w pos b : not_word E (parse f) w pos = Ok b ->
    if b then no_word_at E w (e_input E) pos else word_at E w (e_input E) pos.
  Proof.
    unfold not_word. intros H. binv H. inv H. destruct f as [|f]; [discriminate|].
    cbn [parse] in Hm. unfold traced, is_traceable in Hm. cbn [word_env e_tracer andb] in Hm.
    cbn [parse_core] in Hm. unfold parse_not in Hm. binv Hm. cbv zeta in Hm.
    destruct r0 as [n|]; inv Hm; [exists f, n, v0, k0|exists f, v0, k0]; exact Hm0.
  Qed.
  Lemma is_word_inv f E w s b : is_word E (parse f) w s = Ok b ->
    if b then word_at E w s 0 else no_word_at E w s 0.
  Proof.
    unfold is_word. intros H. binv H. inv H. destruct r as [n|]; [exists f, n, v, k|exists f, v, k]; exact Hm.
  Qed.
  Lemma then_skip_inv f E pos len vs c r vs' c' :
    then_skip E (parse f) pos len vs c = Ok (r, vs', c') ->
    match r with
    | Some n => exists k, n = len + k /\ skips E (pos + len) vs c k vs' c'
    | None => skip_fails E (pos + len) vs c
    end.
  Proof.
    unfold then_skip, skip_whitespace, skips, skip_fails. intros H. binv H. inv H.
    destruct (e_ws E) as [w|] eqn:Hw.
    - destruct (0 <? c_tb c) eqn:Ht.
      + inv Hm. exists 0. auto.
      + binv Hm. inv Hm. destruct r0 as [k0|].
        * exists k0. split; [reflexivity|]. exists f. eexists _, k. split; [|split; [|exact Hm0]]; reflexivity.
        * apply Nat.ltb_ge in Ht. exists w, f. eexists _, k, vs'. split; [reflexivity|]. split; [lia|]. split; [|exact Hm0]. reflexivity.
    - inv Hm. exists 0. auto.
  Qed.
  Lemma lit_text E (s : bytes) (ic : bool) pos b : pos <= inlen E ->
    lit_loop (e_input E) pos (left E pos) (if ic then to_lower s else s) ic = Ok b ->
    (b = true <-> text_at (e_input E) pos s ic).
  Proof.
    intros Hp H. unfold left, inlen in *.
    destruct (lit_loop_iff (e_input E) ic (if ic then to_lower s else s) pos (List.length (e_input E) - pos) ltac:(lia)) as (b' & Hb & Hi).
    rewrite Hb in H. inv H. rewrite Hi. unfold text_at. destruct ic; [|tauto].
    rewrite to_lower_length. tauto.
  Qed.
  (** Literals: text, %word, whitespace. *)
  Lemma literal_inv f E (s : bytes) (ic : bool) pos vs c r vs' c' : pos <= inlen E ->
    parse_literal E (parse f) s ic pos vs c = Ok (r, vs', c') ->
    match r with
    | Some n => text_at (e_input E) pos s ic
        /\ (forall w, e_word E = Some w -> word_at E w s 0 -> no_word_at E w (e_input E) (pos + List.length s))
        /\ exists k, n = List.length s + k /\ skips E (pos + List.length s) vs c k vs' c'
    | None => ~ text_at (e_input E) pos s ic
        \/ (exists w, e_word E = Some w /\ word_at E w s 0 /\ word_at E w (e_input E) (pos + List.length s))
        \/ skip_fails E (pos + List.length s) vs c
    end.
  Proof.
    intros Hp H. unfold parse_literal in H. binv H. apply lit_text in Hm as Ht; [|assumption]. destruct a.
    2:{ inv H. left. intros Hx. apply Ht in Hx. discriminate. }
    cbv zeta in H. binv H.
    assert (Hw : if a then (forall w, e_word E = Some w -> word_at E w s 0 -> no_word_at E w (e_input E) (pos + List.length s))
                 else exists w, e_word E = Some w /\ word_at E w s 0 /\ word_at E w (e_input E) (pos + List.length s)).
    { clear H. destruct (e_word E) as [w|]; [|inv Hm0; intros w Hx; discriminate].
      binv Hm0. apply is_word_inv in Hm1. destruct a0.
      - apply not_word_inv in Hm0. destruct a; [intros w0 [= <-] _; exact Hm0|exists w; auto].
      - inv Hm0. intros w0 [= <-] (f1 & n1 & v1 & c1 & H1). exfalso. destruct Hm1 as (f2 & v2 & c2 & H2).
        pose proof (parse_det _ _ _ _ _ _ _ _ _ H1 H2). discriminate. }
    destruct a.
    - apply then_skip_inv in H. destruct r as [n|].
      + split; [now apply Ht|]. split; [exact Hw|exact H].
      + right. right. exact H.
    - inv H. right. left. exact Hw.
  Qed.
  Lemma skips_view E pos vs c k vs' c' c1 c1' : skips E pos vs c k vs' c' -> view c1 = view c -> view c1' = view c' ->
    skips E pos vs c1 k vs' c1'.
  Proof.
    unfold skips. intros H H1 H2. assert (Ht : c_tb c1 = c_tb c) by (unfold view in H1; congruence).
    destruct (e_ws E).
    - rewrite Ht. destruct (0 <? c_tb c).
      + destruct H as (A & B & C). repeat split; auto. congruence.
      + destruct H as (f & d1 & d2 & A & B & C). exists f, d1, d2. repeat split; auto; congruence.
    - destruct H as (A & B & C). repeat split; auto. congruence.
  Qed.
  Lemma skip_fails_view E pos vs c c1 : skip_fails E pos vs c -> view c1 = view c -> skip_fails E pos vs c1.
  Proof.
    intros (w & f & d1 & d2 & v & A & B & C & D) H1. exists w, f, d1, d2, v.
    assert (Ht : c_tb c1 = c_tb c) by (unfold view in H1; congruence). repeat split; auto; congruence.
  Qed.
  Lemma lit_inv fuel E s ic pos vs c r vs' c' : pos <= inlen E ->
    parse fuel E (Lit s ic) pos vs c = Ok (r, vs', c') ->
    match r with
    | Some n => text_at (e_input E) pos s ic
        /\ (forall w, e_word E = Some w -> word_at E w s 0 -> no_word_at E w (e_input E) (pos + List.length s))
        /\ exists k, n = List.length s + k /\ skips E (pos + List.length s) vs c k vs' c'
    | None => ~ text_at (e_input E) pos s ic
        \/ (exists w, e_word E = Some w /\ word_at E w s 0 /\ word_at E w (e_input E) (pos + List.length s))
        \/ skip_fails E (pos + List.length s) vs c
    end.
  Proof.
    intros Hp H. apply untrace in H as (f & c1 & c2 & -> & H & Hv1 & _ & Hv2 & _). cbn [parse_core] in H.
    apply literal_inv in H; [|assumption]. destruct r as [n|].
    - destruct H as (A & B & k & C & D). split; [assumption|]. split; [assumption|]. exists k. split; [assumption|].
      eapply skips_view; eauto.
    - destruct H as [A|[A|A]]; auto. right. right. eapply skip_fails_view; eauto.
  Qed.
  Lemma bkr_text fuel E n pos vs c r vs' c' : pos <= inlen E ->
    parse fuel E (Bkr n) pos vs c = Ok (r, vs', c') ->
    match last_capture (c_caps c) n with
    | None => r = None /\ vs' = vs /\ view c' = view c
    | Some t =>
      match r with
      | Some m => text_at (e_input E) pos t false
          /\ (forall w, e_word E = Some w -> word_at E w t 0 -> no_word_at E w (e_input E) (pos + List.length t))
          /\ exists k, m = List.length t + k /\ skips E (pos + List.length t) vs c k vs' c'
      | None => ~ text_at (e_input E) pos t false
          \/ (exists w, e_word E = Some w /\ word_at E w t 0 /\ word_at E w (e_input E) (pos + List.length t))
          \/ skip_fails E (pos + List.length t) vs c
      end
    end.
  Proof.
    intros Hp H. apply bkr_inv in H. destruct (last_capture (c_caps c) n) as [t|]; [|assumption].
    destruct H as (f & c1 & c2 & Hv1 & Hv2 & H). apply literal_inv in H; [|assumption]. destruct r as [m|].
    - destruct H as (A & B & k & C & D). split; [assumption|]. split; [assumption|]. exists k. split; [assumption|].
      eapply skips_view; eauto.
    - destruct H as [A|[A|A]]; auto. right. right. eapply skip_fails_view; eauto.
  Qed.

  (** Dictionaries check %word for every word. *)
  Lemma dic_inv fuel E t pos vs c r vs' c' :
    parse fuel E (Dic t) pos vs c = Ok (r, vs', c') ->
    let m := fst (trie_match t (from (e_input E) pos)) in
    let id := match snd (trie_match t (from (e_input E) pos)) with Some k => k | None => 0 end in
    match r with
    | Some n => 0 < m /\ (forall w, e_word E = Some w -> no_word_at E w (e_input E) (pos + m))
        /\ exists k, n = m + k /\ skips E (pos + m) (set_choice (t_items_count t) id vs) c k vs' c'
    | None => m = 0 \/ (exists w, e_word E = Some w /\ word_at E w (e_input E) (pos + m))
        \/ skip_fails E (pos + m) (set_choice (t_items_count t) id vs) c
    end.
  Proof.
    intros H. apply untrace in H as (f & c1 & c2 & -> & H & Hv1 & _ & Hv2 & _). cbn [parse_core] in H.
    unfold parse_dic in H. destruct (trie_match t (from (e_input E) pos)) as [m id]. cbn [fst snd]. cbv zeta.
    destruct (Nat.eqb_spec m 0) as [->|Hm0].
    { inv H. auto. }
    cbv zeta in H. binv H.
    assert (Hw : if a then (forall w, e_word E = Some w -> no_word_at E w (e_input E) (pos + m))
                 else exists w, e_word E = Some w /\ word_at E w (e_input E) (pos + m)).
    { clear H. destruct (e_word E) as [w|]; [|inv Hm; intros w Hx; discriminate].
      apply not_word_inv in Hm. destruct a; [intros w0 [= <-]; exact Hm|exists w; auto]. }
    destruct a.
    - apply then_skip_inv in H. destruct r as [n|].
      + split; [lia|]. split; [exact Hw|]. destruct H as (k & A & B). exists k. split; [exact A|]. eapply skips_view; eauto.
      + right. right. eapply skip_fails_view; eauto.
    - inv H. right. left. exact Hw.
  Qed.

  (** Token boundaries. *)
  Lemma tok_inv fuel E e pos vs c r vs' c' :
    parse fuel E (Tok e) pos vs c = Ok (r, vs', c') ->
    exists f c1 m v1 c2, c_tb c1 = S (c_tb c) /\ c_caps c1 = c_caps c /\ c_args c1 = c_args c
      /\ c_rstk c1 = c_rstk c /\ c_inws c1 = c_inws c
      /\ parse f E e pos vs c1 = Ok (m, v1, c2)
      /\ match m with
         | None => r = None
         | Some k => exists c3, c_tb c3 = c_tb c /\ c_caps c3 = c_caps c2 /\ c_args c3 = c_args c
             /\ c_rstk c3 = c_rstk c /\ c_inws c3 = c_inws c /\
             let v2 := if e_recog E then v1 else push_tok (pos, k) v1 in
             match r with
             | Some n => exists j, n = k + j /\ skips E (pos + k) v2 c3 j vs' c'
             | None => skip_fails E (pos + k) v2 c3
             end
         end.
  Proof.
    intros H. apply untrace in H as (f & c1 & c2 & -> & H & Hv1 & _ & Hv2 & _). cbn [parse_core] in H.
    unfold parse_tok in H. cbv zeta in H. binv H. unfold view in Hv1. injection Hv1 as E1 E2 E3 E4 E5.
    apply parse_frame in Hm as F. pose proof (f_tb _ _ F) as T1. pose proof (f_args _ _ F) as T2.
    pose proof (f_rstk _ _ F) as T3. pose proof (f_inws _ _ F) as T4. clear F. csimpl.
    exists f. eexists _, r0, v, k. split; [|split; [|split; [|split; [|split; [|split; [exact Hm|]]]]]]; csimpl; try congruence.
    destruct r0 as [n|]; [|inv H; reflexivity].
    exists (set_tb (pred (c_tb k)) k). csimpl. rewrite T1 in *.
    split; [cbn; assumption|]. split; [reflexivity|]. split; [congruence|]. split; [congruence|]. split; [congruence|].
    binv H. inv H. apply then_skip_inv in Hm0. destruct r as [n0|]; [|exact Hm0].
    destruct Hm0 as (j & A & B). exists j. split; [assumption|].
    eapply skips_view; [exact B|reflexivity|]. exact Hv2.
  Qed.
End Facts.

(** [last_capture] finds the newest entry of the name. *)
Lemma last_capture_spec caps n t :
  last_capture caps n = Some t <->
  exists older newer, caps = older ++ (n, t) :: newer /\ (forall m u, In (m, u) newer -> m <> n).
Proof.
  unfold last_capture. assert (Hg : forall l, caps = rev l -> rev caps = l) by (intros l ->; apply rev_involutive).
  destruct (ex_intro (fun l => caps = rev l) (rev caps) (eq_sym (rev_involutive caps))) as [l Hl].
  rewrite (Hg l Hl). subst caps. clear Hg.
  induction l as [|[m u] l IH]; cbn [find rev].
  - split; [discriminate|]. intros ([|? ?] & newer & H & _); discriminate.
  - destruct (bytes_eqb (fst (m, u)) n) eqn:Hb; cbn [fst] in Hb.
    + apply bytes_eqb_eq in Hb as ->. cbn [snd]. split.
      * intros [= ->]. exists (rev l), []. split; [reflexivity|intros ? ? []].
      * intros (older & newer & H & Hn). destruct newer as [|[m' u'] newer] using rev_ind.
        -- apply app_inj_tail in H as [_ H]. now inv H.
        -- exfalso. rewrite app_comm_cons, app_assoc in H. apply app_inj_tail in H as [_ H]. inv H.
           eapply Hn; [apply in_or_app; right; left; reflexivity|reflexivity].
    + assert (Hne : m <> n).
      { intros ->. assert (bytes_eqb n n = true) by now apply bytes_eqb_eq. congruence. }
      rewrite IH. split.
      * intros (older & newer & H & Hn). exists older, (newer ++ [(m, u)]). split.
        -- rewrite H. rewrite <- app_assoc. reflexivity.
        -- intros m' u' Hi. apply in_app_or in Hi as [Hi|[[= <- <-]|[]]]; [eauto|assumption].
      * intros (older & newer & H & Hn). destruct newer as [|[m' u'] newer] using rev_ind.
        -- apply app_inj_tail in H as [_ H]. inv H. congruence.
        -- rewrite app_comm_cons, app_assoc in H. apply app_inj_tail in H as [H _].
           exists older, newer. split; [exact H|]. intros m1 u1 Hi. eapply Hn. apply in_or_app. left. exact Hi.
Qed.
