(** * Runs of a simple parser with its user data.
    For parsers without whitespace, word, memoisation, macros, left recursion, predicates:
    every run of the engine is a run of the following relation, in which the user data
    is passed from call to call.  Used for the parser of grammar texts. *)
From Verif Require Import Base BaseLemmas Utf8 Utf8Proofs Escape TrieM LineInfo Ope Ctx ErrLog Engine EngineLemmas Frame Scope Bounds Mono Top FirstSetM FirstSetup
  RefSem RefMono Refine RefineOps RefineRule RefineMain.

(** Operators without sub-expressions. *)
Definition leaf (o : ope) : bool := match o with Lit _ _ | Cls _ _ _ | Chr _ | Dot => true | _ => false end.
(** Operators covered; a repetition may carry a byte set if it is over a class. *)
Fixpoint simple (o : ope) : bool :=
  match o with
  | Seq None l | Cho _ _ l => forallb simple l
  | Rep e _ _ None => simple e
  | Rep e _ _ (Some _) => leaf e
  | And e | Not e | Tok e | Ign e => simple e
  | Lit _ _ | Cls _ _ _ | Chr _ | Dot | Wkh _ => true
  | _ => false
  end.

Section Run.
  Context {V U : Type}.
  Notation env := (env V U).
  Notation ctx := (ctx V U).
  Notation sv := (sv V).
  Notation rv := (rv V).
  Variable E : env.

  (** The meaning of an operator without sub-expressions. *)
  Definition leaf_out (o : ope) (pos : nat) (vs : sv) : option rv :=
    ref_core 0 (fun _ _ _ _ _ _ _ => None) E None no_frame m_top o pos vs.

  Section Lists.
    Variable run : ope -> nat -> sv -> U -> rv -> U -> Prop.
    Fixpoint run_seq (l : list ope) (pos i : nat) (vs : sv) (d : U) (x : rv) (d' : U) : Prop :=
      match l with
      | [] => x = Some (i, vs) /\ d' = d
      | o :: l' => exists y d1, run o (pos + i) vs d y d1 /\
          match y with
          | None => x = None /\ d' = d1
          | Some (n, vs1) => run_seq l' pos (i + n) vs1 d1 x d'
          end
      end.
    (** An alternative that fails may have been left out because of its first set; then
        its calls have not been made. *)
    Fixpoint run_cho (total : nat) (l : list ope) (id pos : nat) (vs : sv) (d : U) (x : rv) (d' : U) : Prop :=
      match l with
      | [] => x = None /\ d' = d
      | o :: l' => exists y d1, run o pos vs d y d1 /\
          match y with
          | Some (n, vs1) => x = Some (n, set_choice total id vs1) /\ d' = d1
          | None => exists d2, (d2 = d \/ d2 = d1) /\ run_cho total l' (S id) pos vs d2 x d'
          end
      end.
    Fixpoint run_min (e : ope) (n : nat) (pos i : nat) (vs : sv) (d : U) (x : rv) (d' : U) : Prop :=
      match n with
      | O => x = Some (i, vs) /\ d' = d
      | S n' => exists y d1, run e (pos + i) vs d y d1 /\
          match y with
          | None => x = None /\ d' = d1
          | Some (k, vs1) => run_min e n' pos (i + k) vs1 d1 x d'
          end
      end.
    Fixpoint run_more (fuel : nat) (e : ope) (room : option nat) (pos i : nat) (vs : sv) (d : U) (x : rv) (d' : U) : Prop :=
      match room with
      | Some O => x = Some (i, vs) /\ d' = d
      | _ =>
        match fuel with
        | O => False
        | S fuel' => exists y d1, run e (pos + i) vs d y d1 /\
            match y with
            | None => x = Some (i, vs) /\ d' = d1
            | Some (k, vs1) => run_more fuel' e (option_map pred room) pos (i + k) vs1 d1 x d'
            end
        end
      end.
    Definition run_rep (fuel : nat) (e : ope) (mn : nat) (mx : option nat) (pos : nat) (vs : sv) (d : U) (x : rv) (d' : U) : Prop :=
      exists y d1, run_min e mn pos 0 vs d y d1 /\
        match y with
        | None => x = None /\ d' = d1
        | Some (i, vs1) =>
          match mx with
          | Some q => if mn <? q then run_more fuel e (Some (q - mn)) pos i vs1 d1 x d' else x = Some (i, vs1) /\ d' = d1
          | None => run_more fuel e None pos i vs1 d1 x d'
          end
        end.
  End Lists.

  (** Rules: is the value dropped, the tag, the body. *)
  Variable rules : rid -> option (bool * N * ope).
  Definition enter_dt (r : rid) (pos : nat) (d : U) : U := match e_enter E r with Some f => f (e_input E) pos d | None => d end.
  Definition leave_dt (r : rid) (pos : nat) (l : option nat) (v : option V) (d : U) : option V * U :=
    match e_leave E r with Some f => f (e_input E) pos l v d | None => (v, d) end.
  Definition act_dt (r : rid) (vs : sv) (d : U) : option V * U :=
    match e_action E r with Some f => f (e_input E) vs d None | None => (front (v_vals vs), d) end.
  (** [run k o pos vs d x d']: evaluating [o] at [pos] with values [vs] and data [d]
      may end with [x] and data [d']. *)
  Fixpoint run (k : nat) (o : ope) (pos : nat) (vs : sv) (d : U) (x : rv) (d' : U) : Prop :=
    match k with
    | O => False
    | S k' =>
      match o with
      | Lit _ _ | Cls _ _ _ | Chr _ | Dot => leaf_out o pos vs = Some x /\ d' = d
      | Seq _ l => run_seq (run k') l pos 0 vs d x d'
      | Cho _ _ l => run_cho (run k') (List.length l) l 0 pos vs d x d'
      | Rep e mn mx _ =>
        if leaf e then ref_rep k' (leaf_out e) mn mx pos vs = Some x /\ d' = d
        else run_rep (run k') k' e mn mx pos vs d x d'
      | And e => exists y, run k' e pos vs d y d' /\ x = match y with Some _ => Some (0, vs) | None => None end
      | Not e => exists y, run k' e pos vs d y d' /\ x = match y with Some _ => None | None => Some (0, vs) end
      | Tok e => exists y, run k' e pos vs d y d' /\ x = match y with Some (n, vs1) => Some (n, push_tok (pos, n) vs1) | None => None end
      | Ign e => exists y, run k' e pos sv_new d y d' /\ x = match y with Some (n, _) => Some (n, vs) | None => None end
      | Wkh r => run k' (Hld r) pos vs d x d'
      | Hld r =>
        exists ign tag body y d1, rules r = Some (ign, tag, body) /\ run k' body pos sv_new (enter_dt r pos d) y d1 /\
          match y with
          | None => x = None /\ d' = snd (leave_dt r pos None None d1)
          | Some (n, v) =>
            let (val, d2) := act_dt r (seen r body pos n v) d1 in
            let (val', d3) := leave_dt r pos (Some n) val d2 in
            x = Some (n, if ign then vs else push_val val' tag vs) /\ d' = d3
          end
      | _ => False
      end
    end.

  (** ** Every run of the engine is a run of the relation *)
  Context {kp : keepvals}.
  Variables al wal : modes.
  Hypothesis HA : okA E al wal.
  Hypothesis Hstrict : ~ loose E.
  Hypothesis Hws : e_ws E = None.
  Hypothesis Hword : e_word E = None.
  Hypothesis Hpk : e_packrat E = false.
  Hypothesis Hrec : e_recog E = false.
  Hypothesis Htr : e_tracer E = false.
  Hypothesis Hpred : forall r, e_pred E r = None.
  Hypothesis Hrules : forall r d b, get_body E r = Some (d, b) ->
    r_is_macro d = false /\ r_lr d = false /\ r_no_whitespace d = false /\ r_macro_ref d = false /\ r_disable_action d = false /\ r_params d = []
    /\ simple b = true /\ rules r = Some (r_ignore d, str2tag (r_name d), strip b).

  Lemma simple_nopre o : simple o = true -> nopre o = true.
  Proof.
    induction o using ope_ind'; cbn [simple nopre]; intros Hs; try reflexivity; try discriminate; auto.
    - destruct kg; [discriminate|]. rewrite forallb_forall in *. rewrite Forall_forall in H. auto.
    - rewrite forallb_forall in *. rewrite Forall_forall in H. auto.
    - destruct sp; [destruct o; try discriminate; reflexivity|auto].
  Qed.
  Lemma simple_mref g o : simple o = true -> mref g o = false.
  Proof.
    induction o using ope_ind'; cbn [simple mref]; intros Hs; try reflexivity; try discriminate; auto.
    - destruct kg; [discriminate|]. rewrite forallb_forall in Hs. rewrite Forall_forall in H. apply not_true_iff_false. intros X.
      apply existsb_exists in X as (a & Ha & X). rewrite H in X by auto. discriminate.
    - rewrite forallb_forall in Hs. rewrite Forall_forall in H. apply not_true_iff_false. intros X.
      apply existsb_exists in X as (a & Ha & X). rewrite H in X by auto. discriminate.
    - destruct sp; [destruct o; try discriminate; reflexivity|auto].
  Qed.
  Lemma no_op r : ~ op_of E r.
  Proof.
    intros (r0 & d & a & nm & ia & mac & args & i & q & Hd & Hb).
    destruct (Hrules r0 d (Pre a (Ref nm (Some r) ia mac args) i q)) as (_ & _ & _ & _ & _ & _ & X & _); [|discriminate].
    unfold get_body. rewrite Hd. cbn [obind]. now rewrite Hb.
  Qed.
  Lemma spre o c : simple o = true -> chk E al m_top o -> pre E al no_frame m_top o c.
  Proof.
    intros Hs Hc. destruct o; cbn [pre]; try discriminate; (split; [exact Hc|]; intros X; rewrite simple_mref in X by exact Hs; discriminate).
  Qed.
  Lemma tok_same m : tok_mode E m = m.
  Proof. unfold tok_mode. now rewrite Hws. Qed.

  Lemma sim_step k o pos vs x c f r vs' c' : nopre o = true -> pre E al no_frame m_top o c ->
    ref k E None no_frame m_top o pos vs = Some x -> inv k E al None m_top c -> pos <= inlen E ->
    parse f E o pos vs c = Ok (r, vs', c') ->
    r = len_of x /\ (forall n v, x = Some (n, v) -> vs' = v) /\ rpost E al c c' /\ ext vs vs' /\ pos_ok E pos (len_of x).
  Proof.
    intros Hn Hpre Hr Hi Hp Hf.
    destruct (refines_all k E al wal None no_frame m_top o pos vs x vs c HA Hr Hn Hpre (so_none _)) as (vs2 & c2 & [F A] & B & Q & X & P); auto.
    { split; [constructor|reflexivity]. }
    { now right. }
    specialize (A (F + f) ltac:(lia)). rewrite (below_Ok _ _ _ (parse_below f (F + f) E o pos vs c ltac:(lia)) Hf) in A. inv A.
    repeat (split; [auto; fail|]). split; [|auto]. intros n v ->. destruct B as [B|B]; [contradiction|exact B].
  Qed.

  Definition sims (k : nat) : Prop := forall o pos vs x c f r vs' c', (simple o = true \/ exists q, o = Hld q) ->
    pre E al no_frame m_top o c -> ref k E None no_frame m_top o pos vs = Some x -> inv k E al None m_top c -> pos <= inlen E ->
    parse f E o pos vs c = Ok (r, vs', c') -> run k (strip o) pos vs (c_dt c) x (c_dt c').

  Section Step.
    Variable k : nat.
    Hypothesis IH : sims k.
    Notation R := (ref k E None no_frame m_top).
    Notation I c := (inv k E al None m_top c).
    Definition fit (o : ope) : Prop := simple o = true /\ chk E al m_top o.

    Lemma step o pos vs x c f r vs' c' : fit o -> R o pos vs = Some x -> I c -> pos <= inlen E -> parse f E o pos vs c = Ok (r, vs', c') ->
      run k (strip o) pos vs (c_dt c) x (c_dt c') /\ r = len_of x /\ (forall n v, x = Some (n, v) -> vs' = v /\ pos + n <= inlen E)
      /\ rpost E al c c' /\ ext vs vs' /\ I c'.
    Proof.
      intros [Hs Hc] Hr Hi Hp Hf. pose proof (spre o c Hs Hc) as Hpre. split; [eapply IH; eauto|].
      destruct (sim_step k o pos vs x c f r vs' c' (simple_nopre o Hs) Hpre Hr Hi Hp Hf) as (A & B & Q & X & P).
      split; [exact A|]. split; [|split; [exact Q|split; [exact X|eapply inv_post; eauto]]].
      intros n v ->. split; [now apply (B n)|]. now apply P.
    Qed.

    Lemma sim_seq f : forall l, Forall fit l -> forall pos i vs x c r vs' c', ref_seq R l pos i vs = Some x -> I c -> pos + i <= inlen E ->
      seq_loop E (parse f) l pos i vs c = Ok (r, vs', c') -> run_seq (run k) (map strip l) pos i vs (c_dt c) x (c_dt c').
    Proof.
      induction 1 as [|o l Ho _ IHl]; intros pos i vs x c r vs' c' Hr Hi Hp H; cbn [ref_seq seq_loop map run_seq] in *.
      - inv Hr. inv H. auto.
      - oinv Hr. binv H. destruct (step o (pos + i) vs a c f r0 v k0 Ho Hm Hi Hp Hm0) as (A & -> & B & _ & _ & D).
        exists a, (c_dt k0). split; [exact A|]. destruct a as [[n w]|]; cbn [len_of] in H.
        + destruct (B n w eq_refl) as [-> B2]. eapply IHl; eauto. lia.
        + inv Hr. inv H. auto.
    Qed.

    Lemma sim_cho f fs total lall : ann_cho E fs lall ->
      forall l, Forall fit l -> forall id, (forall i o, nth_error l i = Some o -> nth_error lall (id + i) = Some o) ->
      forall pos vs x c r vs' c', ref_cho R total l id pos vs = Some x -> I c -> pos <= inlen E ->
      cho_loop E (parse f) fs total l id pos vs c = Ok (r, vs', c') -> run_cho (run k) total (map strip l) id pos vs (c_dt c) x (c_dt c').
    Proof.
      intros Han. induction 1 as [|o l Ho _ IHl]; intros id Hn pos vs x c r vs' c' Hr Hi Hp H; cbn [ref_cho cho_loop map run_cho] in *.
      - inv Hr. inv H. auto.
      - assert (Hn' : forall i o, nth_error l i = Some o -> nth_error lall (S id + i) = Some o).
        { intros i o' Hx. replace (S id + i) with (id + S i) by lia. now apply Hn. }
        oinv Hr. binv H. rename a0 into skip. destruct skip.
        + assert (a = None).
          { eapply Han; [|exact Hp|exact Hm0|apply so_none|exact Hm]. specialize (Hn 0 o eq_refl). now rewrite Nat.add_0_r in Hn. }
          subst a.
          assert (Hran : exists c1, run k (strip o) pos vs (c_dt c) None c1).
          { destruct Ho as [Hs Hc].
            destruct (refines_all k E al wal None no_frame m_top o pos vs None vs c HA Hm (simple_nopre o Hs) (spre o c Hs Hc) (so_none _)) as (vs2 & c2 & A & _); auto.
            { split; [constructor|reflexivity]. }
            { now right. }
            apply ev_pick in A as [f2 A]. exists (c_dt c2). eapply IH; eauto. now apply spre. }
          destruct Hran as [d1 Hran]. exists None, d1. split; [exact Hran|]. exists (c_dt c). split; [now left|].
          assert (Q : rpost E al c (fs_error fs id pos c)) by (apply rp_fs_error; [apply Hi|assumption]).
          replace (c_dt c) with (c_dt (fs_error fs id pos c)).
          2:{ unfold fs_error. destruct (nth_error fs id) as [f0|]; [|reflexivity]. destruct (fs_first_literal f0), (fs_first_rule f0); try reflexivity; destruct (_ && _); reflexivity. }
          eapply IHl; eauto. eapply inv_post; eauto.
        + cbv zeta in H. set (c1 := if e_has_cut E then set_cut_top false c else c) in *.
          set (c2 := set_err (err_keep (0 <? id) (c_err c1)) c1) in *.
          assert (Q1 : rpost E al c c1).
          { unfold c1. destruct (e_has_cut E); [apply rp_cut_false|apply rpost_refl]; apply Hi. }
          assert (Q2 : rpost E al c c2).
          { eapply rpost_trans; [exact Q1|]. apply rp_err. eapply step_inb, step_keep. apply Q1. }
          assert (Hd2 : c_dt c2 = c_dt c).
          { unfold c2, c1. destruct (e_has_cut E); [|reflexivity]. unfold set_cut_top. destruct (c_cut c); reflexivity. }
          binv H. destruct (step o pos vs a c2 f r0 v k0 Ho Hm (inv_post _ _ _ _ _ _ _ Hi Q2) Hp Hm1) as (A & -> & B & Q & X & D).
          exists a, (c_dt k0). rewrite Hd2 in A. split; [exact A|]. destruct a as [[n w]|]; cbn [len_of] in H.
          * destruct (B n w eq_refl) as [-> B2]. inv Hr. inv H. auto.
          * exists (c_dt k0). split; [now right|]. rewrite (rollback_ext _ _ X) in H.
            assert (Q3 : rpost E al c2 (rollback_c c2 k0)) by now apply rp_rollback.
            assert (Hct : e_has_cut E && cut_top (rollback_c c2 k0) = false).
            { destruct (e_has_cut E) eqn:Hhc; [|reflexivity]. cbn [andb].
              destruct (cut_top (rollback_c c2 k0)) eqn:Hct; [|reflexivity].
              apply Q3 in Hct. unfold c2, c1 in Hct. change (cut_top (set_cut_top false c) = true) in Hct. now rewrite cut_top_false in Hct. }
            rewrite Hct in H. replace (c_dt k0) with (c_dt (rollback_c c2 k0)) by reflexivity.
            eapply IHl; eauto. exact (inv_post _ _ _ _ _ _ _ (inv_post _ _ _ _ _ _ _ Hi Q2) Q3).
    Qed.

    Lemma sim_min f e : fit e -> forall n pos i vs x c r vs' c', ref_min (R e) n pos i vs = Some x -> I c -> pos + i <= inlen E ->
      rep_min E (parse f) e n pos i vs c = Ok (r, vs', c') ->
      run_min (run k) (strip e) n pos i vs (c_dt c) x (c_dt c') /\ r = len_of x /\ (forall j v, x = Some (j, v) -> vs' = v /\ pos + j <= inlen E) /\ I c'.
    Proof.
      intros He. induction n as [|n IHn]; intros pos i vs x c r vs' c' Hr Hi Hp H; cbn [ref_min rep_min run_min] in *.
      - inv Hr. inv H. repeat (split; [auto; fail|]). split; [|exact Hi]. intros j v Hj. inv Hj. auto.
      - oinv Hr. binv H. destruct (step e (pos + i) vs a c f r0 v k0 He Hm Hi Hp Hm0) as (A & -> & B & _ & _ & D).
        destruct a as [[j w]|]; cbn [len_of] in H.
        + destruct (B j w eq_refl) as [-> B2]. destruct (IHn pos (i + j) w x k0 r vs' c' Hr D ltac:(lia) H) as (A1 & A2 & A3 & A4).
          split; [|auto]. exists (Some (j, w)), (c_dt k0). auto.
        + inv Hr. inv H. split; [|split; [reflexivity|split; [discriminate|exact D]]]. exists None, (c_dt c'). auto.
    Qed.
    Lemma sim_more e : fit e -> forall fr f room pos i vs x c r vs' c', ref_more fr (R e) room pos i vs = Some x -> I c -> pos + i <= inlen E ->
      forall ff, rep_more ff E (parse f) e room pos i vs c = Ok (r, vs', c') ->
      run_more (run k) fr (strip e) room pos i vs (c_dt c) x (c_dt c').
    Proof.
      intros He. induction fr as [|fr IHf]; intros f room pos i vs x c r vs' c' Hr Hi Hp ff H.
      - destruct room as [[|q]|]; cbn [ref_more] in Hr; try discriminate. inv Hr. destruct ff; cbn [rep_more] in H; inv H; cbn; auto.
      - destruct room as [[|q]|]; cbn [ref_more run_more] in *.
        + inv Hr. destruct ff; cbn [rep_more] in H; inv H; cbn; auto.
        + destruct ff as [|ff]; [discriminate|]. cbn [rep_more] in H. oinv Hr. binv H.
          destruct (step e (pos + i) vs a c f r0 v k0 He Hm Hi Hp Hm0) as (A & -> & B & Q & X & D). exists a, (c_dt k0). split; [exact A|].
          destruct a as [[j w]|]; cbn [len_of] in H.
          * destruct (B j w eq_refl) as [-> B2]. eapply IHf; eauto. lia.
          * inv Hr. inv H. auto.
        + destruct ff as [|ff]; [discriminate|]. cbn [rep_more] in H. oinv Hr. binv H.
          destruct (step e (pos + i) vs a c f r0 v k0 He Hm Hi Hp Hm0) as (A & -> & B & Q & X & D). exists a, (c_dt k0). split; [exact A|].
          destruct a as [[j w]|]; cbn [len_of] in H.
          * destruct (B j w eq_refl) as [-> B2]. eapply IHf; eauto. lia.
          * inv Hr. inv H. auto.
    Qed.

    (** Operators without sub-expressions leave the data alone. *)
    Lemma leaf_dt f o pos vs c r vs' c' : leaf o = true -> parse f E o pos vs c = Ok (r, vs', c') -> c_dt c' = c_dt c.
    Proof.
      intros Hl H. destruct f as [|f]; [discriminate|]. cbn [parse] in H. unfold traced, is_traceable in H. rewrite Htr in H. cbn [andb] in H.
      assert (Herr : forall p l c0, c_dt (set_error_pos E p l c0) = c_dt c0).
      { intros p l c0. unfold set_error_pos. destruct (c_log c0); [|reflexivity]. destruct (ole _ _); [|reflexivity]. cbv zeta.
        match goal with |- context [match ?a with Some _ => _ | None => _ end] => destruct a end; [reflexivity|].
        match goal with |- context [match ?a with Some _ => _ | None => _ end] => destruct a end; reflexivity. }
      destruct o; try discriminate; cbn [parse_core] in H.
      - unfold parse_literal in H. binv H. destruct a; [|inv H; apply Herr]. rewrite Hword in H. cbn [bind] in H.
        unfold then_skip, skip_whitespace in H. rewrite Hws in H. cbn [bind] in H. inv H. reflexivity.
      - unfold parse_cls, fail_at in H. destruct (_ =? 0); [inv H; apply Herr|]. binv H. binv H. destruct (xorb _ _); inv H; [reflexivity|apply Herr].
      - unfold parse_chr, fail_at in H. destruct (_ =? 0); [inv H; apply Herr|]. binv H. destruct (_ =? _)%N; inv H; [reflexivity|apply Herr].
      - unfold parse_dot, fail_at in H. binv H. destruct (_ <? _); inv H; [apply Herr|reflexivity].
    Qed.
    Lemma leaf_min f e : leaf e = true -> forall n pos i vs c r vs' c', rep_min E (parse f) e n pos i vs c = Ok (r, vs', c') -> c_dt c' = c_dt c.
    Proof.
      intros He. induction n as [|n IHn]; intros pos i vs c r vs' c' H; cbn [rep_min] in H; [inv H; reflexivity|].
      binv H. apply (leaf_dt _ _ _ _ _ _ _ _ He) in Hm. destruct r0; [|inv H; assumption]. apply IHn in H. congruence.
    Qed.
    Lemma leaf_more f e : leaf e = true -> forall n room pos i vs c r vs' c', rep_more n E (parse f) e room pos i vs c = Ok (r, vs', c') -> c_dt c' = c_dt c.
    Proof.
      intros He. induction n as [|n IHn]; intros room pos i vs c r vs' c' H.
      - destruct room as [[|q]|]; cbn [rep_more] in H; inv H; reflexivity.
      - destruct room as [[|q]|]; cbn [rep_more] in H; [inv H; reflexivity|..];
          (binv H; apply (leaf_dt _ _ _ _ _ _ _ _ He) in Hm; destruct r0; [apply IHn in H; congruence|inv H; exact Hm]).
    Qed.
    Lemma leaf_sub j e : leaf e = true -> forall pos vs, sub_of (ref j E None no_frame m_top e pos vs) (leaf_out e pos vs).
    Proof.
      intros He pos vs. destruct j as [|j]; [now left|]. unfold leaf_out. cbn [ref].
      destruct e; try discriminate; cbn [ref_core]; unfold ref_lit, ref_then, ref_skip; rewrite ?Hword, ?Hws; apply sub_refl.
    Qed.
  End Step.

  (** More depth does no harm. *)
  Lemma mono_seq (r1 r2 : ope -> nat -> sv -> U -> rv -> U -> Prop) : (forall o pos vs d x d', r1 o pos vs d x d' -> r2 o pos vs d x d') ->
    forall l pos i vs d x d', run_seq r1 l pos i vs d x d' -> run_seq r2 l pos i vs d x d'.
  Proof.
    intros Hr. induction l as [|o l IHl]; intros pos i vs d x d' H; cbn [run_seq] in *; [exact H|].
    destruct H as (y & d1 & A & B). exists y, d1. split; [auto|]. destruct y as [[n v]|]; auto.
  Qed.
  Lemma mono_cho (r1 r2 : ope -> nat -> sv -> U -> rv -> U -> Prop) : (forall o pos vs d x d', r1 o pos vs d x d' -> r2 o pos vs d x d') ->
    forall t l id pos vs d x d', run_cho r1 t l id pos vs d x d' -> run_cho r2 t l id pos vs d x d'.
  Proof.
    intros Hr t. induction l as [|o l IHl]; intros id pos vs d x d' H; cbn [run_cho] in *; [exact H|].
    destruct H as (y & d1 & A & B). exists y, d1. split; [auto|]. destruct y as [[n v]|]; auto. destruct B as (d2 & B & C). eauto.
  Qed.
  Lemma mono_min (r1 r2 : ope -> nat -> sv -> U -> rv -> U -> Prop) : (forall o pos vs d x d', r1 o pos vs d x d' -> r2 o pos vs d x d') ->
    forall e n pos i vs d x d', run_min r1 e n pos i vs d x d' -> run_min r2 e n pos i vs d x d'.
  Proof.
    intros Hr e. induction n as [|n IHn]; intros pos i vs d x d' H; cbn [run_min] in *; [exact H|].
    destruct H as (y & d1 & A & B). exists y, d1. split; [auto|]. destruct y as [[m v]|]; auto.
  Qed.
  Lemma mono_more (r1 r2 : ope -> nat -> sv -> U -> rv -> U -> Prop) : (forall o pos vs d x d', r1 o pos vs d x d' -> r2 o pos vs d x d') ->
    forall e f1 f2, f1 <= f2 -> forall room pos i vs d x d', run_more r1 f1 e room pos i vs d x d' -> run_more r2 f2 e room pos i vs d x d'.
  Proof.
    intros Hr e. induction f1 as [|f1 IHf]; intros f2 Hf room pos i vs d x d' H.
    - destruct room as [[|q]|]; cbn [run_more] in H; try contradiction. destruct f2; exact H.
    - destruct f2 as [|f2]; [lia|]. destruct room as [[|q]|]; cbn [run_more] in *; [exact H|..];
        (destruct H as (y & d1 & A & B); exists y, d1; split; [auto|]; destruct y as [[m v]|]; [|exact B]; eapply IHf; [lia|exact B]).
  Qed.
  Lemma run_mono : forall k k', k <= k' -> forall o pos vs d x d', run k o pos vs d x d' -> run k' o pos vs d x d'.
  Proof.
    induction k as [|k IHk]; intros [|k'] Hk o pos vs d x d' H; try contradiction; [lia|]. assert (Hk' : k <= k') by lia. specialize (IHk k' Hk').
    destruct o; cbn [run] in *; try exact H; try (destruct H as (y & A & B); exists y; split; auto; fail); auto.
    - eapply mono_seq; eauto.
    - eapply mono_cho; eauto.
    - destruct (leaf o).
      + destruct H as [H ->]. split; [|reflexivity]. eapply sub_Some; [|exact H]. apply s_rep; [intros; apply sub_refl|exact Hk'].
      + destruct H as (y & d1 & A & B). exists y, d1. split; [eapply mono_min; eauto|]. destruct y as [[i v]|]; [|exact B].
        destruct max as [q|]; [destruct (min <? q); [|exact B]|]; eapply mono_more; eauto.
    - destruct H as (ign & tag & body & y & d1 & A & B & C). exists ign, tag, body, y, d1. auto.
  Qed.

  (** A rule. *)
  Lemma sim_hld k q : (forall j, j <= k -> sims j) -> forall pos vs x c f r vs' c', pre E al no_frame m_top (Hld q) c ->
    ref (S k) E None no_frame m_top (Hld q) pos vs = Some x -> inv (S k) E al None m_top c -> pos <= inlen E ->
    parse f E (Hld q) pos vs c = Ok (r, vs', c') -> run (S k) (Hld q) pos vs (c_dt c) x (c_dt c').
  Proof.
    intros IH pos vs x c f r vs' c' [Hal _] Hr Hi Hp H.
    destruct f as [|f]; [discriminate|]. cbn [parse] in H. unfold traced, is_traceable in H. rewrite Htr in H. cbn [andb parse_core] in H.
    cbn [ref ref_core] in Hr. unfold ref_hld in Hr. destruct (get_body E q) as [[d body]|] eqn:Hg; [|discriminate]. cbn [obind] in Hr.
    destruct (Hrules q d body Hg) as (H1 & H2 & H3 & H4 & H5 & H6 & H7 & H8). rewrite H1 in Hr.
    pose proof (get_body_inv _ _ _ _ Hg) as [Hd Hb].
    assert (Hcall : exists y, call (S k) E m_top q pos = Some y /\ x = match y with Some (n, v) => Some (n, if r_ignore d then vs else push_val v (str2tag (r_name d)) vs) | None => None end).
    { cbn [call]. unfold ref_call. rewrite Hg. cbn [obind]. oinv Hr. inv Hr. eexists. split; [exact Hm|]. destruct a as [[n v]|]; reflexivity. }
    clear Hr. destruct Hcall as (y & Hc & Hx).
    destruct (call_least _ _ _ _ _ _ Hc) as (j & Hj & Hcj & Hnj). assert (Hj' : j <= k) by lia.
    assert (Hu : undef j E al q pos).
    { intros m Hm. rewrite (ok_mode _ _ (oa_main _ _ _ HA) q m m_top d Hd H1 Hm Hal). exact Hnj. }
    assert (Hdef : ~ undef (S k) E al q pos). { intros X. rewrite (X m_top Hal) in Hc. discriminate. }
    unfold parse_hld, get_rule in H. rewrite Hd in H. cbn [bind] in H. rewrite Hb, H1, Hrec in H. cbn [andb] in H. rewrite H2, Hpk in H.
    unfold guard in H. destruct (lr_find (c_lrm c) (q, pos)) as [[l v]|] eqn:Hf.
    { exfalso. destruct (i_lrm _ _ _ _ _ _ Hi q pos l v Hf) as [[_ (d' & Hd' & Hl')]|Hv]; [congruence|contradiction]. }
    set (c1 := set_lrm (lr_set (q, pos) (None, None) (c_lrm c)) c) in *.
    assert (Hi1 : inv j E al None m_top c1) by (eapply (inv_mark_lrm (S k)); eauto; lia).
    cbn [call] in Hcj. unfold ref_call in Hcj. rewrite Hg in Hcj. cbn [obind] in Hcj. unfold ref_rule in Hcj. rewrite H2 in Hcj. unfold ref_once in Hcj.
    rewrite H3, H6 in Hcj. oinv Hcj. rename a into b, Hm into Hbody.
    set (c2 := match e_enter E q with Some f => set_dt (f (e_input E) pos (c_dt c1)) c1 | None => c1 end) in *.
    assert (Hc2 : inv j E al None m_top c2 /\ c_dt c2 = enter_dt q pos (c_dt c)).
    { unfold c2, enter_dt. destruct (e_enter E q); [|split; [exact Hi1|reflexivity]]. split; [|reflexivity].
      eapply inv_same; [exact Hi1|..]; try reflexivity; [apply inb_same with c1; auto; apply Hi1|apply Hi1]. }
    destruct Hc2 as [Hi2 Hd2].
    set (c3 := if e_need_rules E || r_macro_ref d then set_rstk (q :: c_rstk c2) c2 else c2) in *.
    assert (Hc3 : inv j E al None m_top c3 /\ c_dt c3 = c_dt c2).
    { unfold c3. destruct (_ || _); [|split; [exact Hi2|reflexivity]]. split; [|reflexivity].
      eapply inv_same; [exact Hi2|..]; try reflexivity; [apply inb_same with c2; auto; apply Hi2|apply Hi2]. }
    destruct Hc3 as [Hi3 Hd3].
    assert (Hpure : pure E) by (destruct (ok_pure _ _ (oa_main _ _ _ HA)) as [X|X]; [contradiction|exact X]).
    assert (Hfit : fit body).
    { split; [exact H7|]. destruct (ok_rule _ _ (oa_main _ _ _ HA) q m_top d body Hal Hd Hb) as [_ X]. rewrite H1, H3 in X. apply X. }
    binv H. binv Hm. injection Hm as <- <- Hk0. rename Hm0 into Hm. unfold do_parse in Hm. fold c1 in Hm. fold c2 in Hm. binv Hm. rename Hm0 into Hpb. unfold parse_ope_body in Hpb. fold c3 in Hpb. rewrite H3 in Hpb. binv Hpb. rename Hm0 into Hm1, Hm into Hm0, Hpb into Hm.
    match type of Hm1 with parse _ _ _ _ _ _ = Ok (?a, ?b, ?c) => rename a into rb, b into vb, c into cb end.
    destruct (step j (IH j Hj') body pos sv_new b c3 f rb vb cb Hfit Hbody Hi3 Hp Hm1) as (A & -> & B & Q & X & D).
    rewrite Hd3, Hd2 in A. cbn [run]. exists (r_ignore d), (str2tag (r_name d)), (strip body), b, (c_dt cb).
    split; [exact H8|]. split; [eapply run_mono; [exact Hj'|exact A]|].
    inv Hm. cbv beta iota zeta in Hm0. rewrite Hpred in Hm0.
    set (cc := if e_need_rules E || r_macro_ref d then set_rstk (tl (c_rstk cb)) cb else cb) in *.
    assert (Hcc : c_dt cc = c_dt cb /\ c_rcv cc = false /\ c_prec cc = c_prec cb).
    { unfold cc. destruct (_ || _); (split; [reflexivity|]; split; [apply D|reflexivity]). }
    destruct Hcc as (Hcc1 & Hcc2 & Hcc3). match type of X with ext _ ?w => rename w into vb end.
    destruct b as [[n v]|]; cbn [len_of] in *.
    - destruct (B n v eq_refl) as [-> Bn]. rewrite Hcc2 in Hm0.
      assert (Hseen : seen q (strip body) pos n v
        = (if is_choice_like (match body with Tok e => e | _ => body end) then set_name (Some q) (set_span (pos, n) v) else set_choice 0 0 (set_name (Some q) (set_span (pos, n) v)))).
      { unfold seen. replace (is_choice_like (match strip body with Tok e => e | _ => strip body end)) with (is_choice_like (match body with Tok e => e | _ => body end)); [reflexivity|].
        destruct body; try reflexivity. cbn [strip]. match goal with |- is_choice_like ?e = _ => destruct e; reflexivity end. }
      rewrite <- Hseen in Hm0. set (w := seen q (strip body) pos n v) in *.
      destruct (reduce E q d w None cc) as [v1 c4] eqn:Hred.
      assert (Hact : act_dt q w (c_dt cb) = (v1, c_dt c4)).
      { unfold reduce, has_action in Hred. unfold act_dt.
        assert (Hwr : wrapped cc q = false).
        { apply not_true_iff_false. intros Y. apply (no_op q). apply (i_prec _ _ _ _ _ _ D). unfold wrapped in *. now rewrite <- Hcc3. }
        rewrite Hwr, H5 in Hred. cbn [orb negb] in Hred. destruct (e_action E q) as [g|] eqn:Ha; cbn [andb] in Hred.
        - unfold run_action in Hred. rewrite Ha in Hred. change (c_dt (set_prec _ cc)) with (c_dt cc) in Hred. rewrite Hcc1 in Hred.
          destruct (g (e_input E) w (c_dt cb) None) as [v2 d2]. inv Hred. reflexivity.
        - inv Hred. now rewrite Hcc1. }
      rewrite Hact. unfold leave_dt. inv Hcj.
      assert (Hv1 : (match e_action E q with Some f => if r_disable_action d then front (v_vals w) else fst (f (e_input E) w (e_u0 E) None) | None => front (v_vals w) end) = v1).
      { unfold act_dt in Hact. destruct (e_action E q) as [g|] eqn:Ha; [|inv Hact; reflexivity]. rewrite H5.
        rewrite <- (pu_action _ Hpure q g (e_input E) w (c_dt cb) (e_u0 E) None Ha), Hact. reflexivity. }
      unfold ref_value. rewrite Hpred. cbv zeta. rewrite <- Hseen. fold w. rewrite Hv1.
      destruct (e_leave E q) as [g|] eqn:Hl.
      + destruct (g (e_input E) pos (Some n) v1 (c_dt c4)) as [v2 d2] eqn:Hgl.
        rewrite <- (pu_leave _ Hpure q g (e_input E) pos (Some n) v1 (c_dt c4) (e_u0 E) Hl), Hgl. cbn [fst]. inv Hm0. inv H. auto.
      + inv Hm0. inv H. auto.
    - inv Hcj. cbv zeta in Hm0.
      match type of Hm0 with context [(None, None, ?e)] => set (cd := e) in *; assert (Hcd : c_dt cd = c_dt cb) by (unfold cd; destruct (_ && _); exact Hcc1) end.
      unfold leave_dt. destruct (e_leave E q) as [g|].
      + rewrite Hcd in Hm0. destruct (g (e_input E) pos None None (c_dt cb)) as [v2 d2]. inv Hm0. inv H. auto.
      + inv Hm0. inv H. auto.
  Qed.

  Theorem all_sims : forall k, sims k.
  Proof.
    induction k as [k IHs] using lt_wf_ind. destruct k as [|k]; [intros o pos vs x c f r vs' c' _ _ X; discriminate|].
    assert (IHle : forall j, j <= k -> sims j) by (intros; apply IHs; lia). assert (IH : sims k) by auto.
    intros o pos vs x c f r vs' c' Hs Hpre Hr Hi Hp H.
    assert (Hik : inv k E al None m_top c) by (apply (inv_le k (S k)); auto).
    destruct Hs as [Hs|[q ->]]; [|eapply sim_hld; eauto].
    assert (Hck : chk E al m_top o). { destruct o; try discriminate; apply Hpre. }
    assert (Hfull : parse f E o pos vs c = Ok (r, vs', c')) by exact H.
    destruct f as [|f]; [discriminate|]. cbn [parse] in H. unfold traced, is_traceable in H. rewrite Htr in H. cbn [andb] in H.
    cbn [ref] in Hr.
    destruct o; cbn [simple] in Hs; try discriminate; cbn [parse_core ref_core strip run chk] in *.
    - destruct kg; [discriminate|]. destruct Hck as [_ Hck]. apply chk_all in Hck. cbn [parse_seq] in H.
      eapply sim_seq; eauto; [|lia]. rewrite forallb_forall in Hs. rewrite Forall_forall in *. intros a Ha. split; auto.
    - destruct Hck as [Han Hck]. apply chk_all in Hck. unfold parse_cho in H. cbv zeta in H. binv H. inv H.
      match type of Hm with cho_loop _ _ _ _ _ _ _ _ ?c1 = _ => assert (Hc1 : inv k E al None m_top c1 /\ c_dt c1 = c_dt c) end.
      { destruct (_ && _); [|split; [exact Hik|reflexivity]]. split; [|reflexivity].
        eapply inv_same; [exact Hik|..]; try reflexivity; [now apply inb_same with c; auto; apply Hik|apply Hik]. }
      destruct Hc1 as [Hi1 Hd1]. rewrite map_length, <- Hd1.
      assert (Hfit : Forall fit l) by (rewrite forallb_forall in Hs; rewrite Forall_forall in *; intros a Ha; split; auto).
      pose proof (sim_cho k IH _ _ _ _ Han l Hfit 0 ltac:(auto) pos vs x _ _ _ _ Hr Hi1 Hp Hm) as A.
      match goal with |- context [c_dt (if ?b then _ else _)] => destruct b end; exact A.
    - destruct Hck as [Han Hck].
      assert (Hle : leaf (strip o) = leaf o) by (destruct o; reflexivity). rewrite Hle.
      destruct (leaf o) eqn:Hl.
      + split.
        * eapply sub_Some; [|exact Hr]. apply s_rep; [|lia]. intros p v. replace (strip o) with o by (destruct o; try discriminate; reflexivity).
          now apply leaf_sub.
        * unfold parse_rep in H. destruct span as [s|].
          -- binv H. destruct (_ <? _); inv H; [|reflexivity]. unfold set_error_pos. destruct (c_log c); [|reflexivity]. destruct (ole _ _); [|reflexivity].
             cbv zeta. match goal with |- context [match ?a with Some _ => _ | None => _ end] => destruct a end; [reflexivity|].
             match goal with |- context [match ?a with Some _ => _ | None => _ end] => destruct a end; reflexivity.
          -- binv H. apply (leaf_min _ _ Hl) in Hm. destruct r0; [|inv H; exact Hm].
             destruct max; [destruct (_ <? _); [|inv H; exact Hm]|]; apply (leaf_more _ _ Hl) in H; congruence.
      + destruct span; [congruence|]. unfold parse_rep in H. binv H. unfold ref_rep in Hr. oinv Hr.
        destruct (sim_min k IH f o (conj Hs Hck) min pos 0 vs a c r0 v k0 Hm0 Hik ltac:(lia) Hm) as (A & -> & B & D).
        exists a, (c_dt k0). split; [exact A|]. destruct a as [[i w]|]; cbn [len_of] in H.
        * destruct (B i w eq_refl) as [-> B2]. destruct max as [q|]; [destruct (min <? q)|].
          -- eapply sim_more; eauto. split; auto.
          -- inv Hr. inv H. auto.
          -- eapply sim_more; eauto. split; auto.
        * inv Hr. inv H. auto.
    - unfold parse_and in H. binv H. inv H. oinv Hr. inv Hr.
      destruct (step k IH o pos vs a c f r0 v k0 (conj Hs Hck) Hm0 Hik Hp Hm) as (A & -> & _). exists a. split; [exact A|]. now destruct a.
    - unfold parse_not in H. binv H. oinv Hr. inv Hr.
      destruct (step k IH o pos vs a c f r0 v k0 (conj Hs Hck) Hm0 Hik Hp Hm) as (A & -> & _ & _ & X & _). exists a. split; [|now destruct a].
      destruct a as [[n w]|]; cbn [len_of] in H; inv H; [|exact A].
      replace (c_dt (set_error_pos E pos None (rollback_c c k0))) with (c_dt k0); [exact A|].
      unfold set_error_pos. destruct (c_log _); [|reflexivity]. destruct (ole _ _); [|reflexivity].
      cbv zeta. match goal with |- context [match ?a with Some _ => _ | None => _ end] => destruct a end; [reflexivity|].
      match goal with |- context [match ?a with Some _ => _ | None => _ end] => destruct a end; reflexivity.
    - split; [|refine (leaf_dt (S f) _ _ _ _ _ _ _ _ Hfull); reflexivity].
      eapply sub_Some; [apply (leaf_sub (S k) (Lit s ic) eq_refl)|exact Hr].
    - split; [|refine (leaf_dt (S f) _ _ _ _ _ _ _ _ Hfull); reflexivity].
      eapply sub_Some; [apply (leaf_sub (S k) (Cls rs neg ic) eq_refl)|exact Hr].
    - split; [|refine (leaf_dt (S f) _ _ _ _ _ _ _ _ Hfull); reflexivity].
      eapply sub_Some; [apply (leaf_sub (S k) (Chr cp) eq_refl)|exact Hr].
    - split; [|refine (leaf_dt (S f) _ _ _ _ _ _ _ _ Hfull); reflexivity].
      eapply sub_Some; [apply (leaf_sub (S k) Dot eq_refl)|exact Hr].
    - rewrite tok_same in *. unfold parse_tok in H. cbv zeta in H. binv H. oinv Hr.
      assert (Hi1 : inv k E al None m_top (set_tb (S (c_tb c)) (set_ign (negb (e_verbose E)) c))).
      { eapply inv_mode; [exact Hik|..]; try reflexivity; [intros X; contradiction|apply Hik]. }
      destruct (step k IH o pos vs a _ f r0 v k0 (conj Hs Hck) Hm0 Hi1 Hp Hm) as (A & -> & B & _). exists a.
      destruct a as [[n w]|]; cbn [len_of] in H.
      + destruct (B n w eq_refl) as [-> _]. rewrite Hrec in H. unfold then_skip, skip_whitespace in H. rewrite Hws in H. cbn [bind] in H. inv H.
        unfold ref_then, ref_skip in Hr. rewrite Hws in Hr. cbn [obind] in Hr. inv Hr. rewrite Nat.add_0_r. split; [exact A|reflexivity].
      + inv H. inv Hr. split; [exact A|reflexivity].
    - unfold parse_ign in H. binv H. inv H. oinv Hr. inv Hr.
      destruct (step k IH o pos sv_new a c f _ _ c' (conj Hs Hck) Hm0 Hik Hp Hm) as (A & -> & _). exists a. split; [exact A|]. now destruct a as [[? ?]|].
    - destruct Hck as [Hal (d & Hd & Hm1 & Hm2)]. refine (IH (Hld r0) pos vs x c f r vs' c' _ _ Hr Hik Hp H).
      + right. eauto.
      + split; [exact Hal|]. intros d' Hd'. rewrite Hd in Hd'. inv Hd'. rewrite Hm1. congruence.
  Qed.
End Run.
