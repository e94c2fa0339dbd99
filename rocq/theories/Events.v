(** * Trace events nest; the error position is the farthest failure of the trace. *)
From Verif Require Import Base BaseLemmas Utf8 Escape TrieM LineInfo Ope Ctx ErrLog Engine EngineLemmas Frame Scope Bounds EngineSpec Cut EngineFacts EventSpec.

(** [norcv] with a switch: [nrv true] holds of every expression. *)
Fixpoint nrv (q : bool) (o : ope) : bool :=
  match o with
  | Rcv e => q && nrv q e
  | Seq _ l | Cho _ _ l => forallb (nrv q) l
  | Rep e _ _ _ | And e | Not e | Csc e | Cap _ e | Tok e | Ign e | Wsp e => nrv q e
  | Ref _ _ _ _ args => forallb (nrv q) args
  | Pre a b _ _ => nrv q a && nrv q b
  | _ => true
  end.
Lemma nrv_true o : nrv true o = true.
Proof.
  induction o using ope_ind'; cbn [nrv]; auto.
  - induction H; cbn; auto. now rewrite H.
  - induction H; cbn; auto. now rewrite H.
  - induction H; cbn; auto. now rewrite H.
  - now rewrite IHo1, IHo2.
Qed.
Lemma nrv_false o : nrv false o = norcv o.
Proof.
  induction o using ope_ind'; cbn [nrv norcv]; auto.
  - induction H; cbn; auto. now rewrite H, IHForall.
  - induction H; cbn; auto. now rewrite H, IHForall.
  - induction H; cbn; auto. now rewrite H, IHForall.
  - now rewrite IHo1, IHo2.
Qed.

Lemma norcv_find_reference rq params args o : forall o',
  forallb (nrv rq) args = true -> nrv rq o = true -> find_reference params args o = Ok o' -> nrv rq o' = true.
Proof.
  induction o using ope_ind'; intros o' Ha Hn H'; cbn [nrv] in Hn;
  try (rewrite find_reference_seq in H'); try (rewrite find_reference_cho in H');
  cbn [find_reference] in H'; try (inv H'; assumption || reflexivity); try discriminate Hn.
  - binv H'. inv H'. cbn [nrv]. revert a Hm. induction H as [|x l Hx Hl IH]; intros a Hm; cbn in Hm.
    + inv Hm. reflexivity.
    + binv Hm. binv Hm. inv Hm. cbn in *. apply andb_prop in Hn as [A B].
      apply andb_true_intro. split; [now apply Hx|now apply IH].
  - binv H'. inv H'. cbn [nrv].
    revert a Hm. induction H as [|x l Hx Hl IH]; intros a Hm; cbn in Hm.
    + inv Hm. reflexivity.
    + binv Hm. binv Hm. inv Hm. cbn in *. apply andb_prop in Hn as [A B].
      apply andb_true_intro. split; [now apply Hx|now apply IH].
  - binv H'. inv H'. cbn. eauto.
  - binv H'. inv H'. cbn. eauto.
  - binv H'. inv H'. cbn. eauto.
  - binv H'. inv H'. cbn. eauto.
  - binv H'. inv H'. cbn. eauto.
  - binv H'. inv H'. cbn. eauto.
  - binv H'. inv H'. cbn. eauto.
  - binv H'. destruct a as [a|]; inv H'.
    + apply find_param_in in Hm. rewrite forallb_forall in Ha. now apply Ha.
    + exact Hn.
  - binv H'. inv H'. cbn. eauto.
  - apply andb_prop in Hn as [A B]. binv H'. inv H'. cbn. eauto.
  - destruct rq; [|discriminate]. binv H'. inv H'. cbn in *. eauto.
Qed.
Lemma norcv_subst_args rq params top l : forall l',
  forallb (nrv rq) top = true -> forallb (nrv rq) l = true -> subst_args params top l = Ok l' ->
  forallb (nrv rq) l' = true.
Proof.
  induction l as [|a l IH]; intros l' Ht Hl H; cbn [subst_args] in H.
  - inv H. reflexivity.
  - cbn in Hl. apply andb_prop in Hl as [A B]. binv H. binv H. inv H. cbn.
    apply andb_true_intro. split; [eapply norcv_find_reference; [| |exact Hm]; assumption|now apply IH].
Qed.

Lemma nested_app a b : nested a -> nested b -> nested (a ++ b).
Proof.
  induction 1 as [|o p r i rest Hi _ Hr IH]; intros Hb; [exact Hb|].
  cbn [app]. rewrite <- app_assoc. cbn [app]. constructor; auto.
Qed.

Section Events.
  Context {V U : Type}.
  Notation env := (env V U).
  Notation ctx := (ctx V U).
  Notation sv := (sv V).
  Implicit Types (E : env) (c : ctx) (vs : sv).
  (** [rq = false]: no recovery operators; [rq = true]: any grammar. *)
  Variable rq : bool.

  (** Error position relation across a list of events. *)
  Definition reaches (e : errinfo) (p : nat) : Prop := exists q, ei_pos e = Some q /\ p <= q.
  Record errs (inp : bytes) (evs : list event) (e e' : errinfo) : Prop := {
    er_fail : forall ev p, In ev evs -> failure inp ev p -> reaches e' p;
    er_mono : forall p, ei_pos e = Some p -> reaches e' p;
    er_att : forall q, ei_pos e' = Some q -> ei_pos e = Some q \/ exists ev, In ev evs /\ blamed ev q
  }.
  Lemma errs_refl inp e : errs inp [] e e.
  Proof. constructor; [intros ev p []| |auto]. intros p H. exists p. auto. Qed.
  Lemma errs_trans inp a b x y z : errs inp a x y -> errs inp b y z -> errs inp (a ++ b) x z.
  Proof.
    intros [A1 A2 A3] [B1 B2 B3]. constructor.
    - intros ev p Hi Hf. apply in_app_or in Hi as [Hi|Hi]; [|eauto].
      destruct (A1 ev p Hi Hf) as (q & Hq & Hl). destruct (B2 q Hq) as (q' & Hq' & Hl'). exists q'. split; [assumption|lia].
    - intros p Hp. destruct (A2 p Hp) as (q & Hq & Hl). destruct (B2 q Hq) as (q' & Hq' & Hl'). exists q'. split; [assumption|lia].
    - intros q Hq. destruct (B3 q Hq) as [H|(ev & Hi & Hb)].
      + destruct (A3 q H) as [H'|(ev & Hi & Hb)]; [auto|]. right. exists ev. split; [apply in_or_app; auto|assumption].
      + right. exists ev. split; [apply in_or_app; auto|assumption].
  Qed.
  Lemma errs_same inp evs e e' f : ei_pos f = ei_pos e' -> errs inp evs e e' -> errs inp evs e f.
  Proof.
    intros Hf [A B C]. constructor; unfold reaches in *; rewrite Hf; auto.
  Qed.
  Lemma errs_same0 inp evs e e' f : ei_pos f = ei_pos e -> errs inp evs e e' -> errs inp evs f e'.
  Proof. intros Hf [A B C]. constructor; auto; rewrite Hf; auto. Qed.
  Lemma errs_wrap inp o pos r evs e e' : errs inp evs e e' ->
    (forall p, failure inp (TLeave o pos r) p -> reaches e' p) ->
    errs inp (TEnter o pos :: evs ++ [TLeave o pos r]) e e'.
  Proof.
    intros [A B C] Hf. constructor.
    - intros ev p [<-|Hi] Hfl; [destruct Hfl|]. apply in_app_or in Hi as [Hi|[<-|[]]]; eauto.
    - assumption.
    - intros q Hq. destruct (C q Hq) as [H|(ev & Hi & Hb)]; [auto|]. right. exists ev.
      split; [right; apply in_or_app; auto|assumption].
  Qed.
  (** The operator itself put the error position at [p]. *)
  Lemma errs_self inp o pos r evs e e' f p : errs inp evs e e' ->
    reaches f p -> (ei_pos f = Some p \/ ei_pos f = ei_pos e') -> (forall q, ei_pos e' = Some q -> reaches f q) ->
    (blamed (TEnter o pos) p \/ blamed (TLeave o pos r) p) ->
    (forall q, failure inp (TLeave o pos r) q -> q <= p) ->
    errs inp (TEnter o pos :: evs ++ [TLeave o pos r]) e f.
  Proof.
    intros [A B C] Hr He Hm Hbl Hf.
    assert (Hup : forall q, reaches e' q -> reaches f q).
    { intros q (q1 & H1 & H2). destruct (Hm _ H1) as (q2 & H3 & H4). exists q2. split; [assumption|lia]. }
    constructor.
    - intros ev q [<-|Hi] Hfl; [destruct Hfl|]. apply in_app_or in Hi as [Hi|[<-|[]]]; [eauto|].
      apply Hf in Hfl. destruct Hr as (q1 & H1 & H2). exists q1. split; [assumption|lia].
    - eauto.
    - intros q Hq. destruct He as [He|He].
      + rewrite He in Hq. inv Hq. right. destruct Hbl as [Hb|Hb]; eexists; (split; [|exact Hb]).
        * left. reflexivity.
        * right. apply in_or_app. right. left. reflexivity.
      + rewrite He in Hq. destruct (C q Hq) as [H|(ev & Hi & Hb)]; [auto|]. right. exists ev.
        split; [right; apply in_or_app; auto|assumption].
  Qed.

  (** Tracing and logging are on, everything is traced. *)
  Definition on E c : Prop := rq = false /\ e_tracer E = true /\ e_verbose E = true /\ c_ign c = false /\ c_log c = true.
  Definition trv E (virt : list event -> list event) c c' : Prop :=
    c_ign c' = c_ign c /\ c_log c' = c_log c /\
    exists evs, c_evs c' = rev evs ++ c_evs c /\ nested evs
      /\ (on E c -> errs (e_input E) (virt evs) (c_err c) (c_err c')).
  Definition tr E := trv E (fun e => e).
  Definition trc E o pos r := trv E (fun evs => TEnter o pos :: evs ++ [TLeave o pos r]).

  Definition tv c := (c_evs c, ei_pos (c_err c), c_ign c, c_log c).
  Lemma trv_tv E virt c c' d d' : tv d = tv c -> tv d' = tv c' -> trv E virt c c' -> trv E virt d d'.
  Proof.
    unfold tv. intros [= A1 A2 A3 A4] [= B1 B2 B3 B4] (H1 & H2 & evs & H3 & H4 & H5).
    split; [congruence|]. split; [congruence|]. exists evs. split; [congruence|]. split; [assumption|].
    intros (O0 & O1 & O2 & O3 & O4). eapply errs_same; [exact B2|]. eapply errs_same0; [exact A2|].
    apply H5. repeat split; congruence.
  Qed.
  Lemma tr_refl E c c' : tv c' = tv c -> tr E c c'.
  Proof.
    unfold tv. intros [= A1 A2 A3 A4]. split; [assumption|]. split; [assumption|]. exists [].
    split; [cbn; assumption|]. split; [constructor|]. intros _. eapply errs_same; [exact A2|]. apply errs_refl.
  Qed.
  Lemma on_tv E c c' : c_ign c' = c_ign c -> c_log c' = c_log c -> on E c -> on E c'.
  Proof. unfold on. now intros -> ->. Qed.
  Lemma tr_trans E a b c : tr E a b -> tr E b c -> tr E a c.
  Proof.
    intros (A1 & A2 & e1 & A3 & A4 & A5) (B1 & B2 & e2 & B3 & B4 & B5).
    split; [congruence|]. split; [congruence|]. exists (e1 ++ e2). split; [|split].
    - rewrite B3, A3, rev_app_distr. now rewrite app_assoc.
    - now apply nested_app.
    - intros Ho. eapply errs_trans; [now apply A5|]. apply B5. eapply on_tv; eauto.
  Qed.
  Lemma tr_after E a b c : tr E a b -> tv c = tv b -> tr E a c.
  Proof. intros H Hv. eapply trv_tv; [reflexivity|exact Hv|exact H]. Qed.
  Lemma tr_before E a b c : tr E b c -> tv a = tv b -> tr E a c.
  Proof. intros H Hv. eapply trv_tv; [exact Hv|reflexivity|exact H]. Qed.
  Lemma tr_core E o pos r c c' : tr E c c' -> (forall p, ~ failure (e_input E) (TLeave o pos r) p) -> trc E o pos r c c'.
  Proof.
    intros (A1 & A2 & evs & A3 & A4 & A5) Hf. split; [assumption|]. split; [assumption|]. exists evs.
    split; [assumption|]. split; [assumption|]. intros Ho. apply errs_wrap; [now apply A5|].
    intros p Hp. now apply Hf in Hp.
  Qed.
  (** Changing ignore_trace_state around a sub-parse. *)
  Lemma tr_ign E b c c2 : (e_verbose E = true -> b = false) -> tr E (set_ign b c) c2 -> tr E c (set_ign (c_ign c) c2).
  Proof.
    intros Hb (A1 & A2 & evs & A3 & A4 & A5). split; [reflexivity|]. split; [exact A2|]. exists evs.
    split; [exact A3|]. split; [assumption|]. intros (O0 & O1 & O2 & O3 & O4). apply A5. repeat split; csimpl; auto.
  Qed.

  Lemma error_pos_ei E pos lit c :
    ei_pos (c_err (set_error_pos E pos lit c)) =
    if c_log c then if ole (ei_pos (c_err c)) pos then Some pos else ei_pos (c_err c) else ei_pos (c_err c).
  Proof.
    unfold set_error_pos. destruct (c_log c); [|reflexivity].
    destruct (ole (ei_pos (c_err c)) pos) eqn:Hole; [|reflexivity]. cbv zeta.
    set (e1 := if _ || _ then _ else _).
    assert (He : ei_pos e1 = Some pos).
    { unfold e1. destruct (olt (ei_pos (c_err c)) pos) eqn:Hlt; cbn [orb]; [reflexivity|].
      destruct (negb (ei_keep (c_err c))); [reflexivity|].
      unfold ole, olt in *. destruct (ei_pos (c_err c)) as [q|]; [|discriminate].
      apply Nat.leb_le in Hole. apply Nat.ltb_ge in Hlt. f_equal. lia. }
    clearbody e1. destruct (match lit with Some _ => _ | None => _ end), (error_rule_of _ _ _); csimpl; rewrite ?ei_pos_add; assumption.
  Qed.
  Lemma error_pos_tv E pos lit c :
    c_evs (set_error_pos E pos lit c) = c_evs c /\ c_ign (set_error_pos E pos lit c) = c_ign c
    /\ c_log (set_error_pos E pos lit c) = c_log c.
  Proof.
    unfold set_error_pos. destruct (c_log c) eqn:Hl; [|auto]. destruct (ole _ _); [|auto].
    cbv zeta. destruct (match lit with Some _ => _ | None => _ end), (error_rule_of _ _ _); csimpl; auto.
  Qed.
  (** A sub-parse followed by set_error_pos at [p], blamed on the operator. *)
  Lemma trc_error E o pos r c c1 p lit : tr E c c1 ->
    blamed (TLeave o pos r) p -> (forall q, failure (e_input E) (TLeave o pos r) q -> q <= p) ->
    trc E o pos r c (set_error_pos E p lit c1).
  Proof.
    intros (A1 & A2 & evs & A3 & A4 & A5) Hb Hf. destruct (error_pos_tv E p lit c1) as (T1 & T2 & T3).
    split; [congruence|]. split; [congruence|]. exists evs. split; [congruence|]. split; [assumption|].
    intros Ho. pose proof (A5 Ho) as Hs. pose proof (error_pos_ei E p lit c1) as He.
    rewrite A2 in He. destruct Ho as (_ & _ & _ & _ & Hl). rewrite Hl in He.
    eapply errs_self; [exact Hs| | | |right; exact Hb|exact Hf].
    - unfold reaches. rewrite He. destruct (ole (ei_pos (c_err c1)) p) eqn:Hole; [eauto|].
      unfold ole in Hole. destruct (ei_pos (c_err c1)) as [q|]; [|discriminate]. apply Nat.leb_gt in Hole.
      exists q. split; [reflexivity|lia].
    - rewrite He. destruct (ole _ _); auto.
    - intros q Hq. unfold reaches. rewrite He, Hq. cbn [ole]. destruct (q <=? p) eqn:Hqp.
      + apply Nat.leb_le in Hqp. eauto.
      + eauto.
  Qed.
  Lemma trc_fail0 E o pos r c p lit : 
    blamed (TLeave o pos r) p -> (forall q, failure (e_input E) (TLeave o pos r) q -> q <= p) ->
    trc E o pos r c (set_error_pos E p lit c).
  Proof. intros Hb Hf. apply trc_error; auto. now apply tr_refl. Qed.
  Lemma fail_le inp o pos r q : failure inp (TLeave o pos r) q -> q <= pos.
  Proof. cbn. destruct r; [intros []|]. intros [-> _]. lia. Qed.

  Record norcvs E : Prop := {
    nr_rule : forall r d body, nth_error (e_g E) r = Some d -> r_body d = Some body -> nrv rq body = true;
    nr_ws : forall w, e_ws E = Some w -> nrv rq w = true
  }.
  Definition nrargs c : Prop := forallb (forallb (nrv rq)) (c_args c) = true.
  Lemma nrargs_frame c c' : frame c c' -> nrargs c -> nrargs c'.
  Proof. intros [] H. unfold nrargs. now rewrite f_args. Qed.
  Lemma nrargs_top c : nrargs c -> forallb (nrv rq) (top_args c) = true.
  Proof. unfold nrargs, top_args. destruct (c_args c); [reflexivity|]. cbn. now intros [? ?]%andb_prop. Qed.
  Definition rec_tr (rec : rec_t) : Prop :=
    forall E o pos vs c r vs' c', norcvs E -> nrargs c -> nrv rq o = true ->
    rec E o pos vs c = Ok (r, vs', c') -> tr E c c'.

  Lemma tv_action E r vs pd c : tv (snd (run_action E r vs pd c)) = tv c.
  Proof. unfold run_action. cbv zeta. destruct (e_action E r) as [f|]; [|reflexivity]. destruct (f _ _ _ _). reflexivity. Qed.
  Lemma tv_reduce E r d vs pd c : tv (snd (reduce E r d vs pd c)) = tv c.
  Proof. unfold reduce. destruct (_ && _); [apply tv_action|reflexivity]. Qed.
  Lemma tv_write E pos r len val c : tv (write_packrat_cache E pos r len val c) = tv c.
  Proof.
    unfold write_packrat_cache. destruct (e_packrat E); [|reflexivity]. destruct (e_slot E r); [|reflexivity].
    cbv zeta. destruct (_ <? _); [|reflexivity]. destruct (_ <? _)%N; [reflexivity|]. destruct val; reflexivity.
  Qed.
  Lemma tv_clear E pos r c : tv (clear_packrat_cache E pos r c) = tv c.
  Proof.
    unfold clear_packrat_cache. destruct (e_packrat E); [|reflexivity]. destruct (e_slot E r); [|reflexivity].
    cbv zeta. destruct (_ <? _); reflexivity.
  Qed.
  Lemma tv_cut b c : tv (set_cut_top b c) = tv c.
  Proof. unfold set_cut_top. destruct (c_cut c); reflexivity. Qed.
  Lemma lit_true inp ic : forall pat pos, lit_loop inp pos (List.length inp - pos) pat ic = Ok true ->
    (if ic then to_lower (sub inp pos (List.length pat)) else sub inp pos (List.length pat)) = pat.
  Proof.
    intros pat pos H. destruct (Nat.le_gt_cases pos (List.length inp)) as [Hp|Hp].
    - destruct (lit_loop_iff inp ic pat pos (List.length inp - pos) ltac:(lia)) as (b & Hb & Hi).
      rewrite Hb in H. inv H. now apply Hi.
    - replace (List.length inp - pos) with 0 in H by lia. destruct pat; [|discriminate].
      unfold sub. cbn. now destruct ic.
  Qed.
  Lemma lit_true_text E (s : bytes) (ic : bool) pos :
    lit_loop (e_input E) pos (left E pos) (if ic then to_lower s else s) ic = Ok true ->
    text_at (e_input E) pos s ic.
  Proof.
    intros H. apply lit_true in H. unfold text_at. destruct ic; [|assumption].
    now rewrite to_lower_length in H.
  Qed.

  Section Ops.
    Variable rec : @rec_t V U.
    Hypothesis Hrec : rec_tr rec.
    Hypothesis Hfr : rec_frame rec.

    Lemma ev_then E pos len vs c r vs' c' : norcvs E -> nrargs c ->
      then_skip E rec pos len vs c = Ok (r, vs', c') -> tr E c c'.
    Proof.
      intros HE Hc H. unfold then_skip in H. binv H. inv H. unfold skip_whitespace in Hm.
      destruct (e_ws E) as [w|] eqn:Hw; [|inv Hm; now apply tr_refl].
      destruct (0 <? c_tb c); [inv Hm; now apply tr_refl|]. binv Hm. inv Hm.
      apply Hrec in Hm0; auto; [|eapply nr_ws; eauto].
      eapply tr_ign; [|exact Hm0]. now intros ->.
    Qed.
    Lemma ev_literal E s ic pos vs c r vs' c' : norcvs E -> nrargs c ->
      parse_literal E rec s ic pos vs c = Ok (r, vs', c') ->
      (text_at (e_input E) pos s ic /\ tr E c c') \/ (r = None /\ exists l, c' = set_error_pos E pos l c).
    Proof.
      intros HE Hc H. unfold parse_literal in H. binv H. destruct a.
      - apply lit_true_text in Hm. binv H. destruct a; [left; split; [assumption|eapply ev_then; eauto]|].
        inv H. right. eauto.
      - inv H. right. eauto.
    Qed.
    Lemma ev_lit E s ic pos vs c r vs' c' : norcvs E -> nrargs c ->
      parse_literal E rec s ic pos vs c = Ok (r, vs', c') -> trc E (Lit s ic) pos r c c'.
    Proof.
      intros HE Hc H. apply ev_literal in H as [[Ht Hs]|[-> [l ->]]]; auto.
      - apply tr_core; [assumption|]. intros p Hp. destruct r; [destruct Hp|]. now destruct Hp.
      - apply trc_fail0; [reflexivity|apply fail_le].
    Qed.
    Lemma ev_bkr E n pos vs c r vs' c' : norcvs E -> nrargs c ->
      parse_bkr E rec n pos vs c = Ok (r, vs', c') -> trc E (Bkr n) pos r c c'.
    Proof.
      intros HE Hc H. unfold parse_bkr in H. destruct (last_capture _ _).
      - apply ev_literal in H as [[Ht Hs]|[-> [l ->]]]; auto.
        + apply tr_core; [assumption|]. intros p Hp. destruct r; [destruct Hp|]. now destruct Hp.
        + apply trc_fail0; [reflexivity|apply fail_le].
      - inv H. apply tr_core; [now apply tr_refl|]. intros p [_ []].
    Qed.
    Lemma ev_dic E t pos vs c r vs' c' : norcvs E -> nrargs c ->
      parse_dic E rec t pos vs c = Ok (r, vs', c') -> trc E (Dic t) pos r c c'.
    Proof.
      intros HE Hc H. unfold parse_dic in H.
      destruct (trie_match t (from (e_input E) pos)) as [m id] eqn:Ht. destruct (Nat.eqb_spec m 0) as [->|Hm0].
      { inv H. apply trc_fail0; [reflexivity|apply fail_le]. }
      cbv zeta in H. binv H. destruct a.
      - apply ev_then in H; auto. apply tr_core; [assumption|]. intros p Hp. destruct r; [destruct Hp|].
        destruct Hp as [_ Hp]. rewrite Ht in Hp. now cbn in Hp.
      - inv H. apply trc_fail0; [reflexivity|apply fail_le].
    Qed.
    Lemma ev_seq_loop E l : norcvs E -> forallb (nrv rq) l = true -> forall pos i vs c r vs' c', nrargs c ->
      seq_loop E rec l pos i vs c = Ok (r, vs', c') -> tr E c c'.
    Proof.
      intros HE. induction l as [|o l IH]; intros Hn pos i vs c r vs' c' Hc H; cbn [seq_loop] in H.
      - inv H. now apply tr_refl.
      - cbn in Hn. apply andb_prop in Hn as [A B]. binv H. pose proof (Hfr _ _ _ _ _ _ _ _ Hm) as F. apply Hrec in Hm; auto.
        destruct r0; [|inv H; assumption]. eapply tr_trans; [exact Hm|].
        eapply IH; eauto. eapply nrargs_frame; eauto.
    Qed.
    Lemma ev_seq E kg l pos vs c r vs' c' : norcvs E -> nrargs c -> forallb (nrv rq) l = true ->
      parse_seq E rec kg l pos vs c = Ok (r, vs', c') -> trc E (Seq kg l) pos r c c'.
    Proof.
      intros HE Hc Hn H. assert (Hnf : forall p, ~ failure (e_input E) (TLeave (Seq kg l) pos r) p).
      { intros p Hp. destruct r; [destruct Hp|]. now destruct Hp. }
      unfold parse_seq in H. destruct kg as [kw|]; [|apply tr_core; [eapply ev_seq_loop; eauto|assumption]].
      binv H. destruct a as [x|]; [|apply tr_core; [eapply ev_seq_loop; eauto|assumption]]. inv H.
      assert (Hfail : forall l0, r = None -> trc E (Seq (Some kw) l) pos r c (set_error_pos E pos l0 c)).
      { intros l0 ->. apply trc_fail0; [reflexivity|apply fail_le]. }
      unfold parse_keyword_guarded in Hm. destruct (_ <? 1); [inv Hm; now apply Hfail|].
      binv Hm. destruct (btest _ _); [|inv Hm; now apply Hfail]. binv Hm. cbv zeta in Hm.
      assert (Hg : forall vs1, bind (then_skip E rec pos (S a0) vs1 c) (fun r0 => Ok (Some r0)) = Ok (Some (r, vs', c')) -> trc E (Seq (Some kw) l) pos r c c').
      { intros vs1 Hx. apply bind_Ok in Hx as (q & Hq & Hx). inv Hx. apply tr_core; [eapply ev_then; eauto|assumption]. }
      destruct (_ && _); [|eapply Hg; exact Hm].
      destruct (existsb _ (kg_exact kw)); [inv Hm; now apply Hfail|].
      destruct (existsb _ (kg_prefix kw)); [discriminate|]. eapply Hg; exact Hm.
    Qed.

    (** The choice loop: like [tr], but the error position may also be [pos] when
        there are first sets. *)
    Definition trp E (fs : list first_set) pos c c' : Prop :=
      c_ign c' = c_ign c /\ c_log c' = c_log c /\
      exists evs, c_evs c' = rev evs ++ c_evs c /\ nested evs
      /\ (on E c ->
          (forall ev p, In ev evs -> failure (e_input E) ev p -> reaches (c_err c') p)
          /\ (forall p, ei_pos (c_err c) = Some p -> reaches (c_err c') p)
          /\ (forall q, ei_pos (c_err c') = Some q -> ei_pos (c_err c) = Some q \/ (fs <> [] /\ q = pos)
                 \/ exists ev, In ev evs /\ blamed ev q)).
    Lemma trp_of E fs pos c c' : tr E c c' -> trp E fs pos c c'.
    Proof.
      intros (A1 & A2 & evs & A3 & A4 & A5). repeat (split; [assumption|]). exists evs. repeat (split; [assumption|]).
      intros Ho. destruct (A5 Ho) as [B1 B2 B3]. repeat (split; [assumption|]). intros q Hq. destruct (B3 q Hq); auto.
    Qed.
    Lemma trp_trans E fs pos a b c : trp E fs pos a b -> trp E fs pos b c -> trp E fs pos a c.
    Proof.
      intros (A1 & A2 & e1 & A3 & A4 & A5) (B1 & B2 & e2 & B3 & B4 & B5).
      split; [congruence|]. split; [congruence|]. exists (e1 ++ e2). split; [|split].
      - rewrite B3, A3, rev_app_distr. now rewrite app_assoc.
      - now apply nested_app.
      - intros Ho. destruct (A5 Ho) as (X1 & X2 & X3). destruct (B5 (on_tv _ _ _ A1 A2 Ho)) as (Y1 & Y2 & Y3).
        split; [|split].
        + intros ev p Hi Hf. apply in_app_or in Hi as [Hi|Hi]; [|eauto].
          destruct (X1 ev p Hi Hf) as (q & Hq & Hl). destruct (Y2 q Hq) as (q' & Hq' & Hl'). exists q'. split; [assumption|lia].
        + intros p Hp. destruct (X2 p Hp) as (q & Hq & Hl). destruct (Y2 q Hq) as (q' & Hq' & Hl'). exists q'. split; [assumption|lia].
        + intros q Hq. destruct (Y3 q Hq) as [H|[H|(ev & Hi & Hb)]]; [|auto|].
          * destruct (X3 q H) as [H'|[H'|(ev & Hi & Hb)]]; [auto|auto|]. right. right. exists ev. split; [apply in_or_app; auto|assumption].
          * right. right. exists ev. split; [apply in_or_app; auto|assumption].
    Qed.
    Lemma trp_fs E fs id pos c : trp E fs pos c (fs_error fs id pos c).
    Proof.
      unfold fs_error. destruct (nth_error fs id) as [f|] eqn:Hid; [|apply trp_of; now apply tr_refl].
      assert (Hne : fs <> []) by (intros ->; destruct id; discriminate).
      assert (Hgo : forall e2, ei_pos e2 = Some pos -> ole (ei_pos (c_err c)) pos = true -> trp E fs pos c (set_err e2 c)).
      { intros e2 He Hole. split; [reflexivity|]. split; [reflexivity|]. exists []. split; [reflexivity|]. split; [constructor|].
        intros _. split; [intros ev p []|]. split.
        - intros p Hp. exists pos. split; [exact He|]. rewrite Hp in Hole. cbn in Hole. now apply Nat.leb_le.
        - csimpl. intros q Hq. rewrite He in Hq. inv Hq. auto. }
      assert (H1 : ole (ei_pos (c_err c)) pos = true -> ei_pos (if olt (ei_pos (c_err c)) pos || (id =? 0) then err_move pos (c_err c) else c_err c) = Some pos).
      { intros Hole. destruct (olt (ei_pos (c_err c)) pos) eqn:Hlt; cbn [orb]; [reflexivity|].
        destruct (id =? 0); [reflexivity|]. unfold ole, olt in *. destruct (ei_pos (c_err c)) as [q|]; [|discriminate].
        apply Nat.leb_le in Hole. apply Nat.ltb_ge in Hlt. f_equal. lia. }
      destruct (fs_first_literal f), (fs_first_rule f); [| | |apply trp_of; now apply tr_refl];
      (destruct (c_log c); cbn [andb]; [|apply trp_of; now apply tr_refl]);
      (destruct (ole (ei_pos (c_err c)) pos) eqn:Hole; [|apply trp_of; now apply tr_refl]);
      apply Hgo; rewrite ?ei_pos_add; auto.
    Qed.
    Lemma ev_cho_loop E fs total l : norcvs E -> forallb (nrv rq) l = true -> forall id pos vs c r vs' c', nrargs c ->
      cho_loop E rec fs total l id pos vs c = Ok (r, vs', c') -> trp E fs pos c c'.
    Proof.
      intros HE. induction l as [|o l IH]; intros Hn id pos vs c r vs' c' Hc H; cbn [cho_loop] in H.
      { inv H. apply trp_of. now apply tr_refl. }
      cbn in Hn. apply andb_prop in Hn as [A B]. binv H. destruct a.
      - apply IH in H; auto.
        + eapply trp_trans; [apply trp_fs|exact H].
        + eapply nrargs_frame; [apply frame_fs_error|exact Hc].
      - match type of H with context [rec E o pos vs ?cc] => set (c2 := cc) in * end.
        assert (H2 : tv c2 = tv c /\ c_args c2 = c_args c).
        { unfold c2. destruct (e_has_cut E); [|split; reflexivity].
          unfold set_cut_top. destruct (c_cut c); split; reflexivity. }
        destruct H2 as [Ht Ha]. clearbody c2. binv H. pose proof (Hfr _ _ _ _ _ _ _ _ Hm0) as F.
        apply Hrec in Hm0; auto; [|unfold nrargs; now rewrite Ha].
        assert (Hs : tr E c k) by (eapply tr_before; [exact Hm0|congruence]).
        destruct r0; [inv H; apply trp_of; exact Hs|]. cbv zeta in H.
        destruct (e_has_cut E && _); [inv H; apply trp_of; eapply tr_after; [exact Hs|reflexivity]|].
        apply IH in H; auto.
        + eapply trp_trans; [|exact H]. apply trp_of. eapply tr_after; [exact Hs|reflexivity].
        + unfold nrargs, rollback_c. csimpl. rewrite (f_args _ _ F), Ha. exact Hc.
    Qed.
    Lemma ev_cho E fl fs l pos vs c r vs' c' : norcvs E -> nrargs c -> forallb (nrv rq) l = true ->
      parse_cho E rec fl fs l pos vs c = Ok (r, vs', c') -> trc E (Cho fl fs l) pos r c c'.
    Proof.
      intros HE Hc Hn H. unfold parse_cho in H. cbv zeta in H. binv H. inv H. apply ev_cho_loop in Hm; auto.
      2:{ destruct (_ && _); exact Hc. }
      set (c1 := if e_has_cut E && negb fl then _ else _) in Hm at 1.
      assert (H1 : tv c1 = tv c) by (unfold c1; destruct (_ && _); reflexivity).
      match goal with |- trc _ _ _ _ _ ?x => set (c3 := x) end.
      assert (H3 : tv c3 = tv k) by (unfold c3; destruct (_ && _); reflexivity).
      clearbody c1 c3. unfold tv in H1, H3. injection H1 as D1 D2 D3 D4. injection H3 as G1 G2 G3 G4.
      destruct Hm as (A1 & A2 & evs & A3 & A4 & A5).
      split; [congruence|]. split; [congruence|]. exists evs. split; [congruence|]. split; [assumption|].
      intros Ho. destruct A5 as (B1 & B2 & B3); [eapply on_tv; [exact D3|exact D4|exact Ho]|].
      assert (Hre : forall p, reaches (c_err k) p -> reaches (c_err c3) p) by (unfold reaches; now rewrite G2).
      constructor.
      - intros ev p [<-|Hi] Hf; [destruct Hf|]. apply in_app_or in Hi as [Hi|[<-|[]]]; [eauto|].
        destruct r; [destruct Hf|]. now destruct Hf.
      - intros p Hp. apply Hre, B2. congruence.
      - intros q Hq. rewrite G2 in Hq. destruct (B3 q Hq) as [H|[[Hne ->]|(ev & Hi & Hb)]].
        + left. congruence.
        + right. exists (TEnter (Cho fl fs l) pos). split; [left; reflexivity|]. destruct fs; [congruence|reflexivity].
        + right. exists ev. split; [right; apply in_or_app; auto|assumption].
    Qed.
    Lemma ev_rep fuel E e mn mx span pos vs c r vs' c' : norcvs E -> nrargs c -> nrv rq e = true ->
      parse_rep fuel E rec e mn mx span pos vs c = Ok (r, vs', c') -> trc E (Rep e mn mx span) pos r c c'.
    Proof.
      intros HE Hc He H. assert (Hnf : forall p, ~ failure (e_input E) (TLeave (Rep e mn mx span) pos r) p).
      { intros p Hp. destruct r; [destruct Hp|]. now destruct Hp. }
      unfold parse_rep in H. destruct span as [s|].
      { cbv zeta in H. binv H. destruct (a <? mn) eqn:Ha; inv H; [|apply tr_core; [now apply tr_refl|assumption]].
        apply Nat.ltb_lt in Ha. apply trc_fail0; [cbn; lia|]. intros q Hq. now apply Hnf in Hq. }
      apply tr_core; [|assumption].
      assert (H1 : forall m i vs c r vs' c', nrargs c -> rep_min E rec e m pos i vs c = Ok (r, vs', c') -> tr E c c' /\ nrargs c').
      { induction m as [|m IH]; intros i vs0 c0 r0 vs0' c0' Hc0 H0; cbn [rep_min] in H0.
        - inv H0. split; [now apply tr_refl|assumption].
        - binv H0. pose proof (Hfr _ _ _ _ _ _ _ _ Hm) as F. apply Hrec in Hm; auto.
          pose proof (nrargs_frame _ _ F Hc0). destruct r1; [|inv H0; auto].
          apply IH in H0 as [A B]; [|assumption]. split; [eapply tr_trans; eauto|assumption]. }
      assert (H2 : forall fuel room i vs c r vs' c', nrargs c -> rep_more fuel E rec e room pos i vs c = Ok (r, vs', c') -> tr E c c').
      { induction fuel0 as [|m IH]; intros room i vs0 c0 r0 vs0' c0' Hc0 H0; cbn [rep_more] in H0.
        - destruct room as [[|?]|]; try discriminate. inv H0. now apply tr_refl.
        - assert (Hstep : bind (rec E e (pos + i) vs0 c0) (fun '(r, vs', c') =>
             match r with Some len => rep_more m E rec e (option_map pred room) pos (i + len) vs' c'
             | None => Ok (Some i, rollback_vs vs0 vs', rollback_c c0 c') end) = Ok (r0, vs0', c0') -> tr E c0 c0').
          { clear H0. intros H0. binv H0. pose proof (Hfr _ _ _ _ _ _ _ _ Hm) as F. apply Hrec in Hm; auto.
            destruct r1; [|inv H0; eapply tr_after; [exact Hm|reflexivity]]. eapply tr_trans; [exact Hm|]. eapply IH; [|exact H0]. eapply nrargs_frame; eauto. }
          destruct room as [[|?]|]; [inv H0; now apply tr_refl| |]; apply Hstep; exact H0. }
      binv H. apply H1 in Hm as [A B]; [|assumption]. destruct r0; [|inv H; assumption].
      destruct mx as [x|].
      - destruct (mn <? x); [|inv H; assumption]. eapply tr_trans; [exact A|]. eapply H2; eauto.
      - eapply tr_trans; [exact A|]. eapply H2; eauto.
    Qed.
    Lemma ev_tok E e pos vs c r vs' c' : norcvs E -> nrargs c -> nrv rq e = true ->
      parse_tok E rec e pos vs c = Ok (r, vs', c') -> tr E c c'.
    Proof.
      intros HE Hc He H. unfold parse_tok in H. cbv zeta in H. binv H.
      pose proof (Hfr _ _ _ _ _ _ _ _ Hm) as F. apply Hrec in Hm; auto.
      assert (Hs : tr E (set_ign (negb (e_verbose E)) c) (set_tb (pred (c_tb k)) k)).
      { eapply tr_before; [eapply tr_after; [exact Hm|reflexivity]|reflexivity]. }
      assert (Hn : nrargs (set_tb (pred (c_tb k)) k)).
      { unfold nrargs. csimpl. rewrite (f_args _ _ F). exact Hc. }
      destruct r0.
      - binv H. inv H. apply ev_then in Hm0; auto.
        eapply tr_ign with (b := negb (e_verbose E)); [now intros ->|]. eapply tr_trans; eauto.
      - inv H. eapply tr_ign with (b := negb (e_verbose E)); [now intros ->|]. exact Hs.
    Qed.
    Lemma ev_body E r d body pos vs c len vs' c' : norcvs E -> nrargs c -> nrv rq body = true ->
      parse_ope_body E rec r d body pos vs c = Ok (len, vs', c') -> tr E c c'.
    Proof.
      intros HE Hc He H. unfold parse_ope_body in H. cbv zeta in H. binv H.
      set (c1 := if e_need_rules E || r_macro_ref d then set_rstk (r :: c_rstk c) c else c) in *.
      assert (H0 : tv c1 = tv c /\ nrargs c1) by (unfold c1; destruct (_ || _); split; auto).
      destruct H0 as [Hs Hn]. clearbody c1.
      assert (H1 : tr E c1 k).
      { destruct (r_no_whitespace d).
        - binv Hm. pose proof (Hfr _ _ _ _ _ _ _ _ Hm0) as F. apply Hrec in Hm0; auto.
          assert (Hs2 : tr E c1 (set_tb (pred (c_tb k0)) k0)).
          { eapply tr_before; [eapply tr_after; [exact Hm0|reflexivity]|reflexivity]. }
          assert (Hn2 : nrargs (set_tb (pred (c_tb k0)) k0)).
          { unfold nrargs. csimpl. rewrite (f_args _ _ F). exact Hn. }
          destruct r1; [|inv Hm; exact Hs2]. apply ev_then in Hm; auto. eapply tr_trans; eauto.
        - apply Hrec in Hm; auto. }
      inv H. eapply tr_before; [|symmetry; exact Hs]. eapply tr_after; [exact H1|]. destruct (_ || _); reflexivity.
    Qed.
    Lemma ev_do E r d body pos c len val c' : norcvs E -> nrargs c -> nrv rq body = true ->
      do_parse E rec r d body pos c = Ok (len, val, c') -> tr E c c'.
    Proof.
      intros HE Hc He H. unfold do_parse in H. cbv zeta in H.
      set (c1 := match e_enter E r with Some f => _ | None => c end) in *.
      assert (H0 : tv c1 = tv c /\ nrargs c1) by (unfold c1; destruct (e_enter E r); split; auto).
      destruct H0 as [Hs Hn]. clearbody c1. binv H. apply ev_body in Hm; auto.
      assert (Hk : tr E c k) by (eapply tr_before; [exact Hm|symmetry; exact Hs]).
      match type of H with (match ?x with _ => _ end) = _ => assert (H1 : tv (snd x) = tv k) end.
      { clear H. destruct r0 as [n|].
        - set (vs2 := if is_choice_like _ then _ else _). clearbody vs2. destruct (e_pred E r) as [p|].
          + destruct (p _ _ _) as [[ok msg] pd]. destruct ok.
            * destruct (c_rcv k); cbn [snd]; [reflexivity|].
              pose proof (tv_reduce E r d vs2 pd k) as Q. destruct (reduce E r d vs2 pd k) as [x y]. exact Q.
            * cbn [snd]. destruct (_ && _); reflexivity.
          + destruct (c_rcv k); cbn [snd]; [reflexivity|].
            pose proof (tv_reduce E r d vs2 None k) as Q. destruct (reduce E r d vs2 None k) as [x y]. exact Q.
        - cbn [snd]. destruct (_ && _); reflexivity. }
      match type of H with (match ?x with _ => _ end) = _ => destruct x as [[l1 v1] c3] end.
      cbn [snd] in H1. eapply tr_after; [exact Hk|]. rewrite <- H1. destruct (e_leave E r) as [g|].
      - destruct (g _ _ _ _ _) as [v2 dt]. inv H. reflexivity.
      - inv H. reflexivity.
    Qed.
    Definition fn_tr E (fn : ctx -> outcome (option nat * option V * ctx)) : Prop :=
      forall c len val c', nrargs c -> fn c = Ok (len, val, c') -> tr E c c'.
    Lemma ev_packrat E pos r fn c len val c' : nrargs c -> fn_tr E fn ->
      packrat E pos r fn c = Ok (len, val, c') -> tr E c c'.
    Proof.
      intros Hc Hf H. unfold packrat in H. destruct (e_slot E r).
      - cbv zeta in H. destruct (_ <? _); [|discriminate]. destruct (nfind _ _) as [[|]|]; try (inv H; now apply tr_refl).
        binv H. inv H. apply Hf in Hm; [|exact Hc]. eapply tr_before; [|reflexivity]. eapply tr_after; [exact Hm|].
        destruct len; [apply tv_write|reflexivity].
      - destruct (nfind _ _).
        + destruct (_ =? _); [inv H; now apply tr_refl|]. binv H. inv H. apply Hf in Hm; [|exact Hc].
          eapply tr_before; [|reflexivity]. eapply tr_after; [exact Hm|reflexivity].
        + binv H. inv H. apply Hf in Hm; [|exact Hc]. eapply tr_before; [|reflexivity]. eapply tr_after; [exact Hm|reflexivity].
    Qed.
    Lemma ev_guard E pos r fn c len val c' : nrargs c -> fn_tr E fn ->
      guard pos r fn c = Ok (len, val, c') -> tr E c c'.
    Proof.
      intros Hc Hf H. unfold guard in H. destruct (lr_find _ _); [inv H; now apply tr_refl|].
      binv H. inv H. apply Hf in Hm; [|exact Hc]. eapply tr_before; [|reflexivity]. eapply tr_after; [exact Hm|reflexivity].
    Qed.
    Lemma ev_grow fuel : forall E r d body cycle pos len val c len' val' c', norcvs E -> nrargs c -> nrv rq body = true ->
      lr_grow fuel E rec r d body cycle pos len val c = Ok (len', val', c') -> tr E c c'.
    Proof.
      induction fuel as [|fuel IH]; intros E r d body cycle pos len val c len' val' c' HE Hc Hn H; cbn [lr_grow] in H; [discriminate|].
      cbv zeta in H. binv H.
      set (c2 := clear_cycle pos r cycle (clear_packrat_cache E pos r c)) in *.
      assert (H0 : tv c2 = tv c) by (unfold c2, clear_cycle; rewrite <- (tv_clear E pos r c); reflexivity).
      assert (H1 : nrargs c2).
      { unfold nrargs, c2, clear_cycle. csimpl. pose proof (frame_clear E pos r c) as F. rewrite (f_args _ _ F). exact Hc. }
      clearbody c2. pose proof (frame_do_parse rec Hfr _ _ _ _ _ _ _ _ _ Hm) as F. apply ev_do in Hm; auto.
      assert (H2 : tr E c k) by (eapply tr_before; [exact Hm|symmetry; exact H0]).
      destruct r0 as [n|]; [|inv H; assumption]. destruct (n <=? len); [inv H; assumption|].
      apply IH in H; auto.
      - eapply tr_trans; [exact H2|]. eapply tr_before; [exact H|reflexivity].
      - unfold nrargs. csimpl. rewrite (f_args _ _ F). exact H1.
    Qed.
    Lemma ev_lr fuel E r d body pos c len val c' : norcvs E -> nrargs c -> nrv rq body = true ->
      parse_lr fuel E rec r d body pos c = Ok (len, val, c') -> tr E c c'.
    Proof.
      intros HE Hc Hn H. unfold parse_lr in H. cbv zeta in H.
      destruct (lr_find _ _) as [[[l0|] v0]|]; [inv H; now apply tr_refl|inv H; now apply tr_refl|].
      binv H. pose proof (frame_do_parse rec Hfr _ _ _ _ _ _ _ _ _ Hm) as F. apply ev_do in Hm; auto.
      assert (H0 : tr E c k) by (eapply tr_before; [exact Hm|reflexivity]).
      destruct r0 as [n|]; [|inv H; eapply tr_after; [exact H0|reflexivity]]. binv H. inv H. apply ev_grow in Hm0; auto.
      - eapply tr_trans; [exact H0|]. eapply tr_before; [|reflexivity]. eapply tr_after; [exact Hm0|]. 
        rewrite <- (tv_write E pos r r0 val k0). reflexivity.
      - unfold nrargs. csimpl. rewrite (f_args _ _ F). exact Hc.
    Qed.
    Lemma ev_hld fuel E r pos vs c len vs' c' : norcvs E -> nrargs c ->
      parse_hld fuel E rec r pos vs c = Ok (len, vs', c') -> tr E c c'.
    Proof.
      intros HE Hc H. unfold parse_hld in H. binv H. unfold get_rule in Hm.
      destruct (nth_error (e_g E) r) as [d|] eqn:Hd; [|discriminate]. inv Hm.
      destruct (r_body a) as [body|] eqn:Hb; [|discriminate].
      assert (Hn : nrv rq body = true) by (eapply nr_rule; eauto).
      assert (Hwrap : forall c1 k k', tv c1 = tv c -> tv k' = tv k -> tr E c1 k -> tr E c k').
      { intros c1 k k' T1 T2 T. eapply tr_before; [eapply tr_after; [exact T|exact T2]|now rewrite T1]. }
      destruct (r_is_macro a).
      { destruct (r_lr a); [discriminate|]. binv H. inv H. apply Hrec in Hm; [|assumption..]. eapply Hwrap; [| |exact Hm]; reflexivity. }
      destruct (e_recog E && negb (r_lr a)).
      { destruct (e_packrat E).
        - destruct (e_slot E r).
          + cbv zeta in H. destruct (_ <? _); [|discriminate]. destruct (nfind _ _); [inv H; now apply tr_refl|].
            binv H. inv H. apply ev_body in Hm; [|assumption..]. eapply Hwrap; [| |exact Hm]; [reflexivity|].
            destruct len; [apply tv_write|reflexivity].
          + destruct (nfind _ _).
            * destruct (_ =? _); [inv H; now apply tr_refl|]. binv H. inv H. apply ev_body in Hm; [|assumption..]. eapply Hwrap; [| |exact Hm]; reflexivity.
            * binv H. inv H. apply ev_body in Hm; [|assumption..]. eapply Hwrap; [| |exact Hm]; reflexivity.
        - destruct (lr_find _ _); [inv H; now apply tr_refl|]. binv H. inv H. apply ev_body in Hm; [|assumption..]. eapply Hwrap; [| |exact Hm]; reflexivity. }
      binv H. assert (Hs : tr E c k).
      { destruct (r_lr a); [eapply ev_lr; eauto|].
        assert (Hf : fn_tr E (do_parse E rec r a body pos)) by (intros ? ? ? ? ? ?; eapply ev_do; eauto).
        destruct (e_packrat E); [eapply ev_packrat; eauto|eapply ev_guard; eauto]. }
      destruct r0; inv H; exact Hs.
    Qed.
    Lemma ev_dispatch E rl iarg args pos vs c len vs' c' : norcvs E -> nrargs c -> forallb (nrv rq) args = true ->
      parse_dispatch E rec rl iarg args pos vs c = Ok (len, vs', c') -> tr E c c'.
    Proof.
      intros HE Hc Ha H. unfold parse_dispatch in H. destruct rl as [r|].
      - binv H. destruct (r_is_macro a).
        + destruct (c_rstk c); [discriminate|]. binv H. binv H. destruct (r_lr a); [discriminate|].
          binv H. inv H. apply Hrec in Hm2; [|assumption| |reflexivity].
          * eapply tr_before; [|reflexivity]. eapply tr_after; [exact Hm2|reflexivity].
          * unfold nrargs. csimpl. cbn.
            apply andb_true_intro. split; [|exact Hc]. eapply norcv_subst_args; [|exact Ha|exact Hm1]. now apply nrargs_top.
        + match type of H with (if ?b then _ else _) = _ => destruct b end; [apply Hrec in H; auto|].
          binv H. inv H. apply Hrec in Hm0; [|assumption|exact Hc|reflexivity]. eapply tr_before; [|reflexivity]. eapply tr_after; [exact Hm0|reflexivity].
      - destruct (nth_error _ _) as [x|] eqn:Hx; [|discriminate]. apply Hrec in H; auto.
        apply nth_error_In in Hx. pose proof (nrargs_top _ Hc) as Ht. rewrite forallb_forall in Ht. now apply Ht.
    Qed.
    Lemma ev_ref E rl iarg args pos vs c len vs' c' : norcvs E -> nrargs c -> forallb (nrv rq) args = true ->
      parse_ref E rec rl iarg args pos vs c = Ok (len, vs', c') -> tr E c c'.
    Proof.
      intros HE Hc Ha H. unfold parse_ref in H. destruct (e_tracer E); [|eapply ev_dispatch; eauto].
      cbv zeta in H. binv H. inv H. apply ev_dispatch in Hm; auto.
      - destruct (match rl with Some _ => _ | None => _ end).
        + eapply tr_ign; [|exact Hm]. now intros ->.
        + eapply tr_after; [exact Hm|]. unfold tv. csimpl. destruct Hm as (Hi & _). now rewrite Hi.
      - destruct (match rl with Some _ => _ | None => _ end); exact Hc.
    Qed.
    Lemma ev_prec_loop fuel : forall E atom binop info rl mp pos i vs c r vs' c', norcvs E -> nrargs c ->
      nrv rq atom = true -> nrv rq binop = true ->
      prec_loop fuel E rec atom binop info rl mp pos i vs c = Ok (r, vs', c') -> tr E c c'.
    Proof.
      induction fuel as [|fuel IH]; intros E atom binop info rl mp pos i vs c r vs' c' HE Hc Ha Hb H; cbn [prec_loop] in H.
      { destruct (_ <? _); [discriminate|]. inv H. now apply tr_refl. }
      destruct (_ <? _); [|inv H; now apply tr_refl].
      binv H. pose proof (Hfr _ _ _ _ _ _ _ _ Hm) as F. apply Hrec in Hm; auto.
      pose proof (nrargs_frame _ _ F Hc) as Hk.
      destruct r0 as [chlen|]; [|inv H; assumption]. cbv zeta in H.
      destruct (binfo_find _ _) as [[level la]|]; [|inv H; assumption].
      destruct (level <? mp); [inv H; assumption|]. destruct (v_vals v); [discriminate|].
      binv H.
      assert (Hs : tr E c k0 /\ nrargs k0).
      { clear H. binv Hm0. pose proof (Hfr _ _ _ _ _ _ _ _ Hm1) as F1. apply Hrec in Hm1; auto.
        pose proof (nrargs_frame _ _ F1 Hk) as Hk1.
        destruct r1; [|inv Hm0; split; [eapply tr_trans; eauto|assumption]].
        binv Hm0. binv Hm0. inv Hm0. pose proof (frame_prec_loop rec Hfr _ _ _ _ _ _ _ _ _ _ _ _ _ _ Hm3) as F2.
        apply IH in Hm3; auto. split.
        - eapply tr_trans; [exact Hm|]. eapply tr_trans; [exact Hm1|]. eapply tr_before; [|reflexivity].
          eapply tr_after; [exact Hm3|reflexivity].
        - unfold nrargs. csimpl. rewrite (f_args _ _ F2). exact Hk1. }
      destruct Hs as [Hs Hn]. destruct r0 as [l2|]; [|inv H; assumption].
      destruct (v_vals v0); [discriminate|].
      match type of H with (match ?x with _ => _ end) = _ => assert (Hq : tv (snd x) = tv k0 /\ c_args (snd x) = c_args k0) end.
      { destruct (has_action E k0 rl); [|split; reflexivity].
        match goal with |- context [run_action E rl ?a None k0] => pose proof (tv_action E rl a None k0) as Q; pose proof (frame_action E rl a None k0) as Q2; destruct (run_action E rl a None k0) end.
        cbn [snd] in *. split; [assumption|apply Q2]. }
      match type of H with (match ?x with _ => _ end) = _ => destruct x as [[val vs3] c3] end.
      cbn [snd] in Hq. destruct Hq as [Q1 Q2]. apply IH in H; auto.
      - eapply tr_trans; [exact Hs|]. eapply tr_before; [exact H|symmetry; exact Q1].
      - unfold nrargs. rewrite Q2. exact Hn.
    Qed.
    Lemma ev_prec fuel E atom binop info rl pos vs c r vs' c' : norcvs E -> nrargs c ->
      nrv rq atom = true -> nrv rq binop = true ->
      parse_prec fuel E rec atom binop info rl pos vs c = Ok (r, vs', c') -> tr E c c'.
    Proof.
      intros HE Hc Ha Hb H. unfold parse_prec in H. binv H.
      pose proof (Hfr _ _ _ _ _ _ _ _ Hm) as F. apply Hrec in Hm; auto.
      pose proof (nrargs_frame _ _ F Hc) as Hk. destruct r0; [|inv H; assumption].
      binv H. binv H. inv H. apply ev_prec_loop in Hm1; auto. eapply tr_trans; [exact Hm|].
      eapply tr_before; [|reflexivity]. eapply tr_after; [exact Hm1|reflexivity].
    Qed.
    (** Recovery: only the nesting of events survives ([rq = true]). *)
    Lemma ev_rcv E e pos vs c r vs' c' : norcvs E -> nrargs c -> rq && nrv rq e = true ->
      parse_rcv E rec e pos vs c = Ok (r, vs', c') -> tr E c c'.
    Proof.
      intros HE Hc Hn H. apply andb_prop in Hn as [Hq Hn].
      unfold parse_rcv in H. destruct e; try discriminate. cbv zeta in H. binv H. binv H. binv H. inv H.
      assert (H0 : (c_evs a = c_evs c /\ c_ign a = c_ign c /\ c_log a = c_log c) /\ c_args a = c_args c).
      { destruct (c_log c) eqn:Hlog; [|inv Hm; auto]. destruct args as [|x ?]; [discriminate|].
        destruct x; try (inv Hm; auto; fail). destruct rule0; [|discriminate]. binv Hm.
        match type of Hm with (match ?x with _ => _ end) = _ => destruct x end; inv Hm; auto. }
      destruct H0 as [(P1 & P2 & P3) Q2]. apply Hrec in Hm0; [|assumption| |assumption].
      2:{ unfold nrargs. csimpl. rewrite Q2. exact Hc. }
      assert (H2 : c_evs a0 = c_evs k /\ c_ign a0 = c_ign k /\ c_log a0 = c_log a).
      { destruct r; [|inv Hm1; auto]. destruct (c_log a) eqn:Hl; [|inv Hm1; auto].
        binv Hm1. inv Hm1. auto. }
      destruct H2 as (R1 & R2 & R3). destruct Hm0 as (A1 & A2 & evs & A3 & A4 & _). cbn -[set_cut_top] in A1. cbn in A3.
      pose proof (tv_cut true a0) as T. unfold tv in T. injection T as T1 _ T3 T4.
      split; [congruence|]. split; [congruence|]. exists evs. split; [congruence|]. split; [assumption|].
      intros (O & _). congruence.
    Qed.

    Lemma ev_core fuel E o pos vs c r vs' c' : norcvs E -> nrargs c -> nrv rq o = true ->
      parse_core fuel rec E o pos vs c = Ok (r, vs', c') ->
      match o with Ref _ _ _ _ _ => tr E c c' | _ => trc E o pos r c c' end.
    Proof.
      assert (Hleaf : forall o, match o with Lit _ _ | Dic _ | Cls _ _ _ | Chr _ | Dot | Not _ => false | _ => true end = true ->
                forall p, ~ failure (e_input E) (TLeave o pos r) p).
      { intros o' Ho p Hp. destruct r; [destruct Hp|]. destruct Hp as [_ Hp]. destruct o'; try exact Hp; discriminate. }
      assert (Hsome : forall o n p, ~ failure (e_input E) (TLeave o pos (Some n)) p) by (intros o' n p Hp; exact Hp).
      assert (Hfl : forall o, match o with Lit _ _ | Dic _ | Cls _ _ _ | Chr _ | Dot | Not _ => true | _ => false end = true ->
                trc E o pos None c (set_error_pos E pos None c)).
      { intros o' Ho. apply trc_fail0; [|apply fail_le]. destruct o'; try discriminate; reflexivity. }
      intros HE Hc Hn H. destruct o; cbn [parse_core nrv] in H, Hn.
      - eapply ev_seq; eauto.
      - eapply ev_cho; eauto.
      - eapply ev_rep; eauto.
      - unfold parse_and in H. binv H. inv H. apply Hrec in Hm; [|assumption|exact Hc|assumption]. apply tr_core; [|now apply Hleaf].
        eapply tr_after; [exact Hm|reflexivity].
      - unfold parse_not in H. binv H. apply Hrec in Hm; [|assumption|exact Hc|assumption]. cbv zeta in H. destruct r0; inv H.
        + apply trc_error; [|reflexivity|apply fail_le]. eapply tr_after; [exact Hm|reflexivity].
        + apply tr_core; [|apply Hsome]. eapply tr_after; [exact Hm|reflexivity].
      - eapply ev_dic; eauto.
      - eapply ev_lit; eauto.
      - unfold parse_cls in H. destruct (_ =? 0); [inv H; now apply Hfl|]. binv H. binv H.
        destruct (xorb _ _); inv H; [apply tr_core; [now apply tr_refl|apply Hsome]|now apply Hfl].
      - unfold parse_chr in H. destruct (_ =? 0); [inv H; now apply Hfl|]. binv H.
        destruct (_ =? _)%N; inv H; [apply tr_core; [now apply tr_refl|apply Hsome]|now apply Hfl].
      - unfold parse_dot in H. binv H. destruct (_ <? 1); inv H; [now apply Hfl|apply tr_core; [now apply tr_refl|apply Hsome]].
      - unfold parse_csc in H. binv H. inv H. apply Hrec in Hm; [|assumption|exact Hc|assumption]. apply tr_core; [|now apply Hleaf].
        eapply tr_after; [exact Hm|reflexivity].
      - unfold parse_cap in H. binv H. apply Hrec in Hm; [|assumption|exact Hc|assumption]. apply tr_core; [|now apply Hleaf].
        destruct r0; inv H; eapply tr_after; [exact Hm|reflexivity|exact Hm|reflexivity].
      - apply tr_core; [|now apply Hleaf]. eapply ev_tok; eauto.
      - unfold parse_ign in H. binv H. inv H. apply Hrec in Hm; [|assumption|exact Hc|assumption]. apply tr_core; [|now apply Hleaf].
        exact Hm.
      - unfold parse_usr in H. destruct (e_user _ _ _ _ _ _) as [[? ?] ?]. inv H. apply tr_core; [|now apply Hleaf].
        now apply tr_refl.
      - apply tr_core; [|now apply Hleaf]. apply Hrec in H; [exact H|assumption|exact Hc|reflexivity].
      - apply tr_core; [|now apply Hleaf]. eapply ev_hld; eauto.
      - eapply ev_ref; eauto.
      - apply tr_core; [|now apply Hleaf]. unfold parse_wsp in H. destruct (c_inws c); [inv H; now apply tr_refl|].
        binv H. inv H. apply Hrec in Hm; [|assumption|exact Hc|assumption]. eapply tr_before; [|reflexivity]. eapply tr_after; [exact Hm|reflexivity].
      - eapply ev_bkr; eauto.
      - apply tr_core; [|now apply Hleaf]. apply andb_prop in Hn as [A B]. eapply ev_prec in H; [exact H|assumption|exact Hc|exact A|exact B].
      - apply tr_core; [|now apply Hleaf]. eapply ev_rcv; eauto.
      - inv H. apply tr_core; [|now apply Hleaf]. apply tr_refl. apply tv_cut.
      - discriminate.
    Qed.
  End Ops.

  Lemma nested_one o pos r evs : nested evs -> nested (TEnter o pos :: evs ++ [TLeave o pos r]).
  Proof. intros. constructor; [assumption|constructor]. Qed.
  Theorem parse_tr fuel : rec_tr (parse fuel).
  Proof.
    induction fuel as [|fuel IH]; intros E o pos vs c r vs' c' HE Hc Hn H; cbn [parse] in H; [discriminate|].
    unfold traced in H. destruct (is_traceable E o c) eqn:Ht.
    - binv H. inv H. apply (ev_core (parse fuel) IH (parse_frame fuel)) in Hm; auto.
      assert (Hm' : trc E o pos r (set_evs (TEnter o pos :: c_evs c)
                 (set_tnext (S (c_tnext c)) (set_tids (c_tnext c :: c_tids c) c))) k).
      { unfold is_traceable in Ht. destruct o; try exact Hm. rewrite andb_false_r in Ht. discriminate. }
      destruct Hm' as (A1 & A2 & evs & A3 & A4 & A5). split; [exact A1|]. split; [exact A2|].
      exists (TEnter o pos :: evs ++ [TLeave o pos r]). split; [|split].
      + csimpl. cbn in A3. rewrite A3. cbn [rev]. rewrite rev_app_distr. cbn. now rewrite <- app_assoc.
      + now apply nested_one.
      + intros Ho. apply A5. exact Ho.
    - apply (ev_core (parse fuel) IH (parse_frame fuel)) in H; auto.
      assert (Hd : (exists a b d e f, o = Ref a b d e f) \/ ~ on E c).
      { unfold is_traceable in Ht. destruct o; try (left; do 5 eexists; reflexivity); right; intros (_ & O1 & _ & O3 & _); rewrite O1, O3 in Ht; discriminate. }
      destruct Hd as [(a & b & d & e & f & ->)|Hno]; [exact H|].
      destruct o; try exact H; destruct H as (A1 & A2 & evs & A3 & A4 & A5);
      (split; [exact A1|]; split; [exact A2|]; exists evs; split; [exact A3|]; split; [exact A4|]; intros Ho; now apply Hno in Ho).
  Qed.
End Events.
