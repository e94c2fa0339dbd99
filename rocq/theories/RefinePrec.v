(** * The engine computes the reference semantics: precedence climbing. *)
From Verif Require Import Base BaseLemmas Utf8 Utf8Proofs Escape TrieM LineInfo Ope Ctx ErrLog Engine EngineLemmas Frame Scope Bounds Mono RefSem RefMono Refine RefineOps RefineRule.

Section Prec.
  Context {V U : Type} {kp : keepvals}.
  Notation env := (env V U).
  Notation ctx := (ctx V U).
  Notation sv := (sv V).
  Implicit Types (E : env) (c : ctx) (vs : sv) (m : mode) (sd : seed V) (al wal : modes).

  (** The wrapper installed last belongs to [r] / has recorded [t]. *)
  Definition hasop (r : rid) c : Prop := exists t rest, c_prec c = (r, t) :: rest.
  Definition headtok (r : rid) (t : bytes) c : Prop := exists rest, c_prec c = (r, t) :: rest.

  Lemma hasop_frame r c c' : frame c c' -> hasop r c -> hasop r c'.
  Proof.
    intros F (t & rest & H). pose proof (f_prec _ _ F) as Hp. rewrite H in Hp. unfold hasop.
    destruct (c_prec c') as [|[a b] l]; [discriminate|]. cbn in Hp. inv Hp. eauto.
  Qed.
  Lemma run_headtok E r vs pd c v c' : hasop r c -> run_action E r vs pd c = (v, c') -> headtok r (sv_token E vs) c'.
  Proof.
    intros (t & rest & H). unfold run_action. rewrite H. cbn [map fst]. rewrite Nat.eqb_refl. intros Hr.
    destruct (e_action E r) as [f|].
    - destruct (f _ _ _ _) as [v0 dt]. inv Hr. csimpl. eexists. reflexivity.
    - inv Hr. csimpl. eexists. reflexivity.
  Qed.
  Lemma reduce_headtok E r d vs pd c v c' : hasop r c -> r_disable_action d = false ->
    reduce E r d vs pd c = (v, c') -> headtok r (sv_token E vs) c'.
  Proof.
    intros Hh Hd. unfold reduce, has_action, wrapped. pose proof Hh as (t & rest & H). rewrite H. cbn [existsb fst].
    rewrite Nat.eqb_refl, Hd. cbn [orb andb negb]. now apply run_headtok.
  Qed.
  Lemma headtok_dt r t u c : headtok r t c -> headtok r t (set_dt u c).
  Proof. auto. Qed.

  Section Once.
    Variable k : nat.
    Hypothesis IH : @refines V U kp k.
    Hypothesis IHP : @refinesP V U kp k.
    Lemma t_once E al wal m r d body pos x c :
      okA E al wal -> al r m -> get_body E r = Some (d, body) -> r_is_macro d = false ->
      (r_macro_ref d = true -> top_args c = []) ->
      ref_scope (ref k) E m d body pos = Some x -> inv k E al None m c -> pos <= inlen E ->
      ~ loose E -> r_disable_action d = false -> hasop r c ->
      ev (fun f => forall n v c', do_parse E (parse f) r d body pos c = Ok (Some n, v, c') ->
        exists n' w, x = Some (n', w) /\ headtok r (sv_token E (set_span (pos, n') w)) c').
    Proof.
      intros HA Hal Hg Hm Hta Hr Hi Hp Hnl Hda Hop.
      set (c1 := match e_enter E r with Some f => set_dt (f (e_input E) pos (c_dt c)) c | None => c end).
      assert (Q0 : rpost E al c c1).
      { unfold c1. destruct (e_enter E r) eqn:Hen; [apply rp_dt|apply rpost_refl]; try apply Hi.
        intros D HK H0. eapply kp_enter; eauto. }
      assert (Hi1 : inv k E al None m c1) by (eapply inv_post; eauto).
      destruct (f_body k IH IHP E al wal None m r d body pos sv_new x sv_new c1) as (vs' & c2 & A & B & Q); auto.
      { intros X. unfold top_args. rewrite (f_args _ _ (q_frame _ _ _ _ Q0)). exact (Hta X). }
      { constructor. }
      { apply vsrel_refl. }
      assert (Hop2 : hasop r c2).
      { eapply hasop_frame; [|exact Hop]. eapply frame_trans; [apply Q0|apply Q]. }
      assert (Hrc : c_rcv c2 = false).
      { rewrite (q_rcv _ _ _ _ Q), (q_rcv _ _ _ _ Q0). apply Hi. }
      eapply ev_imp; [exact A|]. cbv beta. intros f Hf n v c' Hd. unfold do_parse in Hd. fold c1 in Hd. rewrite Hf in Hd.
      cbn [bind] in Hd. rewrite Hrc in Hd.
      destruct x as [[n' w]|]; cbn [len_of] in Hd.
      - exists n', w. split; [reflexivity|]. destruct B as [B|B]; [contradiction|]. subst vs'.
        set (vs2 := if is_choice_like _ then _ else _) in Hd.
        assert (Ht : sv_token E vs2 = sv_token E (set_span (pos, n') w)).
        { unfold vs2. destruct (is_choice_like _); reflexivity. }
        rewrite <- Ht. clearbody vs2. clear Ht.
        assert (Hfin : forall pd v0 c0, reduce E r d vs2 pd c2 = (v0, c0) -> headtok r (sv_token E vs2) c0)
          by (intros; eapply reduce_headtok; eauto).
        destruct (e_pred E r) as [p|].
        + destruct (p _ _ _) as [[ok msg] pd]. destruct ok.
          * destruct (reduce E r d vs2 pd c2) as [v0 c0] eqn:Hre. specialize (Hfin _ _ _ Hre).
            destruct (e_leave E r) as [g|]; [destruct (g _ _ _ _ _); inv Hd; exact Hfin|inv Hd; exact Hfin].
          * destruct (e_leave E r) as [g|]; [destruct (g _ _ _ _ _)|]; discriminate.
        + destruct (reduce E r d vs2 None c2) as [v0 c0] eqn:Hre. specialize (Hfin _ _ _ Hre).
          destruct (e_leave E r) as [g|]; [destruct (g _ _ _ _ _); inv Hd; exact Hfin|inv Hd; exact Hfin].
      - destruct (e_leave E r) as [g|]; [destruct (g _ _ _ _ _)|]; discriminate.
    Qed.
  End Once.

  Lemma scope_mono j k E m d body pos (x : rv V) : j <= k ->
    ref_scope (ref j) E m d body pos = Some x -> ref_scope (ref k) E m d body pos = Some x.
  Proof.
    intros Hj. apply sub_Some. unfold ref_scope. apply sub_bind; [now apply ref_sub|].
    intros [[n w]|]; [|apply sub_refl]. destruct (r_no_whitespace d); [|apply sub_refl].
    apply s_then. intros. now apply ref_sub.
  Qed.

  Lemma t_plain k E al wal m r d body pos y sd c : (forall j, j <= k -> @refines V U kp j /\ @refinesP V U kp j) ->
    okA E al wal -> al r m -> get_body E r = Some (d, body) -> r_is_macro d = false -> r_lr d = false ->
    pos <= inlen E -> (r_macro_ref d = true -> top_args c = []) ->
    call (S k) E m r pos = Some y -> inv (S k) E al sd m c ->
    ~ loose E -> r_disable_action d = false -> (e_packrat E = true -> e_slot E r = None) -> hasop r c ->
    ev (fun f => forall n v c',
      (if e_packrat E then packrat E pos r (do_parse E (parse f) r d body pos) c
       else guard pos r (do_parse E (parse f) r d body pos) c) = Ok (Some n, v, c') ->
      exists n' w, ref_scope (ref k) E m d body pos = Some (Some (n', w)) /\ headtok r (sv_token E (set_span (pos, n') w)) c').
  Proof.
    intros IH HA Hal Hg Hmac Hlr Hp Hta Hc Hi Hnl Hda Hsl Hop. pose proof (get_body_inv _ _ _ _ Hg) as [Hd Hb].
    destruct (call_least _ _ _ _ _ _ Hc) as (j & Hj & Hcj & Hnj). assert (Hj' : j <= k) by lia.
    assert (Hu : undef j E al r pos) by (eapply undef_mk; eauto).
    assert (Ho : ref_once (ref j) E None m r d body pos = Some y).
    { pose proof Hcj as Ho. cbn [call] in Ho. unfold ref_call in Ho. rewrite Hg in Ho. cbn [obind] in Ho.
      unfold ref_rule in Ho. now rewrite Hlr in Ho. }
    rewrite once_body in Ho. oinv Ho. change (ref_scope (ref j) E m d body pos = Some a) in Hm.
    assert (Hrun : forall c1, c_args c1 = c_args c -> c_prec c1 = c_prec c -> inv j E al None m c1 ->
      ev (fun f => forall n v c', do_parse E (parse f) r d body pos c1 = Ok (Some n, v, c') ->
        exists n' w, ref_scope (ref k) E m d body pos = Some (Some (n', w)) /\ headtok r (sv_token E (set_span (pos, n') w)) c')).
    { intros c1 Ha Hpr Hi1. destruct (IH j Hj') as [I1 I2]. eapply ev_imp; [eapply (t_once j I1 I2 E al wal m r d body pos a c1); eauto|].
      - intros X. unfold top_args. rewrite Ha. exact (Hta X).
      - unfold hasop in *. now rewrite Hpr.
      - cbv beta. intros f Hf n v c' Hd'. destruct (Hf n v c' Hd') as (n' & w & Hx & Ht). exists n', w. split; [|exact Ht].
        rewrite Hx in Hm. eapply scope_mono; eauto. }
    destruct (e_packrat E) eqn:Hpk.
    - unfold packrat. rewrite (Hsl eq_refl).
      assert (Hi1 : inv j E al None m (mark_actp r pos c)) by (eapply (inv_mark_actp (S k)); eauto; lia).
      eapply ev_imp; [apply (Hrun (mark_actp r pos c)); [reflexivity..|exact Hi1]|]. cbv beta. intros f Hf n v c' Hx.
      unfold mark_actp in Hf. destruct (nfind (c_actp c) r) as [p|].
      + destruct (p =? pos); [discriminate|]. destruct (do_parse _ _ _ _ _ _ _) as [[[l v0] c0]| | |] eqn:Hdp; try discriminate.
        cbn [bind] in Hx. inv Hx. destruct (Hf _ _ _ eq_refl) as (n' & w & H1 & H2). exists n', w. auto.
      + destruct (do_parse _ _ _ _ _ _ _) as [[[l v0] c0]| | |] eqn:Hdp; try discriminate.
        cbn [bind] in Hx. inv Hx. destruct (Hf _ _ _ eq_refl) as (n' & w & H1 & H2). exists n', w. auto.
    - unfold guard. destruct (lr_find (c_lrm c) (r, pos)) as [[l v]|] eqn:Hf; [apply ev_all; discriminate|].
      assert (Hi1 : inv j E al None m (mark_lrm r pos c)) by (eapply (inv_mark_lrm (S k)); eauto; lia).
      eapply ev_imp; [apply (Hrun (mark_lrm r pos c)); [reflexivity..|exact Hi1]|]. cbv beta. intros f Hf' n v c' Hx.
      unfold mark_lrm in Hf'. destruct (do_parse _ _ _ _ _ _ _) as [[[l v0] c0]| | |] eqn:Hdp; try discriminate.
      cbn [bind] in Hx. inv Hx. destruct (Hf' _ _ _ eq_refl) as (n' & w & H1 & H2). exists n', w. auto.
  Qed.

  Lemma t_ref k E al wal sd fr m nm r ia mac args d pos vr x vs c :
    (forall j, j <= k -> @refines V U kp j /\ @refinesP V U kp j) ->
    okA E al wal -> seed_ok E sd -> al r m -> nth_error (e_g E) r = Some d ->
    r_is_macro d = false -> r_lr d = false -> r_disable_action d = false -> (e_packrat E = true -> e_slot E r = None) ->
    ~ loose E -> ref k E sd fr m (Ref nm (Some r) ia mac args) pos vr = Some (Some x) ->
    inv k E al sd m c -> pos <= inlen E -> hasop r c ->
    ev (fun f => forall n vs' c', parse f E (Ref nm (Some r) ia mac args) pos vs c = Ok (Some n, vs', c') ->
      exists t, ref_token (ref k) E m (Ref nm (Some r) ia mac args) pos = Some t /\ headtok r t c').
  Proof.
    intros IH HA Hs Hal Hd Hmac Hlr Hda Hsl Hnl Hr Hi Hp Hop.
    destruct k as [|k1]; [discriminate|]. cbn [ref ref_core] in Hr. unfold ref_reference in Hr. rewrite Hd in Hr. cbn [obind] in Hr.
    rewrite Hmac in Hr. destruct k1 as [|k2]; [discriminate|]. cbn [ref ref_core] in Hr. unfold ref_hld in Hr.
    oinv Hr. destruct a as [d' body]. rename Hm into Hg. pose proof (get_body_inv _ _ _ _ Hg) as [Hd' Hb]. rewrite Hd in Hd'. inv Hd'.
    rewrite Hmac in Hr. oinv Hr. rename a into y.
    assert (Hc : call (S k2) E m r pos = Some y).
    { cbn [call]. unfold ref_call. rewrite Hg. cbn [obind]. destruct sd as [[[r0 p0] s]|]; [|exact Hm].
      destruct ((r0 =? r) && (p0 =? pos)) eqn:Hk; [|exact Hm]. exfalso. apply andb_prop in Hk as [H1 H2].
      apply Nat.eqb_eq in H1, H2. subst. destruct (seed_lr _ _ Hs r pos s eq_refl) as (d0 & b0 & Hg0 & Hlr0). rewrite Hg in Hg0. inv Hg0. congruence. }
    set (ci := if e_tracer E then (if r_ignore d' then set_ign (negb (e_verbose E)) c else c) else c).
    set (nopush := negb (r_macro_ref d') && negb (r_lr d') && e_packrat E).
    set (ca := if nopush then ci else set_args ([] :: c_args ci) ci).
    set (ct := if is_traceable E (Hld r) ca then set_evs (TEnter (Hld r) pos :: c_evs ca)
                 (set_tnext (S (c_tnext ca)) (set_tids (c_tnext ca :: c_tids ca) ca)) else ca).
    assert (Hi0 : inv (S k2) E al sd m c) by (eapply inv_le; [|exact Hi]; lia).
    assert (Hici : inv (S k2) E al sd m ci).
    { unfold ci. destruct (e_tracer E); [destruct (r_ignore d')|]; try exact Hi0.
      eapply inv_mode; [exact Hi0|..]; try reflexivity; apply Hi0. }
    assert (Hica : inv (S k2) E al sd m ca).
    { unfold ca. destruct nopush; [exact Hici|]. constructor; try apply Hici.
      apply inb_same with ci; auto. apply Hici. }
    assert (Hict : inv (S k2) E al sd m ct).
    { unfold ct. destruct (is_traceable _ _ _); [|exact Hica]. eapply inv_mode; [exact Hica|..]; try reflexivity; apply Hica. }
    assert (Hopt : hasop r ct).
    { unfold ct, ca, ci. destruct (is_traceable _ _ _), nopush, (e_tracer E), (r_ignore d'); exact Hop. }
    assert (Htat : r_macro_ref d' = true -> top_args ct = []).
    { intros X. assert (Hn : nopush = false) by (unfold nopush; now rewrite X). unfold ct, ca. rewrite Hn.
      match goal with |- context [if ?b then _ else _] => destruct b end; reflexivity. }
    destruct (t_plain k2 E al wal m r d' body pos y sd ct) as [F HF]; auto.
    exists (S (S F)). intros [|[|f]] Hf n vs' c' Hx; [lia|lia|]. assert (HFf : F <= f) by lia. specialize (HF f HFf).
    assert (Hfast : e_recog E = false).
    { destruct (e_recog E) eqn:He; [|reflexivity]. exfalso. apply Hnl. now left. }
    assert (Hhld : forall n vs' c', parse (S f) E (Hld r) pos vs ca = Ok (Some n, vs', c') ->
      exists t, ref_token (ref (S (S k2))) E m (Ref nm (Some r) ia mac args) pos = Some t /\ headtok r t c').
    { clear Hx. intros n0 vs0 c0 Hx.
      assert (Hcore : forall n1 vs1 c1, parse_hld f E (parse f) r pos vs ct = Ok (Some n1, vs1, c1) ->
        exists t, ref_token (ref (S (S k2))) E m (Ref nm (Some r) ia mac args) pos = Some t /\ headtok r t c1).
      { intros n1 vs1 c1 H1. unfold parse_hld, get_rule in H1. rewrite Hd in H1. cbn [bind] in H1. rewrite Hb, Hmac, Hfast, Hlr in H1.
        cbn [andb negb] in H1.
        match type of H1 with bind ?o _ = _ => destruct o as [[[l v0] c2]| | |] eqn:Hrun end; try discriminate. cbn [bind] in H1.
        destruct l as [l|]; [|discriminate]. inv H1. destruct (HF _ _ _ eq_refl) as (n' & w & Hsc & Ht).
        exists (sv_token E (set_span (pos, n') w)). split; [|exact Ht]. unfold ref_token. rewrite Hg. cbn [obind].
        rewrite (scope_mono k2 (S (S k2)) _ _ _ _ _ _ ltac:(lia) Hsc). reflexivity. }
      change (parse (S f) E (Hld r) pos vs ca) with (traced E (Hld r) pos (parse_hld f E (parse f) r pos vs) ca) in Hx.
      unfold traced in Hx. unfold ct in Hcore. destruct (is_traceable E (Hld r) ca).
      - match type of Hx with bind ?o _ = _ => destruct o as [[[l v0] c2]| | |] eqn:Hrun end; try discriminate.
        cbn [bind] in Hx. inv Hx. destruct (Hcore _ _ _ eq_refl) as (t & H1 & H2). exists t. auto.
      - eauto. }
    change (parse (S (S f)) E (Ref nm (Some r) ia mac args) pos vs c)
      with (traced E (Ref nm (Some r) ia mac args) pos (parse_ref E (parse (S f)) (Some r) ia args pos vs) c) in Hx.
    unfold traced, is_traceable in Hx. rewrite andb_false_r in Hx.
    assert (Hdis : forall n1 vs1 c1, parse_dispatch E (parse (S f)) (Some r) ia args pos vs ci = Ok (Some n1, vs1, c1) ->
      exists t, ref_token (ref (S (S k2))) E m (Ref nm (Some r) ia mac args) pos = Some t /\ headtok r t c1).
    { intros n1 vs1 c1 H1. unfold parse_dispatch, get_rule in H1. rewrite Hd in H1. cbn [bind] in H1. rewrite Hmac in H1.
      fold nopush in H1. unfold ca in Hhld. destruct nopush; [eauto|].
      match type of H1 with bind ?o _ = _ => destruct o as [[[l v0] c2]| | |] eqn:Hrun end; try discriminate.
      cbn [bind] in H1. inv H1. destruct (Hhld _ _ _ eq_refl) as (t & H1 & H2). exists t. auto. }
    unfold parse_ref in Hx. unfold ci in Hdis. rewrite Hd in Hx. destruct (e_tracer E); [|eauto].
    match type of Hx with context [parse_dispatch ?a ?b ?c0 ?d0 ?e ?f0 ?g ?h] => destruct (parse_dispatch a b c0 d0 e f0 g h) as [[[l v0] c2]| | |] eqn:Hrun end; try discriminate.
    cbn [bind] in Hx. inv Hx. destruct (Hdis _ _ _ eq_refl) as (t & H1 & H2). exists t. auto.
  Qed.

  Section Climb.
    Variable k : nat.
    Hypothesis IH : forall j, j <= k -> @refines V U kp j /\ @refinesP V U kp j.
    Variables (E : env) (al wal : modes) (sd : seed V) (fr : fram) (m : mode).
    Variables (atom binop : ope) (info : binop_info) (rl : rid).
    Hypothesis HA : okA E al wal.
    Hypothesis Hck : chk E al m (Pre atom binop info rl).
    Hypothesis Hops : forall nm r ia mac args, binop = Ref nm (Some r) ia mac args -> op_of E r.
    Hypothesis Hs : seed_ok E sd.
    Hypothesis Hfr : fram_ok E al fr.

    Lemma c_loose : ~ loose E. Proof. destruct Hck as [(A & _) _]. exact A. Qed.
    Lemma c_pure : pure E.
    Proof. destruct (ok_pure _ _ (oa_main _ _ _ HA)) as [H|H]; [destruct (c_loose H)|exact H]. Qed.
    Lemma c_operand o pos x c : operand E o -> nopre o = true -> chk E al m o -> inv k E al sd m c -> pos <= inlen E ->
      ref k E sd fr m o pos sv_new = Some x ->
      exists vs' c', ev (fun f => parse f E o pos sv_new c = Ok (len_of x, vs', c'))
        /\ (forall n w, x = Some (n, w) -> vs' = w) /\ rpost E al c c' /\ pos_ok E pos (len_of x).
    Proof.
      intros (nm & r & ia & mac & args & d & -> & Hd & Hmac & _) Hn Hc Hi Hp Hr.
      destruct (proj1 (IH k (le_n k)) E al wal sd fr m (Ref nm (Some r) ia mac args) pos sv_new x sv_new c) as (vs' & c' & A & B & Q & _ & P); auto.
      - split; [exact Hc|]. cbn [mref]. rewrite Hd, Hmac. discriminate.
      - apply vsrel_refl.
      - exists vs', c'. split; [exact A|]. split; [|auto]. intros n w ->. destruct B as [B|B]; [destruct (c_loose B)|exact B].
    Qed.
    Lemma operator_operand o : operator E o -> operand E o.
    Proof. intros (nm & r & ia & mac & args & d & H1 & H2 & H3 & H4 & _). exists nm, r, ia, mac, args, d. auto. Qed.

    Lemma c_binop : exists nm br ia mac args d, binop = Ref nm (Some br) ia mac args /\ nth_error (e_g E) br = Some d
      /\ r_is_macro d = false /\ r_lr d = false /\ r_disable_action d = false /\ (e_packrat E = true -> e_slot E br = None) /\ al br m.
    Proof.
      destruct Hck as [(_ & _ & (nm & r & ia & mac & args & d & H1 & H2 & H3 & H4 & H5 & H6 & H7) & _) [_ Hb]].
      exists nm, r, ia, mac, args, d. rewrite H1 in Hb. cbn [chk] in Hb. destruct Hb as [[Hb _] _]. auto 10.
    Qed.
    Variable br : rid.
    Hypothesis Hbr : exists nm ia mac args, binop = Ref nm (Some br) ia mac args.
    Lemma c_rule c : binop_rule E rl binop c = Ok br.
    Proof.
      destruct Hck as [(_ & _ & _ & _ & _ & (d & Hd & Hm) & _) _]. destruct Hbr as (nm & ia & mac & args & ->).
      unfold binop_rule, get_rule. rewrite Hd. cbn [bind]. now rewrite Hm.
    Qed.
    Lemma c_push c : inv k E al sd m c -> inv k E al sd m (set_prec ((br, []) :: c_prec c) c).
    Proof.
      intros Hi. constructor; try apply Hi.
      - intros r. unfold wrapped. csimpl. cbn [existsb fst]. intros H. apply orb_prop in H as [H|H].
        + apply Nat.eqb_eq in H. subst r. destruct Hbr as (nm & ia & mac & args & Hb). eauto.
        + now apply (i_prec _ _ _ _ _ _ Hi).
      - apply inb_same with c; auto. apply Hi.
    Qed.
    Lemma c_pop c c' : rpost E al (set_prec ((br, []) :: c_prec c) c) c' -> rpost E al c (set_prec (tl (c_prec c')) c').
    Proof.
      intros Q. eapply rpost_wrap; [exact Q|..]; try reflexivity. destruct (q_frame _ _ _ _ Q). constructor; csimpl; auto.
      destruct (c_prec c') as [|x t]; [discriminate|]. cbn [map tl] in *. now inv f_prec.
    Qed.

    Lemma f_climb fuel : forall mn pos i vs x c,
      ref_climb fuel E (ref k E sd fr m) (ref_token (ref k) E m binop) atom binop info rl mn pos i vs = Some x ->
      inv k E al sd m c -> hasop br c -> pos + i <= inlen E ->
      exists vs' c', ev (fun f => forall g, fuel <= g -> prec_loop g E (parse f) atom binop info rl mn pos i vs c = Ok (len_of x, vs', c'))
        /\ (forall n w, x = Some (n, w) -> vs' = w) /\ rpost E al c c' /\ pos_ok E pos (len_of x).
    Proof.
      assert (Hstop : forall (fuel mn pos i : nat) vs c, inb E c -> pos + i <= inlen E -> forall c1, rpost E al c c1 ->
        forall P : nat -> Prop, ev P -> (forall f, P f -> forall g, fuel <= g ->
          prec_loop g E (parse f) atom binop info rl mn pos i vs c = Ok (Some i, vs, c1)) ->
        exists vs' c', ev (fun f => forall g, fuel <= g -> prec_loop g E (parse f) atom binop info rl mn pos i vs c = Ok (Some i, vs', c'))
          /\ (forall n w, Some (i, vs) = Some (n, w) -> vs' = w) /\ rpost E al c c' /\ pos_ok E pos (Some i)).
      { intros fuel0 mn pos i vs c Hi Hp c1 Q P HP H. exists vs, c1. split; [eapply ev_imp; [exact HP|]; cbv beta; auto|].
        split; [congruence|]. split; [exact Q|]. intros n Hn. inv Hn. exact Hp. }
      pose proof Hck as [(Hnl & Hat & Hbi & Hna & Hnb & Hrl & Hact) [Hca Hcb]].
      induction fuel as [|fuel IHf]; intros mn pos i vs x c Hr Hi Hop Hp; cbn [ref_climb] in Hr.
      - destruct (pos + i <? inlen E) eqn:Hlt; [discriminate|]. inv Hr. cbn [len_of].
        eapply (Hstop 0 mn pos i vs c (i_inb _ _ _ _ _ _ Hi) Hp c (rpost_refl _ _ _ (i_inb _ _ _ _ _ _ Hi)) (fun _ => True)); [now apply ev_all|].
        intros f _ [|g] _; cbn [prec_loop]; rewrite Hlt; reflexivity.
      - destruct (pos + i <? inlen E) eqn:Hlt.
        2:{ inv Hr. cbn [len_of]. eapply (Hstop _ mn pos i vs c (i_inb _ _ _ _ _ _ Hi) Hp c (rpost_refl _ _ _ (i_inb _ _ _ _ _ _ Hi)) (fun _ => True)); [now apply ev_all|].
            intros f _ [|g] _; cbn [prec_loop]; rewrite Hlt; reflexivity. }
        oinv Hr. rename Hm into Hob.
        destruct (c_operand binop (pos + i) a c) as (ov' & c1 & A1 & B1 & Q1 & P1); auto using operator_operand.
        assert (Hi1 : inv k E al sd m c1) by (eapply inv_post; eauto).
        destruct a as [[n ov]|].
        2:{ inv Hr. cbn [len_of]. eapply (Hstop _ mn pos i vs c (i_inb _ _ _ _ _ _ Hi) Hp c1 Q1); [exact A1|].
            cbv beta. intros f Hf [|g] Hg; [lia|]. cbn [prec_loop]. rewrite Hlt, Hf. reflexivity. }
        rewrite (B1 n ov eq_refl) in A1. cbn [len_of] in A1, P1.
        (* the recorded token *)
        destruct c_binop as (nm & br' & ia & mac & args & d & Hb & Hd & Hmac & Hlr & Hda & Hsl & Hal).
        destruct Hbr as (nm' & ia' & mac' & args' & Hb'). assert (br' = br) by (rewrite Hb in Hb'; now inv Hb'). subst br'. clear Hb' nm' ia' mac' args'.
        assert (Hpi : pos + i <= inlen E) by lia.
        pose proof (t_ref k E al wal sd fr m nm br ia mac args d (pos + i) sv_new (n, ov) sv_new c IH HA Hs Hal Hd Hmac Hlr Hda Hsl Hnl) as Ht.
        rewrite <- Hb in Ht. specialize (Ht Hob Hi Hpi Hop).
        destruct (ev_pick _ (ev_and _ _ A1 Ht)) as (f0 & Hf0 & Ht0). destruct (Ht0 _ _ _ Hf0) as (t & Htok & rest & Hhead). clear Ht f0 Hf0 Ht0.
        rewrite Htok in Hr. cbn [obind] in Hr.
        assert (Htk : match c_prec c1 with p :: _ => snd p | [] => [] end = t) by (rewrite Hhead; reflexivity).
        destruct (binfo_find info t) as [[lv la]|] eqn:Hinf.
        2:{ injection Hr as <-. cbn [len_of]. eapply (Hstop _ mn pos i vs c (i_inb _ _ _ _ _ _ Hi) Hp c1 Q1); [exact A1|].
            cbv beta. intros f Hf [|g] Hg; [lia|]. cbn [prec_loop]. rewrite Hlt, Hf. cbn [bind]. rewrite Htk, Hinf. reflexivity. }
        destruct (lv <? mn) eqn:Hlv.
        { injection Hr as <-. cbn [len_of]. eapply (Hstop _ mn pos i vs c (i_inb _ _ _ _ _ _ Hi) Hp c1 Q1); [exact A1|].
          cbv beta. intros f Hf [|g] Hg; [lia|]. cbn [prec_loop]. rewrite Hlt, Hf. cbn [bind]. rewrite Htk, Hinf, Hlv. reflexivity. }
        oinv Hr. rename a into opv, Hm into Hopv.
        oinv Hr. rename Hm into Hoa.
        assert (Hvo : v_vals ov = opv :: tl (v_vals ov)) by (destruct (v_vals ov); [discriminate|]; injection Hopv as ->; reflexivity).
        assert (Hpin : pos + (i + n) <= inlen E) by (specialize (P1 n eq_refl); lia).
        destruct (c_operand atom (pos + (i + n)) a c1) as (va' & ca & A2 & B2 & Q2 & P2); auto.
        destruct a as [[al' va]|].
        2:{ injection Hr as <-. cbn [len_of] in A2 |- *.
            exists (set_toks (v_toks vs) (set_vals (v_vals vs) (set_vals (v_vals vs ++ [opv]) vs))), ca.
            split; [|split; [discriminate|split; [eapply rpost_trans; eauto|discriminate]]].
            eapply ev_imp; [exact (ev_and _ _ A1 A2)|]. cbv beta. intros f [H1 H2] [|g] Hg; [lia|]. cbn [prec_loop].
            rewrite Hlt, H1. cbn [bind]. rewrite Htk, Hinf, Hlv, Hvo, H2. reflexivity. }
        rewrite (B2 al' va eq_refl) in A2. cbn [len_of] in A2, P2.
        oinv Hr. rename Hm into Hrec.
        assert (Hia : inv k E al sd m ca) by (eapply inv_post; eauto).
        destruct (IHf (if la then S lv else lv) (pos + (i + n)) al' va a (set_prec ((br, []) :: c_prec ca) ca) Hrec) as (ve' & ce & A3 & B3 & Q3 & P3).
        { now apply c_push. }
        { unfold hasop. csimpl. eauto. }
        { specialize (P2 al' eq_refl). lia. }
        pose proof (c_pop _ _ Q3) as Q4. set (c2 := set_prec (tl (c_prec ce)) ce) in *.
        assert (Qc2 : rpost E al c c2) by (eapply rpost_trans; [exact Q1|]; eapply rpost_trans; [exact Q2|exact Q4]).
        assert (Hi2 : inv k E al sd m c2) by (eapply inv_post; eauto).
        destruct a as [[l2 ve]|].
        2:{ injection Hr as <-. cbn [len_of] in A3 |- *.
            exists (set_toks (v_toks vs) (set_vals (v_vals vs) (set_vals (v_vals vs ++ [opv]) vs))), c2.
            split; [|split; [discriminate|split; [exact Qc2|discriminate]]].
            eapply ev_imp; [exact (ev_and _ _ A1 (ev_and _ _ A2 A3))|]. cbv beta. intros f (H1 & H2 & H3) [|g] Hg; [lia|]. cbn [prec_loop].
            rewrite Hlt, H1. cbn [bind]. rewrite Htk, Hinf, Hlv, Hvo, H2. cbn [bind]. rewrite c_rule. cbn [bind]. rewrite H3 by lia. reflexivity. }
        rewrite (B3 l2 ve eq_refl) in A3. cbn [len_of] in A3, P3.
        oinv Hr. rename a into rv0, Hm into Hrv.
        assert (Hve : v_vals ve = rv0 :: tl (v_vals ve)) by (destruct (v_vals ve); [discriminate|]; injection Hrv as ->; reflexivity).
        set (i2 := i + n + l2) in *.
        set (vs2 := set_vals ((v_vals vs ++ [opv]) ++ [rv0]) vs) in *.
        set (vs3 := match e_action E rl with Some f => _ | None => _ end) in Hr.
        assert (Hstep : exists c3, rpost E al c2 c3 /\
          (if has_action E c2 rl then
             let vsx := set_span (pos, i2) vs2 in
             let (v, cx) := run_action E rl vsx None c2 in (v, vsx, cx)
           else (front (v_vals vs2), vs2, c2)) = (front (v_vals vs3), set_vals (v_vals vs2) vs3, c3) /\ v_vals vs3 = [front (v_vals vs3)]).
        { pose proof (rp_tok E al rl (sv_token E (set_span (pos, i2) vs2)) c2 (i_inb _ _ _ _ _ _ Hi2)) as Qt.
          unfold has_action, vs3. destruct (e_action E rl) as [fa|] eqn:Hea.
          - rewrite orb_true_r. unfold run_action. rewrite Hea.
            rewrite <- (pu_action _ c_pure rl fa (e_input E) (set_span (pos, i2) vs2) (c_dt c2) (e_u0 E) None Hea).
            cbv zeta. match goal with |- context [c_dt (set_prec ?l c2)] => change (c_dt (set_prec l c2)) with (c_dt c2) end.
            destruct (fa (e_input E) (set_span (pos, i2) vs2) (c_dt c2) None) as [v dt] eqn:Hfa.
            eexists (set_dt dt _). split; [eapply rpost_trans; [exact Qt|]; apply rp_dt; [apply Qt|]; intros D HK HD|].
            { destruct Hbr as (? & ? & ? & ? & Hb0). pose proof (kp_climb _ _ _ HK (ex_intro _ br (Hops _ _ _ _ _ Hb0)) rl fa (set_span (pos, i2) vs2) (c_dt c2) None Hea HD) as X.
              rewrite Hfa in X. exact X. } cbv zeta.
            split; reflexivity.
          - assert (Hw : wrapped c2 rl = false).
            { destruct (wrapped c2 rl) eqn:Hw; [|reflexivity]. exfalso. apply (Hact eq_refl). now apply (i_prec _ _ _ _ _ _ Hi2). }
            rewrite Hw. cbn [orb]. exists c2. split; [apply rpost_refl, Hi2|]. split; [|reflexivity]. clear. destruct vs; reflexivity. }
        destruct Hstep as (c3 & Q5 & Hstep & Hv3).
        assert (Qc3 : rpost E al c c3) by (eapply rpost_trans; eauto).
        destruct (IHf mn pos i2 vs3 x c3 Hr) as (vs' & c' & A6 & B6 & Q6 & P6).
        { eapply inv_post; eauto. }
        { eapply hasop_frame; [apply Qc3|exact Hop]. }
        { unfold i2. specialize (P3 l2 eq_refl). lia. }
        exists vs', c'. split; [|split; [exact B6|split; [eapply rpost_trans; eauto|exact P6]]].
        eapply ev_imp; [exact (ev_and _ _ A1 (ev_and _ _ A2 (ev_and _ _ A3 A6)))|]. cbv beta. intros f (H1 & H2 & H3 & H6) [|g] Hg; [lia|]. cbn [prec_loop].
        rewrite Hlt, H1. cbn [bind]. rewrite Htk, Hinf, Hlv, Hvo, H2. cbn [bind]. rewrite c_rule. cbn [bind]. rewrite H3 by lia. cbn [bind].
        rewrite Hve. cbv zeta in Hstep |- *. change (set_vals (v_vals (set_vals (v_vals vs ++ [opv]) vs) ++ [rv0]) (set_vals (v_vals vs ++ [opv]) vs)) with vs2.
        fold i2. fold c2. rewrite Hstep. rewrite <- (H6 g ltac:(lia)). f_equal. rewrite <- Hv3. destruct vs3; reflexivity.
    Qed.
  End Climb.

  Lemma f_pre k E al wal sd fr m a b i q pos x c :
    (forall j, j <= k -> @refines V U kp j /\ @refinesP V U kp j) ->
    okA E al wal -> ref_pre k E (ref k E sd fr m) (ref_token (ref k) E m b) a b i q pos sv_new = Some x ->
    chk E al m (Pre a b i q) ->
    (forall nm r ia mac args, b = Ref nm (Some r) ia mac args -> op_of E r) ->
    seed_ok E sd -> fram_ok E al fr -> inv k E al sd m c -> pos <= inlen E ->
    fin E al c x (fun f => parse_prec f E (parse f) a b i q pos sv_new c).
  Proof.
    intros IH HA Hr Hck Hops Hs Hfr Hi Hp. unfold ref_pre in Hr. oinv Hr. rename Hm into Hra.
    pose proof Hck as [(Hnl & Hat & Hbi & Hna & Hnb & Hrl & Hact) [Hca Hcb]].
    pose proof Hbi as (nm & br & ia & mac & args & d & Hb & _).
    destruct (c_operand k IH E al wal sd fr m a b i q HA Hck Hs Hfr a pos a0 c) as (va' & ca & A & B & Q & P); auto.
    unfold parse_prec. destruct a0 as [[la va]|].
    - rewrite (B la va eq_refl) in A. cbn [len_of] in A, P.
      assert (Hbr : exists nm ia mac args, b = Ref nm (Some br) ia mac args) by eauto.
      assert (Hia : inv k E al sd m ca) by (eapply inv_post; eauto).
      destruct (f_climb k IH E al wal sd fr m a b i q HA Hck Hops Hs Hfr br Hbr k 0 pos la va x (set_prec ((br, []) :: c_prec ca) ca) Hr)
        as (vs' & c' & A2 & B2 & Q2 & P2).
      { eapply c_push; eauto. }
      { unfold hasop. csimpl. eauto. }
      { exact (P la eq_refl). }
      exists vs', (set_prec (tl (c_prec c')) c'). split; [|split].
      + assert (Hk : ev (fun f => k <= f)) by (exists k; auto).
        eapply ev_imp; [exact (ev_and _ _ A (ev_and _ _ A2 Hk))|]. cbv beta. intros f (H1 & H2 & H3). rewrite H1. cbn [bind].
        rewrite (c_rule E al m a b i q Hck Hops br Hbr ca). cbn [bind]. rewrite H2 by exact H3. reflexivity.
      + destruct x as [[n w]|]; [right; exact (B2 n w eq_refl)|exact I].
      + eapply rpost_trans; [exact Q|]. eapply c_pop; eauto.
    - inv Hr. exists va', ca. split; [|split; [exact I|exact Q]]. eapply ev_imp; [exact A|]. cbv beta. intros f ->. reflexivity.
  Qed.
End Prec.
