(** * The engine computes the reference semantics: rules, references, main theorem. *)
From Verif Require Import Base BaseLemmas Utf8 Utf8Proofs Escape TrieM LineInfo Ope Ctx ErrLog Engine EngineLemmas Frame Scope Bounds Mono RefSem RefMono Refine RefineOps.

Section Rule.
  Context {V U : Type} {kp : keepvals}.
  Notation env := (env V U).
  Notation ctx := (ctx V U).
  Notation sv := (sv V).
  Implicit Types (E : env) (c : ctx) (vs : sv) (m : mode) (sd : seed V) (al wal : modes).

  (** ** Table lookups *)
  Lemma key_eqb_eq (a b : lrkey) : key_eqb a b = true <-> a = b.
  Proof.
    destruct a as [a1 a2], b as [b1 b2]. unfold key_eqb. cbn. rewrite andb_true_iff, !Nat.eqb_eq.
    split; [intros [-> ->]; reflexivity|intros H; inv H; auto].
  Qed.
  Lemma key_eqb_refl (a : lrkey) : key_eqb a a = true.
  Proof. now apply key_eqb_eq. Qed.
  Lemma key_eqb_neq (a b : lrkey) : key_eqb a b = false <-> a <> b.
  Proof. rewrite <- not_true_iff_false, key_eqb_eq. tauto. Qed.
  Notation lrt := (list (lrkey * (option nat * option V))).
  Lemma lr_find_filter (P : lrkey -> bool) (l : lrt) k :
    lr_find (filter (fun p => P (fst p)) l) k = if P k then lr_find l k else None.
  Proof.
    unfold lr_find. induction l as [|[a b] l IH]; cbn [filter find fst].
    - now destruct (P k).
    - destruct (P a) eqn:Ha; cbn [find fst]; destruct (key_eqb a k) eqn:Hk.
      + apply key_eqb_eq in Hk. subst a. now rewrite Ha.
      + exact IH.
      + apply key_eqb_eq in Hk. subst a. rewrite IH. now rewrite Ha.
      + exact IH.
  Qed.
  Lemma lr_find_erase (l : lrt) a k : lr_find (lr_erase a l) k = if key_eqb k a then None else lr_find l k.
  Proof.
    unfold lr_erase. rewrite (lr_find_filter (fun x => negb (key_eqb x a))). destruct (key_eqb k a); reflexivity.
  Qed.
  Lemma lr_find_set (l : lrt) a v k : lr_find (lr_set a v l) k = if key_eqb k a then Some v else lr_find l k.
  Proof.
    unfold lr_set, lr_find at 1. cbn [find fst]. destruct (key_eqb k a) eqn:Hk.
    - apply key_eqb_eq in Hk. subst. now rewrite key_eqb_refl.
    - assert (key_eqb a k = false) by (apply key_eqb_neq; apply key_eqb_neq in Hk; auto).
      rewrite H. fold (lr_find (lr_erase a l) k). rewrite lr_find_erase. now rewrite Hk.
  Qed.
  Lemma nfind_erase {A} (l : list (nat * A)) a k : nfind (nerase a l) k = if k =? a then None else nfind l k.
  Proof.
    unfold nfind, nerase. induction l as [|[x y] l IH]; cbn [filter find fst].
    - now destruct (k =? a).
    - destruct (x =? a) eqn:Hx; cbn [negb find fst].
      + rewrite IH. destruct (k =? a) eqn:Hk; [reflexivity|].
        assert (x =? k = false) by (rewrite Nat.eqb_neq in *; rewrite Nat.eqb_eq in *; lia). now rewrite H.
      + destruct (x =? k) eqn:Hxk.
        * assert (k =? a = false) by (rewrite Nat.eqb_neq in *; rewrite Nat.eqb_eq in *; lia). now rewrite H.
        * exact IH.
  Qed.
  Lemma nfind_set {A} (l : list (nat * A)) a v k : nfind (nset a v l) k = if k =? a then Some v else nfind l k.
  Proof.
    unfold nset, nfind at 1. cbn [find fst]. rewrite (Nat.eqb_sym a k). destruct (k =? a) eqn:Hk; [reflexivity|].
    fold (nfind (nerase a l) k). rewrite nfind_erase. now rewrite Hk.
  Qed.
  Lemma pk_inj E s1 s2 p1 p2 : s1 < e_cached E -> s2 < e_cached E ->
    pk_idx E s1 p1 = pk_idx E s2 p2 -> s1 = s2 /\ p1 = p2.
  Proof.
    unfold pk_idx. intros H1 H2 H. remember (e_cached E) as n.
    assert (p1 = p2).
    { assert (Hd : (n * p1 + s1) / n = (n * p2 + s2) / n) by now rewrite H.
      rewrite !(Nat.mul_comm n), !Nat.div_add_l, !Nat.div_small in Hd by lia. lia. }
    subst. split; [lia|reflexivity].
  Qed.
  Lemma pk_range E s p : s < e_cached E -> p <= inlen E -> (pk_idx E s p <? pk_size E) = true.
  Proof. intros H1 H2. apply Nat.ltb_lt. unfold pk_idx, pk_size. nia. Qed.

  Definition rfin E al (pos : nat) c (y : rr V) (op : nat -> outcome (option nat * option V * ctx)) : Prop :=
    exists l v c', ev (fun f => op f = Ok (l, v, c')) /\ rrel E y l v /\ rpost E al c c' /\ pos_ok E pos l.

  Lemma once_body (rec : @ref_t V U) E sd m r d body pos :
    ref_once rec E sd m r d body pos =
    let? x := ref_body rec E sd m d body pos sv_new in
    Some (match x with None => None | Some (n, v) => ref_value E r d body pos n v end).
  Proof.
    unfold ref_once, ref_body. destruct (rec _ _ _ _ _ _ _) as [[[n v]|]|]; cbn [obind]; [|reflexivity..].
    destruct (r_no_whitespace d); [|reflexivity]. destruct (ref_then _ _ _ _ _ _) as [[[? ?]|]|]; reflexivity.
  Qed.

  Lemma safe_Ok {A} (P : A -> Prop) (o : outcome A) a : safe P o -> o = Ok a -> P a.
  Proof. intros H ->. exact H. Qed.
  Lemma get_body_inv E r d body : get_body E r = Some (d, body) ->
    nth_error (e_g E) r = Some d /\ r_body d = Some body.
  Proof. unfold get_body. intros H. oinv H. oinv H. inv H. auto. Qed.
  Lemma seed_lr E sd : seed_ok E sd -> forall r p s, sd = Some (r, p, s) ->
    exists d body, get_body E r = Some (d, body) /\ r_lr d = true.
  Proof.
    induction 1 as [|r0 p0 d body H1 H2 H3|r0 p0 s0 s' d body k m H IH H1 H2]; intros r p s Heq; inv Heq; eauto.
  Qed.

  Section Step.
    Variable k : nat.
    Hypothesis IH : @refines V U kp k.
    Hypothesis IHP : @refinesP V U kp k.

    Lemma f_body E al wal sd m r d body pos vr x vs c :
      okA E al wal -> al r m -> get_body E r = Some (d, body) -> r_is_macro d = false ->
      (r_macro_ref d = true -> top_args c = []) -> seed_ok E sd ->
      ref_body (ref k) E sd m d body pos vr = Some x -> inv k E al sd m c -> pos <= inlen E -> vsrel E vs vr ->
      e_recog E = true \/ (vs = sv_new /\ vr = sv_new) ->
      fin E al c x (fun f => parse_ope_body E (parse f) r d body pos vs c).
    Proof.
      intros HA Hal Hg Hm Hta Hs Hr Hi Hp Hv Hnew. apply get_body_inv in Hg as [Hd Hb].
      destruct (ok_rule _ _ (oa_main _ _ _ HA) r m d body Hal Hd Hb) as [Hn Hc]. rewrite Hm in Hc. destruct Hc as [Hc Hmr].
      unfold ref_body in Hr. oinv Hr. unfold parse_ope_body. cbv zeta.
      set (c1 := if e_need_rules E || r_macro_ref d then set_rstk (r :: c_rstk c) c else c).
      assert (Hi1 : inv k E al sd m c1).
      { unfold c1. destruct (_ || _); [|exact Hi]. eapply inv_mode; [exact Hi|..]; try reflexivity; apply Hi. }
      assert (Hrun : forall c2 m' (a : rv V), c_args c2 = c_args c1 -> c_rstk c2 = c_rstk c1 ->
        m' = (if r_no_whitespace d then tok_mode E m else m) -> ref k E sd (r_params d, []) m' body pos vr = Some a ->
        inv k E al sd m' c2 ->
        exists vs' c', ev (fun f => parse f E body pos vs c2 = Ok (len_of a, vs', c'))
          /\ vsok E a vs' /\ rpost E al c2 c' /\ pos_ok E pos (len_of a)).
      { intros c2 m' a0 Ha Hrk -> Hr0 Hi2. destruct Hn as [Hn|(_ & pa & pb & pi & pq & ->)].
        - destruct (f_sub k IH E al wal sd (r_params d, []) (if r_no_whitespace d then tok_mode E m else m) body pos vr a0 vs c2)
            as (vs' & c' & A & B & Q & _ & P); auto; [|apply fram_params|exists vs', c'; auto].
          split; [assumption|]. split; [assumption|]. intros Hx. specialize (Hmr Hx). split.
          + unfold top_args in *. rewrite Ha. unfold c1. rewrite Hmr, orb_true_r. exact (Hta Hmr).
          + exists r, (c_rstk c), d. split; [|auto]. rewrite Hrk. unfold c1. rewrite Hmr, orb_true_r. reflexivity.
        - pose proof Hc as [[Hnl _] _]. destruct Hnew as [Hnew|[-> ->]]; [exfalso; apply Hnl; now left|].
          eapply (IHP E al wal); eauto; [|apply fram_params].
          intros nm r0 ia mac args ->. exists r, d, pa, nm, ia, mac, args, pi, pq. auto. }
      assert (Hpop : forall c2, rpost E al c1 c2 ->
        rpost E al c (if e_need_rules E || r_macro_ref d then set_rstk (tl (c_rstk c2)) c2 else c2)).
      { unfold c1. intros c2 Q. destruct (_ || _); [|exact Q]. eapply rpost_wrap; [exact Q|..]; try reflexivity.
        destruct (q_frame _ _ _ _ Q). constructor; csimpl; auto. now rewrite f_rstk. }
      assert (Hinner : fin E al c1 x (fun f =>
        if r_no_whitespace d then
         let* (len, vs1, c3) := parse f E body pos vs (set_tb (S (c_tb c1)) c1) in
         let c4 := set_tb (pred (c_tb c3)) c3 in
         match len with
         | Some k => then_skip E (parse f) pos k vs1 c4
         | None => Ok (None, vs1, c4)
         end
       else parse f E body pos vs c1)).
      { destruct (r_no_whitespace d) eqn:Hnw.
        - destruct (Hrun (set_tb (S (c_tb c1)) c1) (tok_mode E m) a) as (vs' & c' & A & B & Q & P); auto.
          { eapply inv_mode; [exact Hi1|..]; try reflexivity; [now apply tok_mode_tb|rewrite tok_mode_ws; apply Hi1]. }
          assert (Q1 : rpost E al c1 (set_tb (Nat.pred (c_tb c')) c')).
          { eapply rpost_wrap; [exact Q|..]; try reflexivity.
            destruct (q_frame _ _ _ _ Q). constructor; csimpl; auto. now rewrite f_tb. }
          destruct a as [[n v]|].
          + destruct (f_then k IH E al wal sd m pos n v x vs' (set_tb (Nat.pred (c_tb c')) c') HA Hr) as (vs2 & c2 & A2 & B2 & Q2); auto.
            { eapply inv_post; eauto. }
            exists vs2, c2. split; [|split; [exact B2|eapply rpost_trans; eauto]].
            eapply ev_bind; [exact A|exact A2].
          + inv Hr. exists vs', (set_tb (Nat.pred (c_tb c')) c'). split; [|split; [exact I|exact Q1]].
            eapply ev_bind; [exact A|]. now apply ev_all.
        - destruct (Hrun c1 m a) as (vs' & c' & A & B & Q & P); auto.
          assert (a = x) by (destruct a as [[? ?]|]; inv Hr; reflexivity). subst a. exists vs', c'. auto. }
      destruct Hinner as (vs' & c' & A & B & Q). eexists vs', _. split; [|split; [exact B|apply Hpop, Q]].
      eapply ev_bind; [exact A|]. now apply ev_all.
    Qed.

    Lemma rp_dt E al c u : inb E c -> (forall D, keeps E al D -> D (c_dt c) -> D u) -> rpost E al c (set_dt u c).
    Proof.
      intros Hi HD. constructor; csimpl; auto; try (now apply inb_same with c). apply frame_pure; reflexivity.
    Qed.
    Lemma rp_tok E al r t c : inb E c ->
      rpost E al c (set_prec (map (fun p : rid * bytes => if fst p =? r then (fst p, t) else p) (c_prec c)) c).
    Proof.
      intros Hi. apply rpost_same; auto; try (now apply inb_same with c).
      constructor; csimpl; auto; [|apply prefix_refl]. rewrite map_map. apply map_ext. intros [x y]. cbn. now destruct (x =? r).
    Qed.
    Lemma f_reduce E al wal r d pd vs c : okA E al wal -> inb E c ->
      (forall D f, keeps E al D -> e_action E r = Some f -> D (c_dt c) -> D (snd (f (e_input E) vs (c_dt c) pd))) ->
      exists v c', reduce E r d vs pd c = (v, c') /\ rpost E al c c'
        /\ (loose E \/ v = match e_action E r with
               | Some f => if r_disable_action d then front (v_vals vs) else fst (f (e_input E) vs (e_u0 E) pd)
               | None => front (v_vals vs)
               end).
    Proof.
      intros HA Hi HD. unfold reduce. destruct (has_action E c r && negb (r_disable_action d)) eqn:Hh.
      - apply andb_prop in Hh as [_ Hh]. apply negb_true_iff in Hh. unfold run_action. rewrite Hh.
        pose proof (rp_tok E al r (sv_token E vs) c Hi) as Q.
        destruct (e_action E r) as [f|] eqn:Ha.
        + destruct (f _ _ _ _) as [v dt] eqn:Hf. eexists _, _. split; [reflexivity|]. split.
          * eapply rpost_trans; [exact Q|]. apply rp_dt; [apply Q|]. intros D HK H0. specialize (HD D f HK eq_refl H0).
            change (c_dt _) with (c_dt c) in Hf. rewrite Hf in HD. exact HD.
          * csimpl. destruct (ok_pure _ _ (oa_main _ _ _ HA)) as [Hl|Hpu]; [now left|right].
            rewrite <- (pu_action _ Hpu r f (e_input E) vs (c_dt c) (e_u0 E) pd Ha). now rewrite Hf.
        + eexists _, _. split; [reflexivity|]. split; [exact Q|now right].
      - eexists _, _. split; [reflexivity|]. split; [now apply rpost_refl|right].
        unfold has_action in Hh. destruct (e_action E r); [|reflexivity]. rewrite orb_true_r in Hh. cbn in Hh.
        apply negb_false_iff in Hh. now rewrite Hh.
    Qed.

    Lemma f_once E al wal sd m r d body pos y c :
      okA E al wal -> al r m -> get_body E r = Some (d, body) -> r_is_macro d = false ->
      (r_macro_ref d = true -> top_args c = []) -> seed_ok E sd -> (r_lr d = false -> sd = None) ->
      ref_once (ref k) E sd m r d body pos = Some y -> inv k E al sd m c -> pos <= inlen E ->
      rfin E al pos c y (fun f => do_parse E (parse f) r d body pos c).
    Proof.
      intros HA Hal Hg Hm Hta Hs Hsd Hr Hi Hp. rewrite once_body in Hr. oinv Hr. inv Hr.
      set (c1 := match e_enter E r with Some f => set_dt (f (e_input E) pos (c_dt c)) c | None => c end).
      assert (Q0 : rpost E al c c1).
      { unfold c1. destruct (e_enter E r) eqn:Hen; [apply rp_dt|apply rpost_refl]; try apply Hi.
        intros D HK H0. eapply kp_enter; eauto. }
      assert (Hi1 : inv k E al sd m c1) by (eapply inv_post; eauto).
      destruct (f_body E al wal sd m r d body pos sv_new a sv_new c1) as (vs' & c2 & A & B & Q); auto.
      { intros X. unfold top_args. rewrite (f_args _ _ (q_frame _ _ _ _ Q0)). exact (Hta X). }
      { apply vsrel_refl. }
      assert (Q1 : rpost E al c c2) by (eapply rpost_trans; eauto).
      assert (Hi2 : inv k E al sd m c2) by (eapply inv_post; eauto).
      assert (Hrc : c_rcv c2 = false) by apply Hi2.
      set (vs2 := if is_choice_like (match body with Tok e => e | _ => body end)
                  then set_name (Some r) (set_span (pos, match len_of a with Some n => n | None => 0 end) vs')
                  else set_choice 0 0 (set_name (Some r) (set_span (pos, match len_of a with Some n => n | None => 0 end) vs'))).
      set (mid := match len_of a with
        | Some n =>
          match e_pred E r with
          | Some p =>
            let '(ok, msg, pd) := p (e_input E) vs2 (c_dt c2) in
            if ok then let (v, c') := reduce E r d vs2 pd c2 in (Some n, v, c')
            else
              let c' := if c_log c2 && negb (match msg with [] => true | _ => false end)
                           && olt (ei_mpos (c_err c2)) pos
                        then set_err (err_message pos msg (Some (r_name d)) (c_err c2)) c2 else c2 in
              (None, None, c')
          | None => let (v, c') := reduce E r d vs2 None c2 in (Some n, v, c')
          end
        | None =>
          let c' := if c_log c2 && negb (match r_error_message d with [] => true | _ => false end)
                       && olt (ei_mpos (c_err c2)) pos
                    then set_err (err_message pos (resolve_capture_placeholders (r_error_message d) (c_caps c2))
                                    (Some (r_name d)) (c_err c2)) c2 else c2 in
          (None, None, c')
        end).
      assert (Hop : ev (fun f => do_parse E (parse f) r d body pos c = Ok (
                let '(len', val, c3) := mid in
                match e_leave E r with
                | Some f => let (v, dt) := f (e_input E) pos len' val (c_dt c3) in (len', v, set_dt dt c3)
                | None => (len', val, c3)
                end))).
      { unfold do_parse. fold c1. eapply ev_bind; [exact A|]. apply ev_all. intros f. cbv beta iota zeta.
        unfold mid, vs2. rewrite Hrc. destruct (len_of a).
        - destruct (e_pred E r) as [p|].
          + destruct (p _ _ _) as [[ok msg] pd]. destruct ok.
            * destruct (reduce _ _ _ _ _ _). destruct (e_leave E r) as [g|]; [|reflexivity]. destruct (g _ _ _ _ _); reflexivity.
            * destruct (e_leave E r) as [g|]; [|reflexivity]. destruct (g _ _ _ _ _); reflexivity.
          + destruct (reduce _ _ _ _ _ _). destruct (e_leave E r) as [g|]; [|reflexivity]. destruct (g _ _ _ _ _); reflexivity.
        - destruct (e_leave E r) as [g|]; [|reflexivity]. destruct (g _ _ _ _ _); reflexivity. }
      set (y := match a with Some (n, v) => ref_value E r d body pos n v | None => None end).
      assert (Hrel : forall l v c3, mid = (l, v, c3) -> rpost E al c2 c3 /\
        rrel E y l (match l with Some n => (match e_leave E r with
                   | Some f => fst (f (e_input E) pos (Some n) v (e_u0 E)) | None => v end) | None => None end)).
      { intros l v c3 Hmid. unfold y.
        assert (Herr : forall b e, inb E (set_err e c2) -> rpost E al c2 (if b : bool then set_err e c2 else c2)).
        { intros [] e He; [now apply rp_err|apply rpost_refl, Hi2]. }
        assert (Hinm : forall msg rl, inb E (set_err (err_message pos msg rl (c_err c2)) c2)).
        { intros msg rl. destruct (i_inb _ _ _ _ _ _ Hi2). constructor; csimpl; auto. cbn. intros q Hq. inv Hq. assumption. }
        destruct a as [[n w]|]; cbn [len_of] in mid, vs2; unfold mid in Hmid; clearbody mid.
        - unfold ref_value.
          set (vr2 := if is_choice_like _ then _ else _).
          assert (Hvv : loose E \/ vr2 = vs2).
          { destruct B as [B|B]; [now left|right]. unfold vr2, vs2. now rewrite B. }
          assert (Hred : forall pd v' c', reduce E r d vs2 pd c2 = (v', c') -> rpost E al c2 c' /\
             (loose E \/ v' = match e_action E r with
                  | Some f => if r_disable_action d then front (v_vals vr2)
                              else fst (f (e_input E) vr2 (e_u0 E) pd)
                  | None => front (v_vals vr2)
                  end)).
          { intros pd v' c' Hre. destruct (f_reduce E al wal r d pd vs2 c2 HA (i_inb _ _ _ _ _ _ Hi2))
              as (v0 & c0 & H0 & H1 & H2).
            { intros D f HK Hf HD. destruct Hvv as [Hvv|Hvv]; [destruct (kp_strict _ _ _ HK Hvv)|]. rewrite <- Hvv.
              exact (kp_action _ _ _ HK r m d body f k sd pos n w (c_dt c2) pd Hal Hg Hf Hsd ltac:(match goal with H : ref_body _ _ _ _ _ _ _ _ = _ |- _ => exact H end) HD). }
            rewrite H0 in Hre. inv Hre. split; [assumption|].
            destruct Hvv as [Hvv| ->]; [now left|exact H2]. }
          assert (Hnl : forall p, e_pred E r = Some p -> ~ loose E).
          { intros p Hpr [Hl|Hl]; [|rewrite (proj2 Hl) in Hpr; discriminate Hpr]. rewrite (ok_recog _ _ (oa_main _ _ _ HA) r m Hl Hal) in Hpr. discriminate. }
          destruct (e_pred E r) as [p|] eqn:Hpr.
          + assert (Hnr : vr2 = vs2).
            { destruct Hvv as [Hvv|Hvv]; [|exact Hvv].
              exfalso. exact (Hnl p eq_refl Hvv). }
            destruct (ok_pure _ _ (oa_main _ _ _ HA)) as [Hl|Hpu]; [exfalso; exact (Hnl p eq_refl Hl)|].
            rewrite Hnr. rewrite (pu_pred _ Hpu r p (e_input E) vs2 (c_dt c2) (e_u0 E) Hpr) in Hmid.
            rewrite Hnr in Hred.
            destruct (p (e_input E) vs2 (e_u0 E)) as [[ok msg] pd]. destruct ok.
            * destruct (reduce E r d vs2 pd c2) as [v' c'] eqn:Hre. inv Hmid. destruct (Hred _ _ _ Hre) as [R1 R2].
              split; [assumption|]. split; [reflexivity|]. destruct R2 as [R2| ->]; [now left|now right].
            * inv Hmid. split; [|exact I]. apply Herr. apply Hinm.
          + destruct (reduce E r d vs2 None c2) as [v' c'] eqn:Hre. inv Hmid. destruct (Hred _ _ _ Hre) as [R1 R2].
            split; [assumption|]. split; [reflexivity|]. destruct R2 as [R2| ->]; [now left|now right].
        - inv Hmid. split; [|exact I]. apply Herr. apply Hinm. }
      assert (Hpost : forall l v c', ev (fun f => do_parse E (parse f) r d body pos c = Ok (l, v, c')) -> pos_ok E pos l).
      { intros l v c' Hev. apply ev_pick in Hev as [f Hf].
        assert (Hsf : post E pos c (l, v, c')).
        { eapply safe_Ok; [|exact Hf]. apply safe_do_parse; auto; [apply parse_safe|apply HA|apply Hi]. }
        apply Hsf. }
      destruct mid as [[l v] c3] eqn:Hmid. destruct (Hrel _ _ _ eq_refl) as [Q2 R].
      assert (Q3 : rpost E al c c3) by (eapply rpost_trans; eauto).
      destruct (e_leave E r) as [f|] eqn:Hlv.
      - destruct (f (e_input E) pos l v (c_dt c3)) as [v2 dt] eqn:Hf.
        exists l, v2, (set_dt dt c3). split; [exact Hop|]. split; [|split; [|exact (Hpost _ _ _ Hop)]].
        + fold y. unfold rrel in *. destruct y as [[n w]|], l as [n'|]; try contradiction; auto.
          destruct R as [-> R]. split; [reflexivity|]. destruct R as [R|R]; [now left|].
          destruct (ok_pure _ _ (oa_main _ _ _ HA)) as [Hl|Hpu]; [now left|right].
          rewrite <- R. rewrite <- (pu_leave _ Hpu r f (e_input E) pos (Some n) v (c_dt c3) (e_u0 E) Hlv).
          now rewrite Hf.
        + eapply rpost_trans; [exact Q3|]. apply rp_dt; [apply Q3|]. intros D HK H0.
          pose proof (kp_leave _ _ _ HK r m f pos l v _ Hal Hlv H0) as X. rewrite Hf in X. exact X.
      - exists l, v, c3. split; [exact Hop|]. split; [|split; [exact Q3|exact (Hpost _ _ _ Hop)]].
        fold y. unfold rrel in *. destruct y as [[n w]|], l as [n'|]; try contradiction; auto.
    Qed.
  End Step.

  (** ** Memo tables and re-entry guards *)
  Lemma valid_mk j E al m r pos y l v : al r m -> call j E m r pos = Some y -> rrel E y l v -> valid E al r pos l v.
  Proof. intros. exists j, m, y. auto. Qed.
  Lemma undef_mk j E al wal m r d pos : okA E al wal -> al r m -> nth_error (e_g E) r = Some d -> r_is_macro d = false ->
    call j E m r pos = None -> undef j E al r pos.
  Proof.
    intros HA Hal Hd Hm Hc m' Hm'. now rewrite (ok_mode _ _ (oa_main _ _ _ HA) r m' m d Hd Hm Hm' Hal).
  Qed.
  Lemma defined_not_undef n E al m r pos y : al r m -> call n E m r pos = Some y -> ~ undef n E al r pos.
  Proof. intros Hal Hc Hu. rewrite (Hu m Hal) in Hc. discriminate. Qed.
  Lemma valid_agree n E al wal m r d pos y l v : okA E al wal -> al r m -> nth_error (e_g E) r = Some d ->
    r_is_macro d = false -> call n E m r pos = Some y -> valid E al r pos l v -> rrel E y l v.
  Proof.
    intros HA Hal Hd Hm Hc (j & m' & y' & Hal' & Hc' & Hr).
    rewrite (ok_mode _ _ (oa_main _ _ _ HA) r m' m d Hd Hm Hal' Hal) in Hc'.
    now rewrite (call_det _ _ _ _ _ _ _ _ Hc Hc').
  Qed.

  Definition mark_lrm (r : rid) (pos : nat) c := set_lrm (lr_set (r, pos) (None, None) (c_lrm c)) c.
  Definition unmark_lrm (r : rid) (pos : nat) c := set_lrm (lr_erase (r, pos) (c_lrm c)) c.
  Lemma inv_mark_lrm n j E al sd m r pos c : j <= n -> inv n E al sd m c -> undef j E al r pos ->
    inv j E al None m (mark_lrm r pos c).
  Proof.
    intros Hj Hi Hu. apply inv_noseed, (inv_le j) in Hi; [|assumption]. unfold mark_lrm.
    constructor; csimpl; try apply Hi.
    - eapply step_inb, step_lrm_set; [apply Hi|discriminate].
    - intros r0 p0 l v. rewrite lr_find_set. destruct (key_eqb (r0, p0) (r, pos)) eqn:Hk; [|apply Hi].
      apply key_eqb_eq in Hk. inv Hk. intros _. now right.
  Qed.
  Lemma rpost_unmark_lrm E al r pos c c2 : lr_find (c_lrm c) (r, pos) = None -> ~ In (r, pos) (c_acts c) ->
    rpost E al (mark_lrm r pos c) c2 -> rpost E al c (unmark_lrm r pos c2).
  Proof.
    intros Hf Ha [F Hin Hrc Hlr Hpk Hap Hac Hse Hcu]. unfold unmark_lrm. constructor; csimpl; auto.
    - destruct F. constructor; auto.
    - eapply step_inb, step_lrm_erase, Hin.
    - intros r0 p0 l v. rewrite lr_find_erase. destruct (key_eqb (r0, p0) (r, pos)) eqn:Hk; [discriminate|].
      intros Hx. apply Hlr in Hx as [Hx|Hx]; [|auto]. left. unfold mark_lrm in Hx. csimpl.
      rewrite lr_find_set, Hk in Hx. exact Hx.
    - intros r0 p0 Hin0. rewrite lr_find_erase. destruct (key_eqb (r0, p0) (r, pos)) eqn:Hk.
      + apply key_eqb_eq in Hk. inv Hk. contradiction.
      + rewrite (Hse r0 p0 Hin0). unfold mark_lrm. csimpl. now rewrite lr_find_set, Hk.
  Qed.

  Definition mark_actp (r : rid) (pos : nat) c := set_actp (nset r pos (c_actp c)) c.
  Definition unmark_actp (r : rid) c c2 :=
    match nfind (c_actp c) r with
    | Some p => set_actp (nset r p (c_actp c2)) c2
    | None => set_actp (nerase r (c_actp c2)) c2
    end.
  Lemma inv_mark_actp n j E al sd m r pos c : j <= n -> inv n E al sd m c -> undef j E al r pos ->
    inv j E al None m (mark_actp r pos c).
  Proof.
    intros Hj Hi Hu. apply inv_noseed, (inv_le j) in Hi; [|assumption]. unfold mark_actp.
    constructor; csimpl; try apply Hi.
    - apply inb_same with c; auto. apply Hi.
    - intros r0 p0. rewrite nfind_set. destruct (r0 =? r) eqn:Hk; [|apply Hi].
      apply Nat.eqb_eq in Hk. subst. intros H. inv H. assumption.
  Qed.
  Lemma rpost_unmark_actp E al r pos c c2 : rpost E al (mark_actp r pos c) c2 -> rpost E al c (unmark_actp r c c2).
  Proof.
    intros Q. assert (Hx : exists ap, unmark_actp r c c2 = set_actp ap c2 /\ forall r0, nfind ap r0 = nfind (c_actp c) r0).
    { unfold unmark_actp. pose proof (q_actp _ _ _ _ Q) as Hap. unfold mark_actp in Hap. csimpl.
      destruct (nfind (c_actp c) r) as [p|] eqn:Hf; eexists; (split; [reflexivity|]); intros r0;
        rewrite ?nfind_set, ?nfind_erase, Hap, nfind_set; destruct (r0 =? r) eqn:Hk; auto;
        apply Nat.eqb_eq in Hk; subst; auto. }
    destruct Hx as (ap & -> & Hx). destruct Q as [F Hin Hrc Hlr Hpk Hap Hac Hse Hcu]. constructor; csimpl; auto.
    - destruct F. constructor; auto.
    - now apply inb_same with c2.
  Qed.

  Definition mark_pkr E (s pos : nat) c := set_pkr (nset (pk_idx E s pos) None (c_pkr c)) c.
  Lemma pk_own E al wal r s pos r0 s0 p0 : okA E al wal -> e_packrat E = true -> e_slot E r = Some s -> e_slot E r0 = Some s0 ->
    pk_idx E s0 p0 = pk_idx E s pos -> r0 = r /\ p0 = pos.
  Proof.
    intros HA Hp Hs Hs0 Hx. destruct (oa_main _ _ _ HA) as [? Hw ? ? ? ? ? Hsl].
    apply pk_inj in Hx; try (eapply we_slot; eauto). destruct Hx as [-> ->]. split; [|reflexivity]. eapply Hsl; eauto.
  Qed.
  Lemma inv_mark_pkr n j E al wal sd m r s pos c : okA E al wal -> e_packrat E = true -> e_slot E r = Some s ->
    j <= n -> inv n E al sd m c -> undef j E al r pos -> inv j E al None m (mark_pkr E s pos c).
  Proof.
    intros HA Hp Hs Hj Hi Hu. apply inv_noseed, (inv_le j) in Hi; [|assumption]. unfold mark_pkr.
    constructor; csimpl; try apply Hi.
    - eapply step_inb, step_pkr_set; [apply Hi| |discriminate].
      intros _. eapply we_slot; eauto. apply HA.
    - intros _ r0 s0 p0 l Hs0. rewrite nfind_set. destruct (_ =? _) eqn:Hk.
      + apply Nat.eqb_eq in Hk. destruct (pk_own _ _ _ _ _ _ _ _ _ HA Hp Hs Hs0 Hk) as [-> ->]. intros _. now right.
      + intros Hf. now apply Hi.
  Qed.
  (** The table entry of (r, pos) is free to become any valid one. *)
  Lemma rpost_pkr E al wal r s pos c c2 pk pv : okA E al wal -> e_packrat E = true -> e_slot E r = Some s ->
    rpost E al c c2 -> inb E (set_pkr pk (set_pkv pv c2)) ->
    (forall i, i <> pk_idx E s pos -> nfind pk i = nfind (c_pkr c2) i /\ nfind pv i = nfind (c_pkv c2) i) ->
    (forall l, nfind pk (pk_idx E s pos) = Some l -> valid E al r pos l (nfind pv (pk_idx E s pos))) ->
    rpost E al c (set_pkr pk (set_pkv pv c2)).
  Proof.
    intros HA Hp Hs [F Hin Hrc Hlr Hpk Hap Hac Hse Hcu] Hb Ho Hn. constructor; csimpl; auto.
    - destruct F. constructor; auto.
    - intros _ r0 s0 p0 l Hs0 Hf. destruct (Nat.eq_dec (pk_idx E s0 p0) (pk_idx E s pos)) as [Hk|Hk].
      + destruct (pk_own _ _ _ _ _ _ _ _ _ HA Hp Hs Hs0 Hk) as [-> ->]. right. rewrite Hk in *. now apply Hn.
      + destruct (Ho _ Hk) as [H1 H2]. rewrite H1 in Hf. rewrite H2. exact (Hpk Hp r0 s0 p0 l Hs0 Hf).
  Qed.
  Lemma rpost_marked E al wal r s pos c c2 : okA E al wal -> e_packrat E = true -> e_slot E r = Some s ->
    nfind (c_pkr c) (pk_idx E s pos) = None -> rpost E al (mark_pkr E s pos c) c2 ->
    (forall l, nfind (c_pkr c2) (pk_idx E s pos) = Some l -> valid E al r pos l (nfind (c_pkv c2) (pk_idx E s pos))) ->
    rpost E al c c2.
  Proof.
    intros HA Hp Hs Hf [F Hin Hrc Hlr Hpk Hap Hac Hse Hcu] Hn. constructor; csimpl; auto.
    - destruct F. constructor; auto.
    - intros _ r0 s0 p0 l Hs0 Hfi. destruct (Nat.eq_dec (pk_idx E s0 p0) (pk_idx E s pos)) as [Hk|Hk].
      + destruct (pk_own _ _ _ _ _ _ _ _ _ HA Hp Hs Hs0 Hk) as [-> ->]. right. rewrite Hk in *. now apply Hn.
      + destruct (Hpk Hp r0 s0 p0 l Hs0 Hfi) as [[H1 H2]|Hv]; [|now right]. left. split; [|exact H2].
        unfold mark_pkr in H1. csimpl. rewrite nfind_set in H1.
        destruct (_ =? _) eqn:Hk2; [apply Nat.eqb_eq in Hk2; contradiction|exact H1].
  Qed.
  (** Same table up to the entry of (r, pos): what write_packrat_cache leaves. *)
  Lemma write_facts E r s pos n v c : e_packrat E = true -> e_slot E r = Some s ->
    exists pk pv, write_packrat_cache E pos r n v c = set_pkr pk (set_pkv pv c)
      /\ (forall i, i <> pk_idx E s pos -> nfind pk i = nfind (c_pkr c) i /\ nfind pv i = nfind (c_pkv c) i)
      /\ (s < e_cached E -> pos <= inlen E -> forall l, nfind pk (pk_idx E s pos) = Some l -> l = Some n /\ nfind pv (pk_idx E s pos) = v).
  Proof.
    intros Hp Hs. unfold write_packrat_cache. rewrite Hp, Hs. cbv zeta.
    destruct (_ <? pk_size E) eqn:Hsz.
    - destruct (_ <? _)%N.
      + exists (nerase (pk_idx E s pos) (c_pkr c)), (c_pkv c). split; [destruct c; reflexivity|]. split.
        * intros i Hi. rewrite nfind_erase. apply Nat.eqb_neq in Hi. now rewrite Hi.
        * intros _ _ l. rewrite nfind_erase, Nat.eqb_refl. discriminate.
      + destruct v as [v|].
        * exists (nset (pk_idx E s pos) (Some n) (c_pkr c)), (nset (pk_idx E s pos) v (c_pkv c)).
          split; [destruct c; reflexivity|]. split.
          -- intros i Hi. rewrite !nfind_set. apply Nat.eqb_neq in Hi. now rewrite Hi.
          -- intros _ _ l. rewrite !nfind_set, Nat.eqb_refl. intros H. inv H. auto.
        * exists (nset (pk_idx E s pos) (Some n) (c_pkr c)), (nerase (pk_idx E s pos) (c_pkv c)).
          split; [destruct c; reflexivity|]. split.
          -- intros i Hi. rewrite nfind_set, nfind_erase. apply Nat.eqb_neq in Hi. now rewrite Hi.
          -- intros _ _ l. rewrite nfind_set, nfind_erase, Nat.eqb_refl. intros H. inv H. auto.
    - exists (c_pkr c), (c_pkv c). split; [destruct c; reflexivity|]. split; [auto|].
      intros H1 H2. rewrite pk_range in Hsz by assumption. discriminate.
  Qed.
  Lemma rpost_write n E al wal m r pos y len v c c2 : okA E al wal -> al r m -> call n E m r pos = Some y -> rrel E y (Some len) v ->
    pos <= inlen E -> pos + len <= inlen E ->
    rpost E al c c2 -> rpost E al c (write_packrat_cache E pos r len v c2).
  Proof.
    intros HA Hal Hc Hr Hp Hpl Q. destruct (e_packrat E) eqn:Hpk.
    - destruct (e_slot E r) as [s|] eqn:Hs.
      + assert (Hb : inb E (write_packrat_cache E pos r len v c2)).
        { eapply step_inb, step_write; [apply HA|apply Q|assumption]. }
        destruct (write_facts E r s pos len v c2 Hpk Hs) as (pk & pv & Hw & Ho & Hn). rewrite Hw in *.
        eapply rpost_pkr; eauto. intros l Hl. apply Hn in Hl as [-> ->]; auto.
        * eapply valid_mk; eauto.
        * eapply we_slot; eauto. apply HA.
      + unfold write_packrat_cache. now rewrite Hpk, Hs.
    - unfold write_packrat_cache. now rewrite Hpk.
  Qed.
  Lemma rpost_mark_write n E al wal m r s pos y len v c c2 : okA E al wal -> al r m -> call n E m r pos = Some y ->
    e_packrat E = true -> e_slot E r = Some s -> pos <= inlen E -> pos_ok E pos len ->
    nfind (c_pkr c) (pk_idx E s pos) = None -> rrel E y len v ->
    rpost E al (mark_pkr E s pos c) c2 ->
    rpost E al c (match len with Some k => write_packrat_cache E pos r k v c2 | None => c2 end).
  Proof.
    intros HA Hal Hc Hpk Hs Hp Hpl Hf Hr Q. destruct len as [len|].
    - assert (Q2 : rpost E al (mark_pkr E s pos c) (write_packrat_cache E pos r len v c2)) by (eapply rpost_write; eauto).
      eapply rpost_marked; eauto. intros l Hl.
      destruct (write_facts E r s pos len v c2 Hpk Hs) as (pk & pv & Hw & Ho & Hn). rewrite Hw in *. csimpl.
      apply Hn in Hl as [-> ->]; auto.
      * eapply valid_mk; eauto.
      * eapply we_slot; eauto. apply HA.
    - eapply rpost_marked; eauto. intros l Hl.
      destruct (q_pkr _ _ _ _ Q Hpk r s pos l Hs Hl) as [[H1 H2]|Hv]; [|exact Hv].
      unfold mark_pkr in H1. csimpl. rewrite nfind_set, Nat.eqb_refl in H1. inv H1.
      eapply valid_mk; eauto.
  Qed.
  Lemma rpost_clear E al wal r pos c : okA E al wal -> pos <= inlen E -> inb E c ->
    rpost E al c (clear_packrat_cache E pos r c).
  Proof.
    intros HA Hp Hi. assert (Hb : inb E (clear_packrat_cache E pos r c)) by (eapply step_inb, step_clear, Hi).
    revert Hb. unfold clear_packrat_cache. destruct (e_packrat E) eqn:Hpk; [|intros; now apply rpost_refl].
    destruct (e_slot E r) as [s|] eqn:Hs; [|intros; now apply rpost_refl]. cbv zeta.
    assert (Hsc : s < e_cached E) by (eapply we_slot; eauto; apply HA).
    rewrite pk_range by assumption. intros Hb. constructor; csimpl; auto.
    - apply frame_pure; reflexivity.
    - intros _ r0 s0 p0 l Hs0 Hf. rewrite nfind_erase in Hf. rewrite nfind_erase.
      destruct (pk_idx E s0 p0 =? pk_idx E s pos); [discriminate Hf|]. auto.
  Qed.
End Rule.
