(** * The engine computes the reference semantics: definitions and invariants. *)
From Verif Require Import Base BaseLemmas Utf8 Utf8Proofs Escape TrieM LineInfo Ope Ctx ErrLog Engine EngineLemmas Frame Scope Bounds Mono RefSem RefMono.

(** "for all large enough fuel". *)
Definition ev (P : nat -> Prop) : Prop := exists F, forall f, F <= f -> P f.
Lemma ev_all (P : nat -> Prop) : (forall f, P f) -> ev P.
Proof. intros H. exists 0. auto. Qed.
Lemma ev_and (P Q : nat -> Prop) : ev P -> ev Q -> ev (fun f => P f /\ Q f).
Proof. intros [A HA] [B HB]. exists (A + B). intros f Hf. split; [apply HA|apply HB]; lia. Qed.
Lemma ev_imp (P Q : nat -> Prop) : ev P -> (forall f, P f -> Q f) -> ev Q.
Proof. intros [A HA] H. exists A. auto. Qed.
Lemma ev_pick (P : nat -> Prop) : ev P -> exists f, P f.
Proof. intros [A HA]. exists A. auto. Qed.
Lemma ev_S (P : nat -> Prop) : ev P -> ev (fun f => match f with O => True | S f' => P f' end).
Proof. intros [A HA]. exists (S A). intros [|f] Hf; [trivial|]. apply HA. lia. Qed.
Lemma ev_bind {A B} (o : nat -> outcome A) (g : nat -> A -> outcome B) a b :
  ev (fun f => o f = Ok a) -> ev (fun f => g f a = Ok b) -> ev (fun f => bind (o f) (g f) = Ok b).
Proof.
  intros Ha Hb. eapply ev_imp; [exact (ev_and _ _ Ha Hb)|]. cbn. intros f [-> H]. exact H.
Qed.

(** Are semantic values tracked?  (If not, actions may depend on the user data.) *)
Class keepvals := keepv : bool.

Section Refine.
  Context {V U : Type} {kp : keepvals}.
  Notation env := (env V U).
  Notation ctx := (ctx V U).
  Notation sv := (sv V).
  Implicit Types (E : env) (c : ctx) (vs : sv) (m : mode) (sd : seed V).

  (** ** Static conditions on a grammar *)

  (** [o] mentions a macro call or a macro parameter. *)
  Fixpoint mref (g : grammar) (o : ope) : bool :=
    match o with
    | Seq _ l | Cho _ _ l => existsb (mref g) l
    | Rep e _ _ _ | And e | Not e | Csc e | Cap _ e | Tok e | Ign e | Wsp e => mref g e
    | Ref _ None _ _ _ => true
    | Ref _ (Some r) _ _ _ => match nth_error g r with Some d => r_is_macro d | None => false end
    | _ => false
    end.

  (** Outcome of the keyword guard (parse_keyword_guarded) as a function. *)
  Inductive kout := KFail | KGo (n : nat) | KFall | KBad.
  Definition kg_out E (kw : kw_guard) (pos : nat) : kout :=
    if left E pos <? 1 then KFail
    else match rd (e_input E) pos with
         | Ok b =>
           if btest (kg_first kw) b then
             match scan_while (kg_rest kw) (e_input E) (pos + 1) (left E pos - 1) with
             | Ok k =>
               let n := S k in
               if (kg_min kw <=? n) && (n <=? kg_max kw) then
                 let lower := to_lower (sub (e_input E) pos n) in
                 if existsb (bytes_eqb lower) (kg_exact kw) then KFail
                 else if existsb (bytes_eqb lower) (kg_prefix kw) then KFall else KGo n
               else KGo n
             | _ => KBad
             end
           else KFail
         | _ => KBad
         end.

  (** Results of a left-recursive rule that can occur as seeds. *)
  Inductive seed_ok E : seed V -> Prop :=
  | so_none : seed_ok E None
  | so_fail r p d body : get_body E r = Some (d, body) -> r_lr d = true -> r_is_macro d = false ->
      seed_ok E (Some (r, p, None))
  | so_grow r p s s' d body k m : seed_ok E (Some (r, p, s)) -> get_body E r = Some (d, body) ->
      ref_once (ref k) E (Some (r, p, s)) m r d body p = Some s' -> seed_ok E (Some (r, p, s')).

  (** Soundness of the annotations computed by SetupFirstSets: a first set that
      excludes the next byte belongs to an alternative that cannot match there;
      a keyword guard and a byte-set span decide as the plain operator does. *)
  Definition ann_cho E (fs : list first_set) (l : list ope) : Prop :=
    forall id o pos, nth_error l id = Some o -> pos <= inlen E -> fs_skip E fs id pos = Ok true ->
    forall k sd fr m vs x, seed_ok E sd -> ref k E sd fr m o pos vs = Some x -> x = None.
  Definition ann_seq E (kg : option kw_guard) (l : list ope) : Prop :=
    match kg with
    | None => True
    | Some kw => forall k sd fr m pos vs x, seed_ok E sd -> pos <= inlen E ->
        ref_seq (ref k E sd fr m) l pos 0 vs = Some x ->
        match kg_out E kw pos with
        | KFail => x = None
        | KGo n => ref_then (ref k) E m pos n (push_tok (pos, n) vs) = Some x
        | KFall => True
        | KBad => False
        end
    end.
  Definition span_limit E (mx : option nat) (pos : nat) : nat :=
    match mx with None => left E pos | Some x => Nat.min (left E pos) x end.
  Definition ann_rep E (e : ope) (mn : nat) (mx : option nat) (sp : option bitset) : Prop :=
    match sp with
    | None => True
    | Some s => forall k sd fr m pos vs x, seed_ok E sd -> pos <= inlen E ->
        ref_rep k (ref k E sd fr m e) mn mx pos vs = Some x ->
        exists i, scan_while s (e_input E) pos (span_limit E mx pos) = Ok i
          /\ x = (if i <? mn then None else Some (i, vs))
    end.

  (** [al r m]: rule [r] may be called in mode [m]; [m_arg al m]: macro arguments may
      be evaluated in mode [m]. *)
  Record modes := { m_rule :> rid -> mode -> Prop; m_arg : mode -> Prop }.
  (** No macro has a parameter called [n]. *)
  Definition hygienic (g : grammar) (n : bytes) : bool :=
    forallb (fun d => negb (existsb (fun p => bytes_eqb p n) (r_params d))) g.

  (** Values are not compared: recognizer mode, or no predicates look at them. *)
  Definition loose E : Prop := e_recog E = true \/ (keepv = false /\ forall r, e_pred E r = None).
  (** [r] is the operator rule of some precedence rule. *)
  Definition op_of E (r : rid) : Prop :=
    exists r0 d a nm ia mac args i q, nth_error (e_g E) r0 = Some d
      /\ r_body d = Some (Pre a (Ref nm (Some r) ia mac args) i q).
  (** A reference to an ordinary rule that leaves a value. *)
  Definition operand E (o : ope) : Prop :=
    exists nm r ia mac args d, o = Ref nm (Some r) ia mac args /\ nth_error (e_g E) r = Some d
      /\ r_is_macro d = false /\ r_ignore d = false.
  (** The operator of a precedence rule: moreover an ordinary rule, whose action is
      run at every match (not left-recursive, not memoised). *)
  Definition operator E (o : ope) : Prop :=
    exists nm r ia mac args d, o = Ref nm (Some r) ia mac args /\ nth_error (e_g E) r = Some d
      /\ r_is_macro d = false /\ r_ignore d = false /\ r_lr d = false /\ r_disable_action d = false
      /\ (e_packrat E = true -> e_slot E r = None).

  Section Check.
    Variable E : env.
    Variable al : modes.
    Fixpoint chk (m : mode) (o : ope) : Prop :=
      let fix all l := match l with [] => True | a :: l' => chk m a /\ all l' end in
      let fix every l := match l with [] => True | a :: l' => (forall m, m_arg al m -> chk m a) /\ every l' end in
      match o with
      | Seq kg l => ann_seq E kg l /\ all l
      | Cho _ fs l => ann_cho E fs l /\ all l
      | Rep e mn mx sp => ann_rep E e mn mx sp /\ chk m e
      | And e | Not e | Csc e | Cap _ e | Ign e => chk m e
      | Tok e => chk (tok_mode E m) e
      | Wsp e => m_ws m = true \/ chk {| m_tok := m_tok m; m_ws := true |} e
      | Wkh r => al r m /\ exists d, nth_error (e_g E) r = Some d /\ r_is_macro d = false /\ r_macro_ref d = false
      | Ref n (Some r) _ _ args => (al r m /\ (m_arg al m \/ hygienic (e_g E) n = true)) /\ every args
      | Ref _ None _ _ _ => m_arg al m
      | Dic _ | Lit _ _ | Cls _ _ _ | Chr _ | Dot => True
      | Pre a b _ q => (~ loose E /\ operand E a /\ operator E b /\ nopre a = true /\ nopre b = true
                        /\ (exists d, nth_error (e_g E) q = Some d /\ r_is_macro d = false)
                        /\ (e_action E q = None -> ~ op_of E q))
                       /\ chk m a /\ chk m b
      | Hld _ | Usr _ | Bkr _ | Rcv _ | Cut | Nul => False
      end.
  End Check.
  Lemma chk_all E al m l :
    (fix all l := match l with [] => True | a :: l' => chk E al m a /\ all l' end) l <-> Forall (chk E al m) l.
  Proof.
    induction l as [|a l IH]; split; intros H; [constructor|exact I| |].
    - destruct H as [A B]. constructor; [exact A|]. now apply IH.
    - inv H. split; [assumption|]. now apply IH.
  Qed.
  Definition anychk E al (o : ope) : Prop := forall m, m_arg al m -> chk E al m o.
  Lemma chk_every E al l :
    (fix every l := match l with [] => True | a :: l' => (forall m, m_arg al m -> chk E al m a) /\ every l' end) l
    <-> Forall (anychk E al) l.
  Proof.
    induction l as [|a l IH]; split; intros H; [constructor|exact I| |].
    - destruct H as [A B]. constructor; [exact A|]. now apply IH.
    - inv H. split; [assumption|]. now apply IH.
  Qed.

  (** What callbacks compute does not depend on the user data. *)
  Record pure E : Prop := {
    pu_action : forall r f inp vs u u' pd, e_action E r = Some f -> fst (f inp vs u pd) = fst (f inp vs u' pd);
    pu_pred : forall r p inp vs u u', e_pred E r = Some p -> p inp vs u = p inp vs u';
    pu_leave : forall r f inp pos n v u u', e_leave E r = Some f -> fst (f inp pos n v u) = fst (f inp pos n v u')
  }.
  Record okE E (al : modes) : Prop := {
    ok_scoped : scoped E;
    ok_wf : wfE E;
    ok_pure : loose E \/ pure E;
    ok_recog : forall r m, e_recog E = true -> al r m -> e_pred E r = None;
    ok_rule : forall r m d body, al r m -> nth_error (e_g E) r = Some d -> r_body d = Some body ->
      (nopre body = true \/ (r_is_macro d = false /\ exists a b i q, body = Pre a b i q))
      /\ (if r_is_macro d then chk E al m body
          else chk E al (if r_no_whitespace d then tok_mode E m else m) body
               /\ (mref (e_g E) body = true -> r_macro_ref d = true));
    ok_mode : forall r m1 m2 d, nth_error (e_g E) r = Some d -> r_is_macro d = false ->
      al r m1 -> al r m2 -> m1 = m2;
    ok_ws : forall w, e_ws E = Some w ->
      mref (e_g E) w = false /\ forall m, m_tok m = false -> chk E al m w;
    ok_slot : e_packrat E = true -> forall r1 r2 s, e_slot E r1 = Some s -> e_slot E r2 = Some s -> r1 = r2
  }.
  (** The same for the dummy contexts of the %word check. *)
  Record okA E (al wal : modes) : Prop := {
    oa_main : okE E al;
    oa_word : forall inp, okE (word_env E inp) wal;
    oa_chk : forall w, e_word E = Some w ->
      mref (e_g E) w = false /\ nopre w = true /\ forall inp, chk (word_env E inp) wal m_top w
  }.
  Lemma okA_word E al wal inp : okA E al wal -> okA (word_env E inp) wal wal.
  Proof. intros []. constructor; cbn; auto. discriminate. Qed.

  (** ** Relations between engine and reference *)

  Lemma existsb_map_fst {B} (r : rid) (l : list (rid * B)) : existsb (fun p => fst p =? r) l = existsb (fun x => x =? r) (map fst l).
  Proof. induction l as [|a l IH]; [reflexivity|]. cbn. now rewrite IH. Qed.

  Definition len_of (x : rv V) : option nat := match x with Some (n, _) => Some n | None => None end.
  Definition vsrel E (vs vr : sv) : Prop := loose E \/ vs = vr.
  Definition vsok E (x : rv V) (vs : sv) : Prop := match x with Some (_, vr) => vsrel E vs vr | None => True end.
  Definition rrel E (y : rr V) (l : option nat) (v : option V) : Prop :=
    match y, l with
    | Some (n, v'), Some n' => n' = n /\ (loose E \/ v = v')
    | None, None => True
    | _, _ => False
    end.
  Definition valid E (al : modes) (r : rid) (p : nat) (l : option nat) (v : option V) : Prop :=
    exists j m y, al r m /\ call j E m r p = Some y /\ rrel E y l v.
  Definition undef (k : nat) E (al : modes) (r : rid) (p : nat) : Prop :=
    forall m, al r m -> call k E m r p = None.

  Definition is_lr E (r : rid) : Prop := exists d, nth_error (e_g E) r = Some d /\ r_lr d = true.

  Record inv (k : nat) E al sd m c : Prop := {
    i_tb : e_ws E <> None -> (0 <? c_tb c) = m_tok m;
    i_inws : c_inws c = m_ws m;
    i_rcv : c_rcv c = false;
    i_prec : forall r, wrapped c r = true -> op_of E r;
    i_inb : inb E c;
    i_args : okargs c;
    i_lrm : forall r p l v, lr_find (c_lrm c) (r, p) = Some (l, v) ->
      (valid E al r p l v /\ is_lr E r) \/ undef k E al r p;
    i_pkr : e_packrat E = true -> forall r s p l, e_slot E r = Some s ->
      nfind (c_pkr c) (pk_idx E s p) = Some l ->
      valid E al r p l (nfind (c_pkv c) (pk_idx E s p)) \/ undef k E al r p;
    i_actp : forall r p, nfind (c_actp c) r = Some p -> undef k E al r p;
    i_acts : forall r p, In (r, p) (c_acts c) -> undef k E al r p;
    i_seed : match sd with
             | None => True
             | Some (r, p, s) => In (r, p) (c_acts c) /\
                 exists l v, lr_find (c_lrm c) (r, p) = Some (l, v) /\ rrel E s l v
             end
  }.

  (** What the callbacks keep true of the user data.  An action is called on the values
      that the reference semantics gives for the rule's body. *)
  Definition ref_body (rec : @ref_t V U) E sd m (d : rule) (body : ope) (pos : nat) vr : option (rv V) :=
    let? b := rec E sd (r_params d, []) (if r_no_whitespace d then tok_mode E m else m) body pos vr in
    match b with
    | None => Some None
    | Some (n, v) => if r_no_whitespace d then ref_then rec E m pos n v else Some (Some (n, v))
    end.
  (** What the action of rule [r] sees when its body matched [n] bytes at [pos] leaving [v]. *)
  Definition seen (r : rid) (body : ope) (pos n : nat) (v : sv) : sv :=
    let v1 := set_name (Some r) (set_span (pos, n) v) in
    if is_choice_like (match body with Tok e => e | _ => body end) then v1 else set_choice 0 0 v1.
  Record keeps E al (D : U -> Prop) : Prop := {
    kp_enter : forall r m f pos u, al r m -> e_enter E r = Some f -> D u -> D (f (e_input E) pos u);
    kp_leave : forall r m f pos l v u, al r m -> e_leave E r = Some f -> D u -> D (snd (f (e_input E) pos l v u));
    kp_action : forall r m d body f j sd pos n v u pd, al r m -> get_body E r = Some (d, body) -> e_action E r = Some f ->
      (r_lr d = false -> sd = None) -> ref_body (ref j) E sd m d body pos sv_new = Some (Some (n, v)) -> D u -> D (snd (f (e_input E) (seen r body pos n v) u pd));
    kp_strict : ~ loose E;
    kp_climb : (exists r, op_of E r) -> forall q f vs u pd, e_action E q = Some f -> D u -> D (snd (f (e_input E) vs u pd))
  }.

  Record rpost E al c c' : Prop := {
    q_frame : frame c c';
    q_inb : inb E c';
    q_rcv : c_rcv c' = c_rcv c;
    q_lrm : forall r p l v, lr_find (c_lrm c') (r, p) = Some (l, v) ->
      lr_find (c_lrm c) (r, p) = Some (l, v) \/ (valid E al r p l v /\ is_lr E r);
    q_pkr : e_packrat E = true -> forall r s p l, e_slot E r = Some s ->
      nfind (c_pkr c') (pk_idx E s p) = Some l ->
      (nfind (c_pkr c) (pk_idx E s p) = Some l
       /\ nfind (c_pkv c') (pk_idx E s p) = nfind (c_pkv c) (pk_idx E s p))
      \/ valid E al r p l (nfind (c_pkv c') (pk_idx E s p));
    q_actp : forall r, nfind (c_actp c') r = nfind (c_actp c) r;
    q_acts : c_acts c' = c_acts c;
    q_seed : forall r p, In (r, p) (c_acts c) -> lr_find (c_lrm c') (r, p) = lr_find (c_lrm c) (r, p);
    q_cut : cut_top c' = true -> cut_top c = true;
    q_dt : forall D, keeps E al D -> D (c_dt c) -> D (c_dt c')
  }.
  Lemma rpost_refl E al c : inb E c -> rpost E al c c.
  Proof. intros H. constructor; auto using frame_refl. Qed.
  Lemma rpost_trans E al x y z : rpost E al x y -> rpost E al y z -> rpost E al x z.
  Proof.
    intros H1 H2. constructor.
    - eapply frame_trans; [apply H1|apply H2].
    - apply H2.
    - rewrite (q_rcv _ _ _ _ H2). apply H1.
    - intros r p l v H. apply H2 in H as [H|H]; [|auto]. apply H1 in H. exact H.
    - intros Hp r s p l Hs H. destruct (q_pkr _ _ _ _ H2 Hp r s p l Hs H) as [[Ha Hb]|Hv]; [|auto].
      destruct (q_pkr _ _ _ _ H1 Hp r s p l Hs Ha) as [[Hc Hd]|Hv].
      + left. split; [assumption|congruence].
      + right. now rewrite Hb.
    - intros r. rewrite (q_actp _ _ _ _ H2). apply H1.
    - rewrite (q_acts _ _ _ _ H2). apply H1.
    - intros r p H. rewrite (q_seed _ _ _ _ H2); [now apply H1|]. now rewrite (q_acts _ _ _ _ H1).
    - intros H. apply H1, H2, H.
    - intros D HD H. apply (q_dt _ _ _ _ H2 D HD), (q_dt _ _ _ _ H1 D HD), H.
  Qed.
  (** Same memo tables and evaluation state. *)
  Lemma rpost_same E al c c' : inb E c' -> frame c c' -> c_rcv c' = c_rcv c -> c_lrm c' = c_lrm c ->
    c_pkr c' = c_pkr c -> c_pkv c' = c_pkv c -> c_actp c' = c_actp c -> c_acts c' = c_acts c ->
    (cut_top c' = true -> cut_top c = true) -> c_dt c' = c_dt c -> rpost E al c c'.
  Proof.
    intros Hi Hf H1 H2 H3 H4 H5 H6 H7 H8. constructor; auto; rewrite ?H2, ?H3, ?H4, ?H5, ?H8; auto.
  Qed.

  Lemma inv_post k E al sd m c c' : inv k E al sd m c -> rpost E al c c' -> inv k E al sd m c'.
  Proof.
    intros I Q. pose proof (q_frame _ _ _ _ Q) as F. constructor.
    - rewrite (f_tb _ _ F). apply I.
    - rewrite (f_inws _ _ F). apply I.
    - rewrite (q_rcv _ _ _ _ Q). apply I.
    - intros r Hw. apply (i_prec _ _ _ _ _ _ I). unfold wrapped in *.
      rewrite <- Hw, (existsb_map_fst r (c_prec c)), (existsb_map_fst r (c_prec c')). now rewrite (f_prec _ _ F).
    - apply Q.
    - eapply okargs_frame; [exact F|apply I].
    - intros r p l v H. apply Q in H as [H|H]; [|auto]. eapply i_lrm; eauto.
    - intros Hp r s p l Hs H. destruct (q_pkr _ _ _ _ Q Hp r s p l Hs H) as [[Ha Hb]|Hv]; [|auto].
      rewrite Hb. eapply i_pkr; eauto.
    - intros r p H. rewrite (q_actp _ _ _ _ Q) in H. eapply i_actp; eauto.
    - intros r p H. rewrite (q_acts _ _ _ _ Q) in H. eapply i_acts; eauto.
    - pose proof (i_seed _ _ _ _ _ _ I) as Hs. destruct sd as [[[r p] s]|]; [|exact Logic.I].
      destruct Hs as (Ha & l & v & Hf & Hr). split; [now rewrite (q_acts _ _ _ _ Q)|].
      exists l, v. split; [|assumption]. now rewrite (q_seed _ _ _ _ Q).
  Qed.
  Lemma undef_le j k E al r p : j <= k -> undef k E al r p -> undef j E al r p.
  Proof.
    intros Hj H m Hm. specialize (H m Hm). destruct (call j E m r p) as [x|] eqn:Hc; [|reflexivity].
    apply (call_mono j k) in Hc; [congruence|assumption].
  Qed.
  Lemma inv_le j k E al sd m c : j <= k -> inv k E al sd m c -> inv j E al sd m c.
  Proof.
    intros Hj I. constructor; try apply I.
    - intros r p l v H. destruct (i_lrm _ _ _ _ _ _ I r p l v H); auto. right. eapply undef_le; eauto.
    - intros Hp r s p l Hs H. destruct (i_pkr _ _ _ _ _ _ I Hp r s p l Hs H); auto. right. eapply undef_le; eauto.
    - intros r p H. eapply undef_le; eauto. eapply i_actp; eauto.
    - intros r p H. eapply undef_le; eauto. eapply i_acts; eauto.
  Qed.
  (** Contexts differing in unobserved fields. *)
  Lemma inv_same k E al sd m c c' : inv k E al sd m c ->
    c_tb c' = c_tb c -> c_inws c' = c_inws c -> c_rcv c' = c_rcv c -> c_prec c' = c_prec c ->
    inb E c' -> okargs c' -> c_lrm c' = c_lrm c -> c_pkr c' = c_pkr c -> c_pkv c' = c_pkv c ->
    c_actp c' = c_actp c -> c_acts c' = c_acts c -> inv k E al sd m c'.
  Proof.
    intros I H1 H2 H3 H4 H5 H6 H7 H8 H9 H10 H11.
    constructor; unfold wrapped; rewrite ?H1, ?H2, ?H3, ?H4, ?H7, ?H8, ?H9, ?H10, ?H11; try apply I; assumption.
  Qed.
  Lemma inv_noseed k E al sd m c : inv k E al sd m c -> inv k E al None m c.
  Proof. intros Hi. constructor; try apply Hi. exact I. Qed.

  (** Frame conditions. *)
  Definition params_ok E c (params : list bytes) : Prop :=
    exists t stk d, c_rstk c = t :: stk /\ nth_error (e_g E) t = Some d /\ r_params d = params.
  Definition fram_ok E al (fr : fram) : Prop :=
    Forall (anychk E al) (snd fr) /\ forallb nopre (snd fr) = true.
  Definition pre E al (fr : fram) m (o : ope) c : Prop :=
    match o with
    | Hld r => al r m /\ forall d, nth_error (e_g E) r = Some d ->
        if r_is_macro d then top_args c = snd fr else (r_macro_ref d = true -> top_args c = [])
    | _ => chk E al m o /\ (mref (e_g E) o = true -> top_args c = snd fr /\ params_ok E c (fst fr))
    end.
  Lemma pre_frame E al fr m o c c' : frame c c' -> pre E al fr m o c -> pre E al fr m o c'.
  Proof.
    intros F. assert (Ht : top_args c' = top_args c) by (unfold top_args; now rewrite (f_args _ _ F)).
    assert (Hp : forall ps, params_ok E c' ps <-> params_ok E c ps)
      by (intros; unfold params_ok; now rewrite (f_rstk _ _ F)).
    destruct o; cbn [pre]; rewrite ?Ht; try (intros [A B]; split; [assumption|]; intros X; destruct (B X); split; [assumption|]; now apply Hp).
    tauto.
  Qed.

  Definition ran E al (o : ope) (pos : nat) vs c (x : rv V) : Prop :=
    exists vs' c', ev (fun f => parse f E o pos vs c = Ok (len_of x, vs', c'))
      /\ vsok E x vs' /\ rpost E al c c' /\ ext vs vs' /\ pos_ok E pos (len_of x).
  Definition refines (k : nat) : Prop :=
    forall E al wal sd fr m o pos vr x vs c,
      okA E al wal -> ref k E sd fr m o pos vr = Some x -> nopre o = true ->
      pre E al fr m o c -> seed_ok E sd -> fram_ok E al fr -> inv k E al sd m c ->
      pos <= inlen E -> vsrel E vs vr -> ran E al o pos vs c x.
  (** The same for the body of a precedence rule. *)
  Definition refinesP (k : nat) : Prop :=
    forall E al wal sd fr m a b i q pos x c,
      okA E al wal -> ref k E sd fr m (Pre a b i q) pos sv_new = Some x -> chk E al m (Pre a b i q) ->
      (forall nm r ia mac args, b = Ref nm (Some r) ia mac args -> op_of E r) ->
      seed_ok E sd -> fram_ok E al fr -> inv k E al sd m c -> pos <= inlen E ->
      exists vs' c', ev (fun f => parse f E (Pre a b i q) pos sv_new c = Ok (len_of x, vs', c'))
        /\ vsok E x vs' /\ rpost E al c c' /\ pos_ok E pos (len_of x).
End Refine.
