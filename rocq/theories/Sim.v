(** * Two parses side by side.

    One lockstep simulation between two environments that may differ in
    - the tracers and the verbosity flag,
    - whether rules are pushed on the rule stack for diagnostics,
    - whether errors are logged,
    - recognizer mode (no values) against the ordinary mode,
    - the user's callbacks, as long as they are related,
    - rules outside a set [R] closed under "mentions".
    Used for C38, C39, C43-C45. *)
From Verif Require Import Base BaseLemmas Utf8 Escape TrieM LineInfo Ope Ctx ErrLog Engine EngineLemmas Frame Scope.

(** [x] and [y] end alike; when [strict] is false [x] may fail on its own. *)
Inductive osim {A B} (strict : bool) (P : A -> B -> Prop) : outcome A -> outcome B -> Prop :=
| os_ok a b : P a b -> osim strict P (Ok a) (Ok b)
| os_ub u : osim strict P (UB u) (UB u)
| os_throw s : osim strict P (Throw s) (Throw s)
| os_fuel : osim strict P OutOfFuel OutOfFuel
| os_ub1 u y : strict = false -> osim strict P (UB u) y
| os_throw1 s y : strict = false -> osim strict P (Throw s) y.
Lemma osim_bind {A B A' B'} s (P : A -> B -> Prop) (Q : A' -> B' -> Prop) x y f g :
  osim s P x y -> (forall a b, P a b -> osim s Q (f a) (g b)) -> osim s Q (bind x f) (bind y g).
Proof. intros [] Hk; cbn [bind]; auto; constructor; auto. Qed.
Lemma osim_bindE {A B A' B'} s (P : A -> B -> Prop) (Q : A' -> B' -> Prop) x y f g :
  osim s P x y -> (forall a b, x = Ok a -> y = Ok b -> P a b -> osim s Q (f a) (g b)) -> osim s Q (bind x f) (bind y g).
Proof. intros [] Hk; cbn [bind]; auto; constructor; auto. Qed.
Lemma osim_bindP {A A' B'} s (Q : A' -> B' -> Prop) (x : outcome A) f g :
  (forall a, x = Ok a -> osim s Q (f a) (g a)) -> osim s Q (bind x f) (bind x g).
Proof. destruct x; cbn [bind]; intros Hk; auto; constructor. Qed.
Lemma osim_weaken {A B} s s' (P Q : A -> B -> Prop) x y :
  osim s P x y -> (s' = true -> s = true) -> (forall a b, P a b -> Q a b) -> osim s' Q x y.
Proof.
  intros [] Hs HP; try (constructor; auto; fail).
  - apply os_ub1. destruct s'; [|reflexivity]. rewrite Hs in *; congruence.
  - apply os_throw1. destruct s'; [|reflexivity]. rewrite Hs in *; congruence.
Qed.
Lemma osim_weaken' {A B} s (P Q : A -> B -> Prop) x y :
  osim s P x y -> (forall a b, x = Ok a -> y = Ok b -> P a b -> Q a b) -> osim s Q x y.
Proof. intros [] HP; try (constructor; auto; fail). Qed.
Lemma osim_same {A} s (P : A -> A -> Prop) (x : outcome A) : (forall a, x = Ok a -> P a a) -> osim s P x x.
Proof. destruct x; intros H; constructor; auto. Qed.
Lemma osim_mapr {A B B'} s (P : A -> B -> Prop) (Q : A -> B' -> Prop) x y (g : B -> outcome B') :
  osim s P x y -> (forall a b, P a b -> exists b', g b = Ok b' /\ Q a b') -> osim s Q x (bind y g).
Proof.
  intros [a b Hp | | | | |] Hk; cbn [bind]; try (constructor; auto; fail).
  destruct (Hk _ _ Hp) as (b' & -> & Hq). now constructor.
Qed.
Lemma osim_mapl {A B A'} s (P : A -> B -> Prop) (Q : A' -> B -> Prop) x y (f : A -> outcome A') :
  osim s P x y -> (forall a b, P a b -> exists a', f a = Ok a' /\ Q a' b) -> osim s Q (bind x f) y.
Proof.
  intros [a b Hp | | | | |] Hk; cbn [bind]; try (constructor; auto; fail).
  destruct (Hk _ _ Hp) as (b' & -> & Hq). now constructor.
Qed.
Lemma osim_eq {A} s (x y : outcome A) : s = true -> osim s eq x y -> x = y.
Proof. intros Hs []; congruence. Qed.

(** [m_log]: both log alike (otherwise the second does not log);
    [m_stk]: both push the same rules; [m_rg]: the first builds values, the
    second is a recognizer; [m_plain]: no user-defined parsers and no precedence
    climbing. *)
Record mode := { m_log : bool; m_stk : bool; m_rg : bool; m_plain : bool }.
Definition word_mode (m : mode) : mode := {| m_log := true; m_stk := true; m_rg := false; m_plain := m_plain m |}.

(** Does evaluating [o] itself (not the rules it calls) read the rule on top of
    the rule stack?  It does at a macro call; a parameter reference may evaluate
    an argument that does. *)
Fixpoint needs_top (g : grammar) (o : ope) : bool :=
  match o with
  | Seq _ l | Cho _ _ l => existsb (needs_top g) l
  | Rep e _ _ _ | And e | Not e | Csc e | Cap _ e | Tok e | Ign e | Wsp e | Rcv e => needs_top g e
  | Pre a b _ _ => needs_top g a || needs_top g b
  | Ref _ None _ _ _ => true
  | Ref _ (Some r) _ _ args =>
    match nth_error g r with Some d => r_is_macro d | None => false end || existsb (needs_top g) args
  | _ => false
  end.

(** The rule a recovery operator names in its message: the first argument. *)
Definition label_of (args : list ope) : option rid := match args with Ref _ l _ _ _ :: _ => l | _ => None end.

Section Ok.
  Variable R : rid -> Prop.        (* rules that may be used *)
  Variable Nm : rid -> Prop.        (* rules that may be named in messages *)
  Variable rg : bool.
  Variable ha : rid -> Prop.       (* both sides agree on having an action *)
  Fixpoint okope (o : ope) : Prop :=
    match o with
    | Seq _ l => fold_right (fun x p => okope x /\ p) True l
    | Cho _ fs l => fold_right (fun x p => okope x /\ p) True l /\
                    Forall (fun f => forall r, fs_first_rule f = Some r -> Nm r) fs
    | Rep e _ _ _ | And e | Not e | Csc e | Cap _ e | Tok e | Ign e | Wsp e | Rcv e => okope e
    | Usr _ => rg = false
    | Wkh r | Hld r => R r
    | Ref _ rl _ _ args =>
      match rl with Some r => R r /\ fold_right (fun x p => okope x /\ p) True args | None => True end /\
      forall l, label_of args = Some l -> Nm l
    | Pre a b _ r => rg = false /\ ha r /\ R r /\ okope a /\ okope b
    | _ => True
    end.
  Definition okopes (l : list ope) : Prop := fold_right (fun x p => okope x /\ p) True l.
  Lemma okopes_in l x : okopes l -> In x l -> okope x.
  Proof. induction l; cbn; intros H Hi; [contradiction|]. destruct H, Hi; subst; auto. Qed.
  Lemma okopes_nth l i x : okopes l -> nth_error l i = Some x -> okope x.
  Proof. intros H Hn. eapply okopes_in; eauto using nth_error_In. Qed.
  Lemma okope_find params args o : okopes args -> forall o', find_reference params args o = Ok o' -> okope o -> okope o'.
  Proof.
    intros Ha.
    induction o using ope_ind'; intros o' Hf Hn;
      try (cbn in Hf; binv Hf; inv Hf; cbn; eauto; fail);
      try (cbn in Hf; inv Hf; cbn in *; auto; fail).
    - rewrite find_reference_seq in Hf. binv Hf. inv Hf. cbn [okope] in *.
      revert a Hm. induction l as [|x l IHl]; intros a Hm; cbn [find_references] in Hm.
      + inv Hm. exact Logic.I.
      + binv Hm. binv Hm. inv Hm. inv H. destruct Hn as [Hn1 Hn2]. cbn. split; [eauto|]. apply IHl; auto.
    - rewrite find_reference_cho in Hf. binv Hf. inv Hf. cbn [okope] in *. destruct Hn as [Hn _]. split; [|constructor].
      revert a Hm. induction l as [|x l IHl]; intros a Hm; cbn [find_references] in Hm.
      + inv Hm. exact Logic.I.
      + binv Hm. binv Hm. inv Hm. inv H. destruct Hn as [Hn1 Hn2]. cbn. split; [eauto|]. apply IHl; auto.
    - cbn [find_reference] in Hf. binv Hf. destruct a.
      + inv Hf. eapply okopes_in; eauto using find_param_in.
      + inv Hf. assumption.
    - cbn in Hf. binv Hf. inv Hf. cbn in *. eapply IHo1; eauto; tauto.
  Qed.
  Lemma okopes_subst params top l : forall l', okopes top -> subst_args params top l = Ok l' -> okopes l -> okopes l'.
  Proof.
    induction l as [|x l IH]; intros l' Ht H Hn; cbn [subst_args] in H.
    - inv H. exact Logic.I.
    - binv H. binv H. inv H. destruct Hn as [H1 H2]. split; [exact (okope_find params top x Ht a Hm H1)|apply IH; assumption].
  Qed.
End Ok.
(** Callbacks with the default behaviour filled in. *)
Section Defaults.
  Context {V U : Type}.
  Definition act_of (E : env V U) (r : rid) : bytes -> sv V -> U -> option V -> option V * U :=
    match e_action E r with Some f => f | None => fun _ vs dt _ => (front (v_vals vs), dt) end.
  Definition pred_of (E : env V U) (r : rid) : bytes -> sv V -> U -> bool * bytes * option V :=
    match e_pred E r with Some f => f | None => fun _ _ _ => (true, [], None) end.
  Definition enter_of (E : env V U) (r : rid) : bytes -> nat -> U -> U :=
    match e_enter E r with Some f => f | None => fun _ _ dt => dt end.
  Definition leave_of (E : env V U) (r : rid) : bytes -> nat -> option nat -> option V -> U -> option V * U :=
    match e_leave E r with Some f => f | None => fun _ _ _ v dt => (v, dt) end.
End Defaults.

Lemma bind_assoc {A B D} (x : outcome A) (f : A -> outcome B) (k : B -> outcome D) :
  bind (bind x f) k = bind x (fun a => bind (f a) k).
Proof. now destruct x. Qed.
(** ** Tables *)
Lemma nfind_nerase {A} (l : list (nat * A)) k j : nfind (nerase k l) j = if j =? k then None else nfind l j.
Proof.
  unfold nfind, nerase. induction l as [|[i a] l IH]; cbn; [now destruct (j =? k)|].
  destruct (i =? k) eqn:Hik; cbn.
  - rewrite IH. apply Nat.eqb_eq in Hik. subst. rewrite (Nat.eqb_sym k j). now destruct (j =? k).
  - destruct (i =? j) eqn:Hij; [|exact IH]. apply Nat.eqb_eq in Hij. subst. now rewrite Hik.
Qed.
Lemma nfind_nset {A} (l : list (nat * A)) k v j : nfind (nset k v l) j = if j =? k then Some v else nfind l j.
Proof.
  unfold nset. change (nfind ((k, v) :: nerase k l) j) with
    (match (if k =? j then Some (k, v) else find (fun p => fst p =? j) (nerase k l)) with Some p => Some (snd p) | None => None end).
  rewrite (Nat.eqb_sym k j). destruct (j =? k) eqn:H; [reflexivity|].
  change (nfind (nerase k l) j = nfind l j). now rewrite nfind_nerase, H.
Qed.
Section Eta.
  Context {V U : Type}.
  Implicit Types c : ctx V U.
  Lemma set_dt_id c : set_dt (c_dt c) c = c. Proof. now destruct c. Qed.
  Lemma set_prec_id c : set_prec (c_prec c) c = c. Proof. now destruct c. Qed.
  Lemma set_prec_nil c : c_prec c = [] -> set_prec [] c = c. Proof. intros H. rewrite <- H. apply set_prec_id. Qed.
  Lemma set_rstk_id c : set_rstk (c_rstk c) c = c. Proof. now destruct c. Qed.
  Lemma run_action_alt (E : env V U) r vs pd c : run_action E r vs pd c =
    (fst (act_of E r (e_input E) vs (c_dt c) pd),
     set_dt (snd (act_of E r (e_input E) vs (c_dt c) pd))
       (set_prec (map (fun p => if fst p =? r then (fst p, sv_token E vs) else p) (c_prec c)) c)).
  Proof.
    unfold run_action, act_of. cbv zeta. destruct (e_action E r) as [f|].
    - cbn. now destruct (f _ _ _ _).
    - cbn. reflexivity.
  Qed.
  Lemma wrapped_none r (t : bytes) c : wrapped c r = false ->
    map (fun p => if fst p =? r then (fst p, t) else p) (c_prec c) = c_prec c.
  Proof.
    unfold wrapped. induction (c_prec c) as [|p l IH]; cbn; [reflexivity|]. intros H.
    apply orb_false_iff in H as [H1 H2]. now rewrite H1, IH.
  Qed.
  Lemma reduce_alt (E : env V U) r d vs pd c : reduce E r d vs pd c =
    if r_disable_action d then (front (v_vals vs), c)
    else (fst (act_of E r (e_input E) vs (c_dt c) pd),
          set_dt (snd (act_of E r (e_input E) vs (c_dt c) pd))
            (set_prec (map (fun p => if fst p =? r then (fst p, sv_token E vs) else p) (c_prec c)) c)).
  Proof.
    unfold reduce, has_action. destruct (r_disable_action d); [now rewrite andb_false_r|]. rewrite andb_true_r.
    destruct (wrapped c r) eqn:Hw; cbn [orb]; [apply run_action_alt|].
    destruct (e_action E r) eqn:Ha; [apply run_action_alt|].
    rewrite wrapped_none by assumption. unfold act_of. rewrite Ha. cbn. now rewrite set_prec_id, set_dt_id.
  Qed.
  (** do_parse with the default callbacks filled in. *)
  Definition do_parse' (E : env V U) (rec : rec_t) (r : rid) (d : rule) (body : ope) (pos : nat) c
    : outcome (option nat * option V * ctx V U) :=
    let* (len, chvs, c2) := parse_ope_body E rec r d body pos sv_new (set_dt (enter_of E r (e_input E) pos (c_dt c)) c) in
    let '(len', val, c3) :=
      match len with
      | Some k =>
        let vs1 := set_name (Some r) (set_span (pos, k) chvs) in
        let vs2 := if is_choice_like (match body with Tok e => e | _ => body end) then vs1 else set_choice 0 0 vs1 in
        let '(ok, msg, pd) := pred_of E r (e_input E) vs2 (c_dt c2) in
        if ok then
          if c_rcv c2 then (Some k, None, c2)
          else let (v, c') := reduce E r d vs2 pd c2 in (Some k, v, c')
        else
          (None, None,
           if c_log c2 && negb (match msg with [] => true | _ => false end) && olt (ei_mpos (c_err c2)) pos
           then set_err (err_message pos msg (Some (r_name d)) (c_err c2)) c2 else c2)
      | None =>
        (None, None,
         if c_log c2 && negb (match r_error_message d with [] => true | _ => false end) && olt (ei_mpos (c_err c2)) pos
         then set_err (err_message pos (resolve_capture_placeholders (r_error_message d) (c_caps c2))
                         (Some (r_name d)) (c_err c2)) c2 else c2)
      end in
    let (v, dt) := leave_of E r (e_input E) pos len' val (c_dt c3) in Ok (len', v, set_dt dt c3).
  Lemma do_parse_alt (E : env V U) rec r d body pos c : do_parse E rec r d body pos c = do_parse' E rec r d body pos c.
  Proof.
    unfold do_parse, do_parse'.
    replace (match e_enter E r with Some f => set_dt (f (e_input E) pos (c_dt c)) c | None => c end)
      with (set_dt (enter_of E r (e_input E) pos (c_dt c)) c).
    2:{ unfold enter_of. destruct (e_enter E r); [reflexivity|]. apply set_dt_id. }
    cbv zeta. destruct (parse_ope_body _ _ _ _ _ _ _ _) as [[[len chvs] c2]| | |]; cbn [bind]; try reflexivity.
    unfold pred_of, leave_of. destruct len as [k|].
    - destruct (e_pred E r) as [f|].
      + destruct (f _ _ _) as [[b msg] pd].
        match goal with |- (let '(_, _) := ?x in _) = _ => destruct x as [[? ?] ?] end.
        destruct (e_leave E r); [reflexivity|]. now rewrite set_dt_id.
      + match goal with |- (let '(_, _) := ?x in _) = _ => destruct x as [[? ?] ?] end.
        destruct (e_leave E r); [reflexivity|]. now rewrite set_dt_id.
    - destruct (e_leave E r); [reflexivity|]. now rewrite set_dt_id.
  Qed.
End Eta.
Lemma codepoint_length_nofuel s n : codepoint_length s n <> OutOfFuel.
Proof.
  unfold codepoint_length. destruct (0 <? n); [|discriminate]. unfold rd. destruct (nth_error s 0); cbn [bind]; [|discriminate].
  repeat match goal with |- context [if ?b then _ else _] => destruct b end; discriminate.
Qed.
Lemma count_loop_nofuel fuel : forall s l c, l <= fuel -> codepoint_count_loop fuel s l c <> OutOfFuel.
Proof.
  induction fuel as [|fuel IH]; intros s l c H; cbn [codepoint_count_loop].
  - replace l with 0 by lia. discriminate.
  - destruct (0 <? l) eqn:Hl; [|discriminate]. apply Nat.ltb_lt in Hl.
    pose proof (codepoint_length_nofuel s l). destruct (codepoint_length s l) as [n| | |]; cbn [bind]; try congruence.
    apply IH. destruct (n =? 0) eqn:Hn; [lia|]. apply Nat.eqb_neq in Hn. lia.
Qed.
Lemma line_info_nofuel s p : line_info s p <> OutOfFuel.
Proof.
  assert (Hl : forall s p cur col no, line_loop s p cur col no <> OutOfFuel).
  { induction s0 as [|a s0 IH]; intros; cbn [line_loop]; destruct (_ - _); try discriminate. destruct (beq a x0a); apply IH. }
  unfold line_info. specialize (Hl s 0 p 0 1). destruct (line_loop _ _ _ _ _) as [[no col]| | |]; cbn [bind]; try congruence.
  unfold codepoint_count. pose proof (count_loop_nofuel (p - col) (from s col) (p - col) 0 (le_n _)).
  destruct (codepoint_count_loop _ _ _ _); cbn [bind]; congruence.
Qed.
Lemma error_token_nofuel s p : heuristic_error_token s p <> OutOfFuel.
Proof.
  assert (Hc : forall n s i j, clip n s i j <> OutOfFuel).
  { induction n; intros; cbn [clip]; [discriminate|]. destruct (j <? i); [|discriminate].
    pose proof (codepoint_length_nofuel (from s0 j) (i - j)). destruct (codepoint_length _ _); cbn [bind]; auto; discriminate. }
  unfold heuristic_error_token. destruct (from s p) eqn:Hs; [discriminate|]. cbv zeta. rewrite <- Hs.
  match goal with |- context [clip ?n ?a ?b ?d] => specialize (Hc n a b d); destruct (clip n a b d); cbn [bind]; congruence end.
Qed.
Lemma output_log_nofuel g s e : output_log g s e <> OutOfFuel.
Proof.
  unfold output_log. destruct (ei_mpos e) as [mp|].
  - destruct (olt _ _); [|discriminate]. cbv zeta.
    pose proof (line_info_nofuel s mp). destruct (line_info s mp) as [[a b]| | |]; cbn [bind]; try congruence.
    pose proof (error_token_nofuel s mp). destruct (heuristic_error_token s mp) as [t| | |]; cbn [bind]; try congruence.
    destruct t as [|x t]; cbn [bind]; [discriminate|].
    pose proof (codepoint_length_nofuel (x :: t) (List.length (x :: t))).
    destruct (codepoint_length _ _); cbn [bind]; congruence.
  - destruct (ei_pos e) as [p|]; [|discriminate]. destruct (olt _ _); [|discriminate].
    pose proof (line_info_nofuel s p). destruct (line_info s p) as [[a b]| | |]; cbn [bind]; try congruence.
    destruct (ei_exp e) as [|x l]; cbn [bind]; [discriminate|].
    pose proof (error_token_nofuel s p). destruct (heuristic_error_token s p) as [t| | |]; cbn [bind]; try congruence.
    destruct (fold_left _ _ _) as [[[[? ?] ?] ?] ?]. cbn [bind]. discriminate.
Qed.
Lemma output_log_same (Nm : rid -> Prop) g1 g2 s e : (forall r, Nm r -> nth_error g1 r = nth_error g2 r) ->
  Forall (fun t : option bytes * option rid => forall r, snd t = Some r -> Nm r) (ei_exp e) -> output_log g1 s e = output_log g2 s e.
Proof.
  intros Hg He. unfold output_log. destruct (ei_mpos e); [reflexivity|]. destruct (ei_pos e); [|reflexivity].
  destruct (olt _ _); [|reflexivity].
  assert (Hs : forall l st, Forall (fun t : option bytes * option rid => forall r, snd t = Some r -> Nm r) l ->
             fold_left (expect_step g1) l st = fold_left (expect_step g2) l st).
  { induction l as [|t l IH]; intros st H; cbn [fold_left]; [reflexivity|]. inv H.
    replace (expect_step g1 st t) with (expect_step g2 st t); [now apply IH|].
    destruct t as [lit [r|]]; [|reflexivity]. cbn in H2. specialize (H2 r eq_refl).
    unfold expect_step, rule_name. cbn [snd]. now rewrite (Hg _ H2). }
  destruct (ei_exp e) as [|t l] eqn:Hx; [reflexivity|].
  destruct (line_info s n) as [[a b]| | |]; cbn [bind]; try reflexivity.
  destruct (heuristic_error_token s n) as [tk| | |]; cbn [bind]; try reflexivity.
  now rewrite Hs.
Qed.

Section Sim.
  Context {V1 U1 V2 U2 : Type}.
  Variable R : rid -> Prop.
  Variable Nm : rid -> Prop.
  Variable Vr : option V1 -> option V2 -> Prop.
  Variable Ur : U1 -> U2 -> Prop.
  Hypothesis Vr_none : Vr None None.
  Notation env1 := (env V1 U1).
  Notation env2 := (env V2 U2).
  Notation ctx1 := (ctx V1 U1).
  Notation ctx2 := (ctx V2 U2).

  (** Semantic values of the two sides. *)
  Record VRs (vs1 : sv V1) (vs2 : sv V2) : Prop := {
    vr_vals : Forall2 Vr (v_vals vs1) (v_vals vs2);
    vr_tags : v_tags vs1 = v_tags vs2;
    vr_toks : v_toks vs1 = v_toks vs2;
    vr_sv : v_sv vs1 = v_sv vs2;
    vr_cc : v_cc vs1 = v_cc vs2;
    vr_ch : v_ch vs1 = v_ch vs2;
    vr_name : v_name vs1 = v_name vs2
  }.
  Definition VR (rg : bool) (vs1 : sv V1) (vs2 : sv V2) : Prop :=
    if rg then Forall (fun v => v = None) (v_vals vs1) /\ Forall (fun v => v = None) (v_vals vs2)
    else VRs vs1 vs2.

  Definition ha (E1 : env1) (E2 : env2) (r : rid) : Prop := (e_action E1 r = None <-> e_action E2 r = None).
  Notation OK m E1 E2 := (okope R Nm (m_plain m) (ha E1 E2)).

  Record ER (m : mode) (E1 : env1) (E2 : env2) : Prop := {
    er_rs : forall r, R r -> Nm r;
    er_g : forall r, Nm r -> nth_error (e_g E1) r = nth_error (e_g E2) r;
    er_body : forall r d b, R r -> nth_error (e_g E1) r = Some d -> r_body d = Some b -> OK m E1 E2 b;
    er_macro : m_stk m = false -> forall r d b, R r -> nth_error (e_g E1) r = Some d -> r_body d = Some b ->
                 needs_top (e_g E1) b = true -> r_is_macro d = true \/ r_macro_ref d = true;
    er_input : e_input E1 = e_input E2;
    er_ws : e_ws E1 = e_ws E2;
    er_ws_ok : forall w, e_ws E1 = Some w -> OK m E1 E2 w /\ (m_stk m = false -> needs_top (e_g E1) w = false);
    er_word : e_word E1 = e_word E2;
    er_word_ok : forall w, e_word E1 = Some w -> OK m E1 E2 w;
    er_packrat : e_packrat E1 = e_packrat E2;
    er_slot : forall r, R r -> e_slot E1 r = e_slot E2 r;
    er_cached : e_cached E1 = e_cached E2;
    er_cut : e_has_cut E1 = e_has_cut E2;
    er_need : m_stk m = true -> e_need_rules E1 = e_need_rules E2;
    er_recog : if m_rg m then e_recog E1 = false /\ e_recog E2 = true else e_recog E1 = e_recog E2;
    er_plain : m_rg m = true -> m_plain m = true;
    er_rg : m_rg m = true -> (forall a b, Vr a b <-> a = None /\ b = None) /\
              forall r, R r -> (e_action E1 r = None /\ e_pred E1 r = None /\ e_enter E1 r = None /\ e_leave E1 r = None) /\
                               (e_action E2 r = None /\ e_pred E2 r = None /\ e_enter E2 r = None /\ e_leave E2 r = None);
    er_u0 : Ur (e_u0 E1) (e_u0 E2);
    er_act : forall inp r vs1 vs2 dt1 dt2 pd1 pd2, R r -> VRs vs1 vs2 -> Ur dt1 dt2 -> Vr pd1 pd2 ->
      Vr (fst (act_of E1 r inp vs1 dt1 pd1)) (fst (act_of E2 r inp vs2 dt2 pd2)) /\
      Ur (snd (act_of E1 r inp vs1 dt1 pd1)) (snd (act_of E2 r inp vs2 dt2 pd2));
    er_pred : forall inp r vs1 vs2 dt1 dt2, R r -> VRs vs1 vs2 -> Ur dt1 dt2 ->
      fst (pred_of E1 r inp vs1 dt1) = fst (pred_of E2 r inp vs2 dt2) /\
      Vr (snd (pred_of E1 r inp vs1 dt1)) (snd (pred_of E2 r inp vs2 dt2));
    er_enter : forall inp r pos dt1 dt2, R r -> Ur dt1 dt2 ->
      Ur (enter_of E1 r inp pos dt1) (enter_of E2 r inp pos dt2);
    er_leave : forall inp r pos len v1 v2 dt1 dt2, R r -> Vr v1 v2 -> Ur dt1 dt2 ->
      Vr (fst (leave_of E1 r inp pos len v1 dt1)) (fst (leave_of E2 r inp pos len v2 dt2)) /\
      Ur (snd (leave_of E1 r inp pos len v1 dt1)) (snd (leave_of E2 r inp pos len v2 dt2));
    er_user : forall inp id pos vs1 vs2 dt1 dt2, m_plain m = false -> VRs vs1 vs2 -> Ur dt1 dt2 ->
      fst (fst (e_user E1 id inp pos vs1 dt1)) = fst (fst (e_user E2 id inp pos vs2 dt2)) /\
      VRs (snd (fst (e_user E1 id inp pos vs1 dt1))) (snd (fst (e_user E2 id inp pos vs2 dt2))) /\
      Ur (snd (e_user E1 id inp pos vs1 dt1)) (snd (e_user E2 id inp pos vs2 dt2))
  }.

  (** Contexts of the two sides.  [h]: the rules on top of the stacks agree. *)
  Record CR (m : mode) (ok : ope -> Prop) (h : bool) (c1 : ctx1) (c2 : ctx2) : Prop := {
    cr_caps : c_caps c1 = c_caps c2;
    cr_cut : c_cut c1 = c_cut c2;
    cr_rcv : c_rcv c1 = c_rcv c2;
    cr_hits : c_hits c1 = c_hits c2;
    cr_acts : c_acts c1 = c_acts c2;
    cr_pkr : c_pkr c1 = c_pkr c2;
    cr_actp : c_actp c1 = c_actp c2;
    cr_tb : c_tb c1 = c_tb c2;
    cr_inws : c_inws c1 = c_inws c2;
    cr_args : c_args c1 = c_args c2;
    cr_prec : c_prec c1 = c_prec c2;
    cr_prec0 : m_rg m = true -> c_prec c1 = [];
    cr_lrm : Forall2 (fun x y => fst x = fst y /\ fst (snd x) = fst (snd y) /\ Vr (snd (snd x)) (snd (snd y)))
               (c_lrm c1) (c_lrm c2);
    cr_pkv : forall k, Vr (nfind (c_pkv c1) k) (nfind (c_pkv c2) k);
    cr_okargs : Forall (fun l => fold_right (fun x p => ok x /\ p) True l) (c_args c1);
    cr_log : if m_log m then c_log c1 = c_log c2 else c_log c2 = false;
    cr_nolog : m_log m = true -> m_stk m = false -> c_log c1 = false;
    cr_rglog : m_rg m = true -> c_log c2 = false;
    cr_err : m_log m = true -> c_err c1 = c_err c2;
    cr_exp : m_log m = true -> Forall (fun t => forall r, snd t = Some r -> Nm r) (ei_exp (c_err c1));
    cr_out : m_log m = true -> c_out c1 = c_out c2;
    cr_R : Forall R (c_rstk c1);
    cr_stk : m_stk m = true -> c_rstk c1 = c_rstk c2;
    cr_hd : h = true -> hd_error (c_rstk c1) = hd_error (c_rstk c2);
    cr_dt : Ur (c_dt c1) (c_dt c2)
  }.
  Notation CRE m E1 E2 := (CR m (okope R Nm (m_plain m) (ha E1 E2))).

  Definition RR m ok h (x : option nat * sv V1 * ctx1) (y : option nat * sv V2 * ctx2) : Prop :=
    fst (fst x) = fst (fst y) /\ VR (m_rg m) (snd (fst x)) (snd (fst y)) /\ CR m ok h (snd x) (snd y).
  Notation RRE m E1 E2 := (RR m (okope R Nm (m_plain m) (ha E1 E2))).
  Definition WR m ok h (x : option nat * option V1 * ctx1) (y : option nat * option V2 * ctx2) : Prop :=
    fst (fst x) = fst (fst y) /\ Vr (snd (fst x)) (snd (fst y)) /\ CR m ok h (snd x) (snd y).
  Notation WRE m E1 E2 := (WR m (okope R Nm (m_plain m) (ha E1 E2))).

  Section CRset.
    Variables (m : mode) (ok : ope -> Prop) (h : bool).
    Notation C := (CR m ok h).
    Ltac go := intros []; constructor; cbn; auto.
    Lemma CR_caps x c1 c2 : C c1 c2 -> C (set_caps x c1) (set_caps x c2). Proof. go. Qed.
    Lemma CR_cut x c1 c2 : C c1 c2 -> C (set_cut x c1) (set_cut x c2). Proof. go. Qed.
    Lemma CR_rcv x c1 c2 : C c1 c2 -> C (set_rcv x c1) (set_rcv x c2). Proof. go. Qed.
    Lemma CR_hits x c1 c2 : C c1 c2 -> C (set_hits x c1) (set_hits x c2). Proof. go. Qed.
    Lemma CR_acts x c1 c2 : C c1 c2 -> C (set_acts x c1) (set_acts x c2). Proof. go. Qed.
    Lemma CR_pkr x c1 c2 : C c1 c2 -> C (set_pkr x c1) (set_pkr x c2). Proof. go. Qed.
    Lemma CR_actp x c1 c2 : C c1 c2 -> C (set_actp x c1) (set_actp x c2). Proof. go. Qed.
    Lemma CR_tb x c1 c2 : C c1 c2 -> C (set_tb x c1) (set_tb x c2). Proof. go. Qed.
    Lemma CR_inws x c1 c2 : C c1 c2 -> C (set_inws x c1) (set_inws x c2). Proof. go. Qed.
    Lemma CR_lrm x y c1 c2 :
      Forall2 (fun x y => fst x = fst y /\ fst (snd x) = fst (snd y) /\ Vr (snd (snd x)) (snd (snd y))) x y ->
      C c1 c2 -> C (set_lrm x c1) (set_lrm y c2).
    Proof. intros H. go. Qed.
    Lemma CR_pkv x y c1 c2 : (forall k, Vr (nfind x k) (nfind y k)) -> C c1 c2 -> C (set_pkv x c1) (set_pkv y c2).
    Proof. intros H. go. Qed.
    Lemma CR_args_push x c1 c2 : fold_right (fun x p => ok x /\ p) True x -> C c1 c2 ->
      C (set_args (x :: c_args c1) c1) (set_args (x :: c_args c2) c2).
    Proof. intros H. go. now f_equal. Qed.
    Lemma CR_args_pop c1 c2 : C c1 c2 -> C (set_args (tl (c_args c1)) c1) (set_args (tl (c_args c2)) c2).
    Proof. intros []; constructor; cbn; auto; [congruence|]. now destruct cr_okargs0; cbn. Qed.
    Lemma CR_prec x c1 c2 : m_rg m = false -> C c1 c2 -> C (set_prec x c1) (set_prec x c2).
    Proof. intros H. go. congruence. Qed.
    Lemma CR_dt x y c1 c2 : Ur x y -> C c1 c2 -> C (set_dt x c1) (set_dt y c2).
    Proof. intros H. go. Qed.
    Lemma CR_ign x y c1 c2 : C c1 c2 -> C (set_ign x c1) (set_ign y c2). Proof. go. Qed.
    Lemma CR_ign1 x c1 c2 : C c1 c2 -> C (set_ign x c1) c2. Proof. go. Qed.
    Lemma CR_ign2 x c1 c2 : C c1 c2 -> C c1 (set_ign x c2). Proof. go. Qed.
    Lemma CR_tids1 x c1 c2 : C c1 c2 -> C (set_tids x c1) c2. Proof. go. Qed.
    Lemma CR_tids2 x c1 c2 : C c1 c2 -> C c1 (set_tids x c2). Proof. go. Qed.
    Lemma CR_tnext1 x c1 c2 : C c1 c2 -> C (set_tnext x c1) c2. Proof. go. Qed.
    Lemma CR_tnext2 x c1 c2 : C c1 c2 -> C c1 (set_tnext x c2). Proof. go. Qed.
    Lemma CR_evs1 x c1 c2 : C c1 c2 -> C (set_evs x c1) c2. Proof. go. Qed.
    Lemma CR_evs2 x c1 c2 : C c1 c2 -> C c1 (set_evs x c2). Proof. go. Qed.
    (** Any error update on a side whose errors are not compared. *)
    Lemma CR_err1 x c1 c2 : m_log m = false -> C c1 c2 -> C (set_err x c1) c2.
    Proof. intros H. go; congruence. Qed.
    Lemma CR_err2 x c1 c2 : m_log m = false -> C c1 c2 -> C c1 (set_err x c2).
    Proof. intros H. go; congruence. Qed.
    Lemma CR_out1 x c1 c2 : m_log m = false -> C c1 c2 -> C (set_out x c1) c2.
    Proof. intros H. go; congruence. Qed.
    Lemma CR_out x c1 c2 : C c1 c2 -> C (set_out x c1) (set_out x c2).
    Proof. go. Qed.
    (** The same update on both. *)
    Lemma CR_err f c1 c2 :
      (m_log m = true -> Forall (fun t => forall r, snd t = Some r -> Nm r) (ei_exp (f (c_err c1)))) ->
      C c1 c2 -> C (set_err (f (c_err c1)) c1) (set_err (f (c_err c2)) c2).
    Proof. intros H. go. intros Hm. now rewrite cr_err0. Qed.
    Lemma CR_cut_top b c1 c2 : C c1 c2 -> C (set_cut_top b c1) (set_cut_top b c2).
    Proof.
      intros H. unfold set_cut_top. rewrite <- (cr_cut _ _ _ _ _ H). destruct (c_cut c1); [assumption|].
      now apply CR_cut.
    Qed.
    Lemma CR_rollback a1 a2 c1 c2 : C a1 a2 -> C c1 c2 -> C (rollback_c a1 c1) (rollback_c a2 c2).
    Proof.
      intros Ha H. unfold rollback_c. rewrite <- (cr_caps _ _ _ _ _ Ha), <- (cr_caps _ _ _ _ _ H). now apply CR_caps.
    Qed.
    Lemma CR_hd_false c1 c2 : C c1 c2 -> CR m ok false c1 c2.
    Proof. intros []; constructor; auto; congruence. Qed.
  End CRset.
  Hint Resolve CR_caps CR_cut CR_rcv CR_hits CR_acts CR_pkr CR_actp CR_tb CR_inws CR_args_push CR_args_pop CR_prec
    CR_dt CR_ign CR_ign1 CR_ign2 CR_tids1 CR_tids2 CR_tnext1 CR_tnext2 CR_evs1 CR_evs2 CR_out CR_cut_top CR_rollback : sim.

  (** ** Semantic values *)
  Lemma VR_new rg : VR rg (@sv_new V1) (@sv_new V2).
  Proof. destruct rg; cbn; [split; constructor|]. constructor; cbn; constructor. Qed.
  Lemma Forall2_firstn {A B} (P : A -> B -> Prop) n : forall l l', Forall2 P l l' -> Forall2 P (firstn n l) (firstn n l').
  Proof. induction n; intros l l' H; cbn; [constructor|]. destruct H; constructor; auto. Qed.
  Lemma Forall2_repeat {A B} (P : A -> B -> Prop) a b n : P a b -> Forall2 P (repeat a n) (repeat b n).
  Proof. intros H. induction n; cbn; constructor; auto. Qed.
  Lemma Forall2_length' {A B} (P : A -> B -> Prop) l l' : Forall2 P l l' -> List.length l = List.length l'.
  Proof. induction 1; cbn; congruence. Qed.
  Lemma Forall_firstn {A} (P : A -> Prop) n : forall l, Forall P l -> Forall P (firstn n l).
  Proof. induction n; intros l H; cbn; [constructor|]. destruct H; constructor; auto. Qed.
  Lemma Forall_resize_none {V} n (l : list (option V)) :
    Forall (fun v => v = None) l -> Forall (fun v => v = None) (resize None n l).
  Proof.
    intros H. unfold resize. apply Forall_app. split; [now apply Forall_firstn|].
    generalize (n - List.length l). intros k. induction k; cbn; constructor; auto.
  Qed.
  Lemma VR_rollback rg a1 a2 vs1 vs2 : VR rg a1 a2 -> VR rg vs1 vs2 -> VR rg (rollback_vs a1 vs1) (rollback_vs a2 vs2).
  Proof.
    destruct rg; cbn [VR].
    - intros _ [H1 H2]. split; cbn; now apply Forall_resize_none.
    - intros Ha H. pose proof (Forall2_length' _ _ _ (vr_vals _ _ Ha)) as Hl. destruct Ha, H. constructor; cbn; try congruence.
      unfold resize. rewrite <- Hl, (Forall2_length' _ _ _ vr_vals1).
      apply Forall2_app; [now apply Forall2_firstn|now apply Forall2_repeat].
  Qed.
  Lemma VR_choice rg cc ch vs1 vs2 : VR rg vs1 vs2 -> VR rg (set_choice cc ch vs1) (set_choice cc ch vs2).
  Proof. destruct rg; cbn; [auto|]. intros []; constructor; cbn; auto. Qed.
  Lemma VR_span rg x vs1 vs2 : VR rg vs1 vs2 -> VR rg (set_span x vs1) (set_span x vs2).
  Proof. destruct rg; cbn; [auto|]. intros []; constructor; cbn; auto. Qed.
  Lemma VR_name rg x vs1 vs2 : VR rg vs1 vs2 -> VR rg (set_name x vs1) (set_name x vs2).
  Proof. destruct rg; cbn; [auto|]. intros []; constructor; cbn; auto. Qed.
  Lemma VR_tok m E1 E2 t vs1 vs2 : ER m E1 E2 -> VR (m_rg m) vs1 vs2 ->
    VR (m_rg m) (if e_recog E1 then vs1 else push_tok t vs1) (if e_recog E2 then vs2 else push_tok t vs2).
  Proof.
    intros HE H. pose proof (er_recog _ _ _ HE) as Hr. destruct (m_rg m); cbn [VR] in *.
    - destruct (e_recog E1), (e_recog E2); cbn; auto.
    - rewrite Hr. destruct (e_recog E2); [assumption|]. destruct H; constructor; cbn; auto. congruence.
  Qed.
  Lemma VR_front rg vs1 vs2 : (rg = true -> forall a b, Vr a b <-> a = None /\ b = None) ->
    VR rg vs1 vs2 -> Vr (front (v_vals vs1)) (front (v_vals vs2)).
  Proof.
    destruct rg; cbn [VR]; intros Hg H.
    - apply Hg; [reflexivity|]. destruct H as [H1 H2]. destruct H1, H2; cbn; auto.
    - destruct H as [Hv]. destruct Hv; cbn; auto.
  Qed.
  Lemma VR_push m E1 E2 d v1 v2 vs1 vs2 : ER m E1 E2 -> VR (m_rg m) vs1 vs2 -> Vr v1 v2 ->
    VR (m_rg m) (if negb (r_ignore d) && negb (e_recog E1) then push_val v1 (str2tag (r_name d)) vs1 else vs1)
                (if negb (r_ignore d) && negb (e_recog E2) then push_val v2 (str2tag (r_name d)) vs2 else vs2).
  Proof.
    intros HE H Hv. pose proof (er_recog _ _ _ HE) as Hr. pose proof (er_rg _ _ _ HE) as Hg. destruct (m_rg m); cbn [VR] in *.
    - destruct Hg as [Hg _]; [reflexivity|]. apply Hg in Hv as [-> ->]. destruct H.
      split; match goal with |- context [if ?b then _ else _] => destruct b end; auto; cbn; apply Forall_app; auto.
    - rewrite Hr. destruct (negb (r_ignore d) && _); [|assumption]. destruct H; constructor; cbn; try congruence.
      apply Forall2_app; auto.
  Qed.

  (** ** Error positions *)
  Lemma set_error_pos_shape {V U} (E : env V U) pos lit c :
    set_error_pos E pos lit c = c \/ exists x, set_error_pos E pos lit c = set_err x c.
  Proof.
    unfold set_error_pos. destruct (c_log c); [|auto]. destruct (ole _ _); [|auto]. cbv zeta. right.
    repeat match goal with |- context [match ?x with _ => _ end] => destruct x end; eauto.
  Qed.
  Lemma fs_error_shape {V U} fs id pos (c : ctx V U) :
    fs_error fs id pos c = c \/ exists x, fs_error fs id pos c = set_err x c.
  Proof.
    unfold fs_error. repeat match goal with |- context [match ?x with _ => _ end] => destruct x end; eauto.
  Qed.
  Lemma exp_add lit r e : Forall (fun t => forall r, snd t = Some r -> Nm r) (ei_exp e) ->
    (forall x, r = Some x -> Nm x) -> Forall (fun t => forall r, snd t = Some r -> Nm r) (ei_exp (err_add lit r e)).
  Proof.
    intros H Hr. unfold err_add. destruct (existsb _ _); [assumption|]. cbn. apply Forall_app. split; [assumption|].
    constructor; auto.
  Qed.
  Section Errs.
    Variables (m : mode) (E1 : env1) (E2 : env2).
    Hypothesis HE : ER m E1 E2.
    Lemma rule_is_token_eq r : Nm r -> rule_is_token E1 r = rule_is_token E2 r.
    Proof. intros H. unfold rule_is_token. now rewrite (er_g _ _ _ HE). Qed.
    Lemma error_rule_eq l : forall acc, Forall R l -> error_rule_of E1 l acc = error_rule_of E2 l acc.
    Proof.
      induction l as [|r l IH]; intros acc H; cbn; [reflexivity|]. inv H.
      rewrite rule_is_token_eq by (eapply er_rs; eauto). destruct (rule_is_token E2 r); auto.
    Qed.
    Lemma error_rule_in (l : list rid) : forall acc, Forall R l -> (forall x, acc = Some x -> Nm x) ->
      forall x, error_rule_of E1 l acc = Some x -> Nm x.
    Proof.
      induction l as [|r l IH]; intros acc H Ha x; cbn; [auto|]. inv H.
      assert (Nm r) by (eapply er_rs; eauto).
      destruct (rule_is_token E1 r); [congruence|]. apply IH; auto. congruence.
    Qed.
    Lemma CR_error_pos ok h pos lit c1 c2 : CR m ok h c1 c2 ->
      CR m ok h (set_error_pos E1 pos lit c1) (set_error_pos E2 pos lit c2).
    Proof.
      intros H. destruct (m_log m) eqn:Hm.
      - pose proof (cr_log _ _ _ _ _ H) as Hl. rewrite Hm in Hl.
        pose proof (cr_nolog _ _ _ _ _ H Hm) as Hn.
        destruct (c_log c1) eqn:L1.
        2:{ unfold set_error_pos. rewrite <- Hl, L1. assumption. }
        destruct (m_stk m) eqn:Hs; [|specialize (Hn eq_refl); congruence].
        pose proof (cr_stk _ _ _ _ _ H Hs) as Hk. pose proof (cr_err _ _ _ _ _ H Hm) as He.
        pose proof (cr_exp _ _ _ _ _ H Hm) as Hx. pose proof (cr_R _ _ _ _ _ H) as HR.
        assert (HRr : Forall R (rev (c_rstk c1))) by now apply Forall_rev.
        unfold set_error_pos. rewrite <- Hl, L1, <- He. destruct (ole _ pos) eqn:Ho; [|assumption]. cbv zeta.
        set (e1 := if olt _ _ || _ then _ else _).
        assert (He1 : Forall (fun t => forall r, snd t = Some r -> Nm r) (ei_exp e1)).
        { unfold e1. destruct (_ || _); [constructor|assumption]. }
        rewrite <- Hk, <- error_rule_eq by assumption.
        match goal with |- CR _ _ _ (match ?l with _ => _ end) (match ?l' with _ => _ end) =>
          assert (Hlit : l = l') end.
        { destruct lit; [reflexivity|]. destruct (c_rstk c1) as [|r rs]; [reflexivity|].
          inv HR. rewrite (er_g _ _ _ HE) by (eapply er_rs; eauto). reflexivity. }
        rewrite <- Hlit. clear Hlit.
        match goal with |- CR _ _ _ (match ?l with _ => _ end) _ => generalize l end. intros l.
        assert (Hnm : forall x, error_rule_of E1 (rev (c_rstk c1)) None = Some x -> Nm x).
        { apply error_rule_in; [assumption|discriminate]. }
        assert (Hset : forall x, Forall (fun t => forall r, snd t = Some r -> Nm r) (ei_exp x) ->
                 CR m ok h (set_err x c1) (set_err x c2)).
        { intros x Hxx. apply (CR_err m ok h (fun _ => x)); auto. }
        destruct l as [l|], (error_rule_of E1 _ _) as [rr|]; apply Hset; try assumption;
          (apply exp_add; [assumption|]; auto; discriminate).
      - pose proof (cr_log _ _ _ _ _ H) as Hl. rewrite Hm in Hl.
        replace (set_error_pos E2 pos lit c2) with c2 by (unfold set_error_pos; now rewrite Hl).
        destruct (set_error_pos_shape E1 pos lit c1) as [-> | [x ->]]; [assumption|]. now apply CR_err1.
    Qed.
    Lemma CR_fs_error ok h fs id pos c1 c2 : Forall (fun f => forall r, fs_first_rule f = Some r -> Nm r) fs ->
      CR m ok h c1 c2 -> CR m ok h (fs_error fs id pos c1) (fs_error fs id pos c2).
    Proof.
      intros Hf H. destruct (m_log m) eqn:Hm.
      - pose proof (cr_log _ _ _ _ _ H) as Hl. rewrite Hm in Hl.
        pose proof (cr_err _ _ _ _ _ H Hm) as He. pose proof (cr_exp _ _ _ _ _ H Hm) as Hx.
        unfold fs_error. destruct (nth_error fs id) as [f|] eqn:Hn; [|assumption].
        apply nth_error_In in Hn. rewrite Forall_forall in Hf. specialize (Hf _ Hn).
        assert (Hset : forall x, Forall (fun t => forall r, snd t = Some r -> Nm r) (ei_exp x) ->
                 CR m ok h (set_err x c1) (set_err x c2)).
        { intros x Hxx. apply (CR_err m ok h (fun _ => x)); auto. }
        rewrite <- Hl, <- He.
        set (e1 := if olt _ _ || _ then _ else _).
        assert (He1 : Forall (fun t => forall r, snd t = Some r -> Nm r) (ei_exp e1)).
        { unfold e1. destruct (_ || _); [constructor|assumption]. }
        destruct (fs_first_literal f), (fs_first_rule f) as [fr|]; try assumption;
          (destruct (c_log c1 && _); [|assumption]; apply Hset; apply exp_add; [assumption|]; auto; discriminate).
      - pose proof (cr_log _ _ _ _ _ H) as Hl. rewrite Hm in Hl.
        replace (fs_error fs id pos c2) with c2.
        2:{ unfold fs_error. rewrite Hl. cbn [andb]. destruct (nth_error fs id) as [f|]; [|reflexivity].
            now destruct (fs_first_literal f), (fs_first_rule f). }
        destruct (fs_error_shape fs id pos c1) as [-> | [x ->]]; [assumption|]. now apply CR_err1.
    Qed.
  End Errs.

  (** ** Operators *)
  Definition hdok m (E1 : env1) (h : bool) (o : ope) : Prop := needs_top (e_g E1) o = true -> m_stk m = true \/ h = true.
  Definition simrec (rec1 : @rec_t V1 U1) (rec2 : @rec_t V2 U2) : Prop :=
    forall m E1 E2 h o pos vs1 vs2 c1 c2, ER m E1 E2 -> OK m E1 E2 o -> hdok m E1 h o ->
      VR (m_rg m) vs1 vs2 -> CRE m E1 E2 h c1 c2 ->
      osim (m_log m) (RRE m E1 E2 h) (rec1 E1 o pos vs1 c1) (rec2 E2 o pos vs2 c2).
  Lemma RR_ok m ok h s (n : option nat) vs1 vs2 c1 c2 : VR (m_rg m) vs1 vs2 -> CR m ok h c1 c2 ->
    osim s (RR m ok h) (Ok (n, vs1, c1)) (Ok (n, vs2, c2)).
  Proof. intros. apply os_ok. split; [reflexivity|split]; assumption. Qed.
  Lemma hdok_mono m E1 h o o' : (needs_top (e_g E1) o' = true -> needs_top (e_g E1) o = true) -> hdok m E1 h o -> hdok m E1 h o'.
  Proof. unfold hdok. auto. Qed.
  Lemma word_ER m E1 E2 inp : ER m E1 E2 -> ER (word_mode m) (word_env E1 inp) (word_env E2 inp).
  Proof.
    intros HE. constructor; cbn; try reflexivity; try discriminate; try (intros; discriminate).
    - apply (er_rs _ _ _ HE). - apply (er_g _ _ _ HE). - apply (er_body _ _ _ HE).
    - apply (er_u0 _ _ _ HE). - apply (er_act _ _ _ HE). - apply (er_pred _ _ _ HE). - apply (er_enter _ _ _ HE).
    - apply (er_leave _ _ _ HE). - apply (er_user _ _ _ HE).
  Qed.
  Lemma word_CR m E1 E2 ok h : ER m E1 E2 -> CR (word_mode m) ok h (@word_ctx V1 U1 E1) (@word_ctx V2 U2 E2).
  Proof.
    intros HE. constructor; cbn; auto; try discriminate; try (repeat constructor; fail).
    apply (er_u0 _ _ _ HE).
  Qed.

  Section Ops.
    Variables (rec1 : @rec_t V1 U1) (rec2 : @rec_t V2 U2).
    Hypothesis Hrec : simrec rec1 rec2.
    Hypothesis Hf1 : rec_frame rec1.
    Hypothesis Hf2 : rec_frame rec2.
    Variables (m : mode) (E1 : env1) (E2 : env2).
    Hypothesis HE : ER m E1 E2.
    Notation ok := (okope R Nm (m_plain m) (ha E1 E2)).
    Notation C := (CR m ok).
    Notation SIM h := (osim (m_log m) (RR m ok h)).
    Notation VV := (VR (m_rg m)).

    Lemma inp_eq : e_input E2 = e_input E1. Proof. symmetry. apply (er_input _ _ _ HE). Qed.
    Lemma left_eq pos : left E2 pos = left E1 pos.
    Proof. unfold left, inlen. now rewrite inp_eq. Qed.
    Lemma cut_eq : e_has_cut E2 = e_has_cut E1. Proof. symmetry. apply (er_cut _ _ _ HE). Qed.

    Ltac step := match goal with |- osim _ (RR ?m ?k ?h) _ _ => eapply osim_bindE with (P := RR m k h) end;
      [|intros [[?r ?vs] ?c] [[?r ?vs] ?c] ?Hq1 ?Hq2 (?Hr & ?Hv & ?Hc); cbn [fst snd] in *; subst].

    Lemma s_skip h pos vs1 vs2 c1 c2 : VV vs1 vs2 -> C h c1 c2 ->
      SIM h (skip_whitespace E1 rec1 pos vs1 c1) (skip_whitespace E2 rec2 pos vs2 c2).
    Proof.
      intros Hv Hc. unfold skip_whitespace. rewrite <- (er_ws _ _ _ HE). destruct (e_ws E1) as [w|] eqn:Hw; [|now apply RR_ok].
      rewrite <- (cr_tb _ _ _ _ _ Hc). destruct (0 <? c_tb c1); [now apply RR_ok|].
      destruct (er_ws_ok _ _ _ HE _ Hw) as [Hok Hn].
      step.
      - apply Hrec; auto with sim. intros H. destruct (m_stk m) eqn:Hs; [auto|]. rewrite Hn in H; congruence.
      - apply RR_ok; auto with sim.
    Qed.
    Lemma s_then h pos n vs1 vs2 c1 c2 : VV vs1 vs2 -> C h c1 c2 ->
      SIM h (then_skip E1 rec1 pos n vs1 c1) (then_skip E2 rec2 pos n vs2 c2).
    Proof. intros Hv Hc. unfold then_skip. step; [now apply s_skip|]. now apply RR_ok. Qed.

    Lemma s_not_word w pos : e_word E1 = Some w ->
      osim (m_log m) eq (not_word E1 rec1 w pos) (not_word E2 rec2 w pos).
    Proof.
      intros Hw. unfold not_word. rewrite inp_eq. pose proof (er_word_ok _ _ _ HE _ Hw) as Hok.
      apply (osim_weaken true _ eq eq); auto.
      eapply osim_bindE.
      - apply (Hrec (word_mode m) _ _ false); [now apply word_ER|exact Hok|left; reflexivity|apply VR_new|now apply word_CR].
      - intros [[r vs] c] [[r' vs'] c'] _ _ (Hr & _). cbn in Hr. subst. now constructor.
    Qed.
    Lemma s_is_word w lit : e_word E1 = Some w ->
      osim (m_log m) eq (is_word E1 rec1 w lit) (is_word E2 rec2 w lit).
    Proof.
      intros Hw. unfold is_word. pose proof (er_word_ok _ _ _ HE _ Hw) as Hok.
      apply (osim_weaken true _ eq eq); auto.
      eapply osim_bindE.
      - apply (Hrec (word_mode m) _ _ false); [now apply word_ER|exact Hok|left; reflexivity|apply VR_new|now apply word_CR].
      - intros [[r vs] c] [[r' vs'] c'] _ _ (Hr & _). cbn in Hr. subst. now constructor.
    Qed.

    Lemma s_fail h pos vs1 vs2 c1 c2 lit : VV vs1 vs2 -> C h c1 c2 ->
      SIM h (Ok (None, vs1, set_error_pos E1 pos lit c1)) (Ok (None, vs2, set_error_pos E2 pos lit c2)).
    Proof. intros. apply RR_ok; [assumption|]. now apply CR_error_pos. Qed.

    Lemma s_literal h lit ic pos vs1 vs2 c1 c2 : VV vs1 vs2 -> C h c1 c2 ->
      SIM h (parse_literal E1 rec1 lit ic pos vs1 c1) (parse_literal E2 rec2 lit ic pos vs2 c2).
    Proof.
      intros Hv Hc. unfold parse_literal. rewrite left_eq, inp_eq. apply osim_bindP. intros [] _; [|now apply s_fail].
      eapply osim_bind with (P := eq).
      - rewrite <- (er_word _ _ _ HE). destruct (e_word E1) eqn:Hw; [|now constructor].
        eapply osim_bind with (P := eq); [now apply s_is_word|]. intros a ? <-. destruct a; [now apply s_not_word|now constructor].
      - intros a ? <-. destruct a; [now apply s_then|now apply s_fail].
    Qed.
    Lemma s_dic h t pos vs1 vs2 c1 c2 : VV vs1 vs2 -> C h c1 c2 ->
      SIM h (parse_dic E1 rec1 t pos vs1 c1) (parse_dic E2 rec2 t pos vs2 c2).
    Proof.
      intros Hv Hc. unfold parse_dic, fail_at. rewrite inp_eq. destruct (trie_match _ _) as [i id].
      destruct (i =? 0); [now apply s_fail|]. cbv zeta.
      eapply osim_bind with (P := eq).
      - rewrite <- (er_word _ _ _ HE). destruct (e_word E1) eqn:Hw; [|now constructor]. now apply s_not_word.
      - intros a ? <-. destruct a; [apply s_then|apply s_fail]; auto; now apply VR_choice.
    Qed.
    Lemma s_cls h rs neg ic pos vs1 vs2 c1 c2 : VV vs1 vs2 -> C h c1 c2 ->
      SIM h (parse_cls E1 rs neg ic pos vs1 c1) (parse_cls E2 rs neg ic pos vs2 c2).
    Proof.
      intros Hv Hc. unfold parse_cls, fail_at. rewrite left_eq, inp_eq. destruct (left E1 pos =? 0); [now apply s_fail|].
      apply osim_bindP. intros [len cp] _. apply osim_bindP. intros b _. destruct (xorb b neg); [now apply RR_ok|now apply s_fail].
    Qed.
    Lemma s_chr h ch pos vs1 vs2 c1 c2 : VV vs1 vs2 -> C h c1 c2 ->
      SIM h (parse_chr E1 ch pos vs1 c1) (parse_chr E2 ch pos vs2 c2).
    Proof.
      intros Hv Hc. unfold parse_chr, fail_at. rewrite left_eq, inp_eq. destruct (left E1 pos =? 0); [now apply s_fail|].
      apply osim_bindP. intros [len cp] _. destruct (cp =? ch)%N; [now apply RR_ok|now apply s_fail].
    Qed.
    Lemma s_dot h pos vs1 vs2 c1 c2 : VV vs1 vs2 -> C h c1 c2 ->
      SIM h (parse_dot E1 pos vs1 c1) (parse_dot E2 pos vs2 c2).
    Proof.
      intros Hv Hc. unfold parse_dot, fail_at. rewrite left_eq, inp_eq.
      apply osim_bindP. intros len _. destruct (len <? 1); [now apply s_fail|now apply RR_ok].
    Qed.

    Lemma s_seq_loop h l : okopes R Nm (m_plain m) (ha E1 E2) l -> Forall (hdok m E1 h) l ->
      forall pos i vs1 vs2 c1 c2, VV vs1 vs2 -> C h c1 c2 ->
      SIM h (seq_loop E1 rec1 l pos i vs1 c1) (seq_loop E2 rec2 l pos i vs2 c2).
    Proof.
      induction l as [|o l IH]; intros Ho Hh pos i vs1 vs2 c1 c2 Hv Hc; cbn [seq_loop]; [now apply RR_ok|].
      inv Hh. destruct Ho as [Ho1 Ho2]. step; [now apply Hrec|]. destruct r0; [|now apply RR_ok]. now apply IH.
    Qed.
    Lemma s_kg h kw pos vs1 vs2 c1 c2 : VV vs1 vs2 -> C h c1 c2 ->
      osim (m_log m) (fun x y => match x, y with Some a, Some b => RR m ok h a b | None, None => True | _, _ => False end)
        (parse_keyword_guarded E1 rec1 kw pos vs1 c1) (parse_keyword_guarded E2 rec2 kw pos vs2 c2).
    Proof.
      intros Hv Hc. unfold parse_keyword_guarded. cbv zeta. rewrite left_eq, inp_eq.
      assert (Hfail : RR m ok h (None, vs1, set_error_pos E1 pos None c1) (None, vs2, set_error_pos E2 pos None c2)).
      { split; [reflexivity|split]; cbn; [assumption|now apply CR_error_pos]. }
      destruct (left E1 pos <? 1); [constructor; exact Hfail|]. apply osim_bindP. intros b _.
      destruct (btest _ _); [|constructor; exact Hfail]. apply osim_bindP. intros k _.
      assert (Hgo : osim (m_log m) (fun x y => match x, y with Some a, Some b => RR m ok h a b | None, None => True | _, _ => False end)
        (let* r := then_skip E1 rec1 pos (S k) (if e_recog E1 then vs1 else push_tok (pos, S k) vs1) c1 in Ok (Some r))
        (let* r := then_skip E2 rec2 pos (S k) (if e_recog E2 then vs2 else push_tok (pos, S k) vs2) c2 in Ok (Some r))).
      { eapply osim_bind with (P := RR m ok h); [apply s_then; [now apply VR_tok|assumption]|]. intros a b' Hab. now constructor. }
      destruct (_ && _); [|exact Hgo]. destruct (existsb _ _); [constructor; exact Hfail|].
      destruct (existsb _ _); [now constructor|exact Hgo].
    Qed.
    Lemma s_seq h kg l pos vs1 vs2 c1 c2 : okopes R Nm (m_plain m) (ha E1 E2) l -> Forall (hdok m E1 h) l -> VV vs1 vs2 -> C h c1 c2 ->
      SIM h (parse_seq E1 rec1 kg l pos vs1 c1) (parse_seq E2 rec2 kg l pos vs2 c2).
    Proof.
      intros Ho Hh Hv Hc. unfold parse_seq. destruct kg as [kw|]; [|now apply s_seq_loop].
      eapply osim_bind; [apply (s_kg h); eassumption|]. intros [a|] [b|] H; try contradiction; [now constructor|now apply s_seq_loop].
    Qed.
    Lemma s_cho_loop h fs total l : okopes R Nm (m_plain m) (ha E1 E2) l -> Forall (hdok m E1 h) l ->
      Forall (fun f => forall r, fs_first_rule f = Some r -> Nm r) fs ->
      forall id pos vs1 vs2 c1 c2, VV vs1 vs2 -> C h c1 c2 ->
      SIM h (cho_loop E1 rec1 fs total l id pos vs1 c1) (cho_loop E2 rec2 fs total l id pos vs2 c2).
    Proof.
      intros Ho Hh Hfs. induction l as [|o l IH]; intros id pos vs1 vs2 c1 c2 Hv Hc; cbn [cho_loop]; [now apply RR_ok|].
      inv Hh. destruct Ho as [Ho1 Ho2].
      replace (fs_skip E2 fs id pos) with (fs_skip E1 fs id pos) by (unfold fs_skip; now rewrite left_eq, inp_eq).
      apply osim_bindP. intros [] _.
      - apply IH; auto. now apply CR_fs_error.
      - cbv zeta. rewrite cut_eq.
        assert (Hc1 : C h (if e_has_cut E1 then set_cut_top false c1 else c1) (if e_has_cut E1 then set_cut_top false c2 else c2)).
        { destruct (e_has_cut E1); auto with sim. }
        set (a1 := if e_has_cut E1 then set_cut_top false c1 else c1) in *.
        set (a2 := if e_has_cut E1 then set_cut_top false c2 else c2) in *.
        assert (Hc2 : C h (set_err (err_keep (0 <? id) (c_err a1)) a1) (set_err (err_keep (0 <? id) (c_err a2)) a2)).
        { apply (CR_err m ok h (err_keep (0 <? id))); [|assumption]. apply (cr_exp _ _ _ _ _ Hc1). }
        step; [now apply Hrec|]. destruct r0 as [len|]; [apply RR_ok; [now apply VR_choice|assumption]|].
        match goal with |- context [rollback_c ?a ?b] => set (b1 := rollback_c a b) end.
        match goal with |- context [rollback_c ?a ?b] => set (b2 := rollback_c a b) end.
        assert (Hb : C h b1 b2) by (now apply CR_rollback).
        unfold cut_top. rewrite <- (cr_cut _ _ _ _ _ Hb).
        destruct (e_has_cut E1 && _); [apply RR_ok|apply IH]; auto using VR_rollback.
    Qed.
    Lemma s_cho h fl fs l pos vs1 vs2 c1 c2 : okopes R Nm (m_plain m) (ha E1 E2) l -> Forall (hdok m E1 h) l ->
      Forall (fun f => forall r, fs_first_rule f = Some r -> Nm r) fs -> VV vs1 vs2 -> C h c1 c2 ->
      SIM h (parse_cho E1 rec1 fl fs l pos vs1 c1) (parse_cho E2 rec2 fl fs l pos vs2 c2).
    Proof.
      intros Ho Hh Hfs Hv Hc. unfold parse_cho. rewrite cut_eq. cbv zeta. set (track := e_has_cut E1 && negb fl). step.
      - apply s_cho_loop; auto. destruct track; [|assumption]. rewrite <- (cr_cut _ _ _ _ _ Hc). now apply CR_cut.
      - assert (Hk : C h (set_err (err_keep false (c_err c)) c) (set_err (err_keep false (c_err c0)) c0)).
        { apply (CR_err m ok h (err_keep false)); [|assumption]. apply (cr_exp _ _ _ _ _ Hc0). }
        apply RR_ok; [assumption|]. destruct track; [|assumption].
        pose proof (cr_cut _ _ _ _ _ Hk) as Hcut. cbn in Hcut |- *. rewrite <- Hcut. now apply CR_cut.
    Qed.
    Lemma s_rep_min h e n : ok e -> hdok m E1 h e -> forall pos i vs1 vs2 c1 c2, VV vs1 vs2 -> C h c1 c2 ->
      SIM h (rep_min E1 rec1 e n pos i vs1 c1) (rep_min E2 rec2 e n pos i vs2 c2).
    Proof.
      intros Ho Hh. induction n as [|n IH]; intros pos i vs1 vs2 c1 c2 Hv Hc; cbn [rep_min]; [now apply RR_ok|].
      step; [now apply Hrec|]. destruct r0; [now apply IH|now apply RR_ok].
    Qed.
    Lemma s_rep_more h e fuel : ok e -> hdok m E1 h e -> forall room pos i vs1 vs2 c1 c2, VV vs1 vs2 -> C h c1 c2 ->
      SIM h (rep_more fuel E1 rec1 e room pos i vs1 c1) (rep_more fuel E2 rec2 e room pos i vs2 c2).
    Proof.
      intros Ho Hh. induction fuel as [|fuel IH]; intros room pos i vs1 vs2 c1 c2 Hv Hc; cbn [rep_more];
        (destruct room as [[|k]|]; [now apply RR_ok| |]); try constructor.
      all: (step; [now apply Hrec|]; destruct r0; [now apply IH|apply RR_ok; auto using VR_rollback; now apply CR_rollback]).
    Qed.
    Lemma s_rep h fuel e mn mx span pos vs1 vs2 c1 c2 : ok e -> hdok m E1 h e -> VV vs1 vs2 -> C h c1 c2 ->
      SIM h (parse_rep fuel E1 rec1 e mn mx span pos vs1 c1) (parse_rep fuel E2 rec2 e mn mx span pos vs2 c2).
    Proof.
      intros Ho Hh Hv Hc. unfold parse_rep. destruct span as [s|].
      - rewrite left_eq, inp_eq. cbv zeta. apply osim_bindP. intros i _.
        destruct (i <? mn); [now apply s_fail|now apply RR_ok].
      - step; [now apply s_rep_min|]. destruct r0 as [i|]; [|now apply RR_ok].
        destruct mx as [k|]; [destruct (mn <? k); [|now apply RR_ok]|]; now apply s_rep_more.
    Qed.
    Lemma s_and h e pos vs1 vs2 c1 c2 : ok e -> hdok m E1 h e -> VV vs1 vs2 -> C h c1 c2 ->
      SIM h (parse_and E1 rec1 e pos vs1 c1) (parse_and E2 rec2 e pos vs2 c2).
    Proof.
      intros Ho Hh Hv Hc. unfold parse_and. step; [now apply Hrec|]. apply RR_ok; auto using VR_rollback. now apply CR_rollback.
    Qed.
    Lemma s_not h e pos vs1 vs2 c1 c2 : ok e -> hdok m E1 h e -> VV vs1 vs2 -> C h c1 c2 ->
      SIM h (parse_not E1 rec1 e pos vs1 c1) (parse_not E2 rec2 e pos vs2 c2).
    Proof.
      intros Ho Hh Hv Hc. unfold parse_not. step; [now apply Hrec|]. cbv zeta. destruct r0.
      - apply s_fail; auto using VR_rollback. now apply CR_rollback.
      - apply RR_ok; auto using VR_rollback. now apply CR_rollback.
    Qed.
    Lemma s_csc h e pos vs1 vs2 c1 c2 : ok e -> hdok m E1 h e -> VV vs1 vs2 -> C h c1 c2 ->
      SIM h (parse_csc E1 rec1 e pos vs1 c1) (parse_csc E2 rec2 e pos vs2 c2).
    Proof. intros Ho Hh Hv Hc. unfold parse_csc. step; [now apply Hrec|]. apply RR_ok; auto. now apply CR_rollback. Qed.
    Lemma s_cap h n e pos vs1 vs2 c1 c2 : ok e -> hdok m E1 h e -> VV vs1 vs2 -> C h c1 c2 ->
      SIM h (parse_cap E1 rec1 n e pos vs1 c1) (parse_cap E2 rec2 n e pos vs2 c2).
    Proof.
      intros Ho Hh Hv Hc. unfold parse_cap. step; [now apply Hrec|]. destruct r0; [|now apply RR_ok].
      apply RR_ok; auto. rewrite inp_eq, <- (cr_caps _ _ _ _ _ Hc0). now apply CR_caps.
    Qed.
    Lemma s_bkr h n pos vs1 vs2 c1 c2 : VV vs1 vs2 -> C h c1 c2 ->
      SIM h (parse_bkr E1 rec1 n pos vs1 c1) (parse_bkr E2 rec2 n pos vs2 c2).
    Proof.
      intros Hv Hc. unfold parse_bkr. rewrite <- (cr_caps _ _ _ _ _ Hc). destruct (last_capture _ _); [now apply s_literal|].
      apply RR_ok; auto.
      match goal with |- CR _ _ _ (set_err (err_message ?a ?b ?d _) _) _ => apply (CR_err m ok h (err_message a b d)) end; [|assumption].
      apply (cr_exp _ _ _ _ _ Hc).
    Qed.
    Lemma s_tok h e pos vs1 vs2 c1 c2 : ok e -> hdok m E1 h e -> VV vs1 vs2 -> C h c1 c2 ->
      SIM h (parse_tok E1 rec1 e pos vs1 c1) (parse_tok E2 rec2 e pos vs2 c2).
    Proof.
      intros Ho Hh Hv Hc. unfold parse_tok. cbv zeta. step.
      - apply Hrec; auto. rewrite <- (cr_tb _ _ _ _ _ Hc). auto with sim.
      - rewrite <- (cr_tb _ _ _ _ _ Hc0). destruct r0 as [len|]; [|apply RR_ok; auto with sim].
        step; [apply s_then; [now apply VR_tok|auto with sim]|]. apply RR_ok; auto with sim.
    Qed.
    Lemma s_ign h e pos vs1 vs2 c1 c2 : ok e -> hdok m E1 h e -> VV vs1 vs2 -> C h c1 c2 ->
      SIM h (parse_ign E1 rec1 e pos vs1 c1) (parse_ign E2 rec2 e pos vs2 c2).
    Proof. intros Ho Hh Hv Hc. unfold parse_ign. step; [apply Hrec; auto; apply VR_new|]. now apply RR_ok. Qed.
    Lemma s_wsp h e pos vs1 vs2 c1 c2 : ok e -> hdok m E1 h e -> VV vs1 vs2 -> C h c1 c2 ->
      SIM h (parse_wsp E1 rec1 e pos vs1 c1) (parse_wsp E2 rec2 e pos vs2 c2).
    Proof.
      intros Ho Hh Hv Hc. unfold parse_wsp. rewrite <- (cr_inws _ _ _ _ _ Hc). destruct (c_inws c1); [now apply RR_ok|].
      step; [apply Hrec; auto with sim|]. apply RR_ok; auto with sim.
    Qed.
    Lemma s_usr h id pos vs1 vs2 c1 c2 : m_plain m = false -> VV vs1 vs2 -> C h c1 c2 ->
      SIM h (parse_usr E1 id pos vs1 c1) (parse_usr E2 id pos vs2 c2).
    Proof.
      intros Hp Hv Hc. unfold parse_usr. rewrite inp_eq.
      assert (Hg : m_rg m = false).
      { destruct (m_rg m) eqn:Hg; [|reflexivity]. rewrite (er_plain _ _ _ HE Hg) in Hp. discriminate. }
      rewrite Hg in Hv.
      destruct (er_user _ _ _ HE (e_input E1) id pos vs1 vs2 (c_dt c1) (c_dt c2) Hp Hv (cr_dt _ _ _ _ _ Hc)) as (H1 & H2 & H3).
      destruct (e_user E1 _ _ _ _ _) as [[? ?] ?], (e_user E2 _ _ _ _ _) as [[? ?] ?]. cbn [fst snd] in *. subst.
      apply RR_ok; [now rewrite Hg|]. now apply CR_dt.
    Qed.

    (** ** Rules *)
    Lemma rule_eq r : R r -> nth_error (e_g E2) r = nth_error (e_g E1) r.
    Proof. intros H. symmetry. apply (er_g _ _ _ HE). now apply (er_rs _ _ _ HE). Qed.
    Lemma get_rule_eq r : R r -> get_rule E2 r = get_rule E1 r.
    Proof. intros H. unfold get_rule. now rewrite rule_eq. Qed.

    Lemma CR_restk h h' c1 c2 x1 x2 : C h c1 c2 -> C h' x1 x2 ->
      C h (set_rstk (c_rstk c1) x1) (set_rstk (c_rstk c2) x2).
    Proof. intros [] []. constructor; cbn; auto. Qed.
    Lemma CR_push h r c1 c2 : R r -> C h c1 c2 -> C true (set_rstk (r :: c_rstk c1) c1) (set_rstk (r :: c_rstk c2) c2).
    Proof. intros Hr []. constructor; cbn; auto. intros. now f_equal; auto. Qed.
    Lemma CR_push1 h r c1 c2 : R r -> m_stk m = false -> C h c1 c2 -> C false (set_rstk (r :: c_rstk c1) c1) c2.
    Proof. intros Hr Hs []. constructor; cbn; auto; congruence. Qed.
    Lemma CR_push2 h r c1 c2 : R r -> m_stk m = false -> C h c1 c2 -> C false c1 (set_rstk (r :: c_rstk c2) c2).
    Proof. intros Hr Hs []. constructor; cbn; auto; congruence. Qed.
    Lemma pop_rstk {V U} (b : bool) r (c x : ctx V U) :
      c_rstk x = c_rstk (if b then set_rstk (r :: c_rstk c) c else c) ->
      (if b then set_rstk (tl (c_rstk x)) x else x) = set_rstk (c_rstk c) x.
    Proof. destruct b; cbn; intros H; rewrite ?H; [reflexivity|]. rewrite <- H. symmetry. apply set_rstk_id. Qed.


    Lemma s_body h r d body pos vs1 vs2 c1 c2 : R r -> ok body ->
      (m_stk m = false -> needs_top (e_g E1) body = true -> r_macro_ref d = true) ->
      VV vs1 vs2 -> C h c1 c2 ->
      SIM h (parse_ope_body E1 rec1 r d body pos vs1 c1) (parse_ope_body E2 rec2 r d body pos vs2 c2).
    Proof.
      intros HR Ho Hn Hv Hc. unfold parse_ope_body. cbv zeta.
      set (p1 := e_need_rules E1 || r_macro_ref d). set (p2 := e_need_rules E2 || r_macro_ref d).
      set (a1 := if p1 then set_rstk (r :: c_rstk c1) c1 else c1).
      set (a2 := if p2 then set_rstk (r :: c_rstk c2) c2 else c2).
      assert (Hin : exists h', C h' a1 a2 /\ hdok m E1 h' body).
      { unfold a1, a2. destruct p1 eqn:P1, p2 eqn:P2.
        - exists true. split; [now apply CR_push with (h := h)|]. right. reflexivity.
        - unfold p1, p2 in *. apply orb_false_iff in P2 as [P2 P3]. rewrite P3, orb_false_r in P1.
          destruct (m_stk m) eqn:Hs; [rewrite (er_need _ _ _ HE Hs) in P1; congruence|].
          exists false. split; [now apply CR_push1 with (h := h)|]. intros Hx. rewrite (Hn eq_refl Hx) in P3. discriminate.
        - unfold p1, p2 in *. apply orb_false_iff in P1 as [P1 P3]. rewrite P3, orb_false_r in P2.
          destruct (m_stk m) eqn:Hs; [rewrite (er_need _ _ _ HE Hs) in P1; congruence|].
          exists false. split; [now apply CR_push2 with (h := h)|]. intros Hx. rewrite (Hn eq_refl Hx) in P3. discriminate.
        - exists h. split; [assumption|]. intros Hx. unfold p1 in P1. apply orb_false_iff in P1 as [_ P3].
          destruct (m_stk m) eqn:Hs; [auto|]. rewrite (Hn eq_refl Hx) in P3. discriminate. }
      destruct Hin as (h' & Ha & Hh).
      eapply osim_bindE with (P := fun x y => RR m ok h' x y /\ c_rstk (snd x) = c_rstk a1 /\ c_rstk (snd y) = c_rstk a2).
      - destruct (r_no_whitespace d).
        + rewrite <- (cr_tb _ _ _ _ _ Ha).
          eapply osim_bindE with (P := RR m ok h'); [apply Hrec; auto with sim|].
          intros [[len x1] b1] [[len' x2] b2] Q1 Q2 (Hl & Hxv & Hxc). cbn [fst snd] in *. subst len'.
          pose proof (f_rstk _ _ (Hf1 _ _ _ _ _ _ _ _ Q1)) as F1. pose proof (f_rstk _ _ (Hf2 _ _ _ _ _ _ _ _ Q2)) as F2.
          cbn in F1, F2. rewrite <- (cr_tb _ _ _ _ _ Hxc).
          destruct len as [k|].
          * eapply osim_weaken' with (P := RR m ok h').
            { apply s_then; auto with sim. }
            intros [[? ?] y1] [[? ?] y2] Z1 Z2 HZ. split; [exact HZ|]. cbn.
            apply (frame_then_skip _ Hf1) in Z1. apply (frame_then_skip _ Hf2) in Z2.
            rewrite (f_rstk _ _ Z1), (f_rstk _ _ Z2). auto.
          * constructor. split; [|auto]. split; [reflexivity|]. split; cbn; auto with sim.
        + eapply osim_weaken' with (P := RR m ok h').
          { apply Hrec; auto. }
          intros [[? ?] y1] [[? ?] y2] Z1 Z2 HZ. split; [exact HZ|]. cbn.
          rewrite (f_rstk _ _ (Hf1 _ _ _ _ _ _ _ _ Z1)), (f_rstk _ _ (Hf2 _ _ _ _ _ _ _ _ Z2)). auto.
      - intros [[len x1] b1] [[len' x2] b2] _ _ [(Hl & Hxv & Hxc) [F1 F2]]. cbn [fst snd] in *. subst len'.
        apply RR_ok; [assumption|]. unfold a1, a2 in F1, F2. rewrite (pop_rstk _ _ _ _ F1), (pop_rstk _ _ _ _ F2).
        now apply CR_restk with (h' := h').
    Qed.

    (** The conditional message of a failing rule or predicate. *)
    Lemma CR_msg h (b : bool) pos msg lbl c1 c2 : C h c1 c2 ->
      C h (if c_log c1 && b && olt (ei_mpos (c_err c1)) pos then set_err (err_message pos msg lbl (c_err c1)) c1 else c1)
          (if c_log c2 && b && olt (ei_mpos (c_err c2)) pos then set_err (err_message pos msg lbl (c_err c2)) c2 else c2).
    Proof.
      intros H. destruct (m_log m) eqn:Hm.
      - pose proof (cr_log _ _ _ _ _ H) as Hl. rewrite Hm in Hl. rewrite <- Hl, <- (cr_err _ _ _ _ _ H Hm).
        destruct (_ && _ && _); [|assumption]. rewrite (cr_err _ _ _ _ _ H Hm) at 2.
        apply (CR_err m ok h (err_message pos msg lbl)); [|assumption]. apply (cr_exp _ _ _ _ _ H).
      - pose proof (cr_log _ _ _ _ _ H) as Hl. rewrite Hm in Hl. rewrite Hl. cbn [andb].
        destruct (_ && _ && _); [now apply CR_err1|assumption].
    Qed.
    Lemma sv_token_eq vs1 vs2 : VRs vs1 vs2 -> sv_token E2 vs2 = sv_token E1 vs1.
    Proof. intros []. unfold sv_token. now rewrite inp_eq, vr_toks0, vr_sv0. Qed.

    Notation SIW h := (osim (m_log m) (WR m ok h)).
    Lemma WR_ok h s (n : option nat) v1 v2 c1 c2 : Vr v1 v2 -> C h c1 c2 -> osim s (WR m ok h) (Ok (n, v1, c1)) (Ok (n, v2, c2)).
    Proof. intros. apply os_ok. split; [reflexivity|split]; assumption. Qed.


    Lemma rg_cases : (m_rg m = true /\ (forall a b, Vr a b <-> a = None /\ b = None)) \/ m_rg m = false.
    Proof. destruct (m_rg m) eqn:Hg; [left|now right]. split; [reflexivity|]. now apply (er_rg _ _ _ HE). Qed.

    Lemma s_reduce h r d vs1 vs2 pd1 pd2 c1 c2 : R r -> VV vs1 vs2 -> Vr pd1 pd2 -> C h c1 c2 ->
      Vr (fst (reduce E1 r d vs1 pd1 c1)) (fst (reduce E2 r d vs2 pd2 c2)) /\
      C h (snd (reduce E1 r d vs1 pd1 c1)) (snd (reduce E2 r d vs2 pd2 c2)).
    Proof.
      intros Hr Hv Hp Hc. rewrite !reduce_alt.
      assert (Hfr : Vr (front (v_vals vs1)) (front (v_vals vs2))).
      { eapply VR_front; [|exact Hv]. intros Hg. now apply (er_rg _ _ _ HE). }
      destruct (r_disable_action d); cbn [fst snd]; [auto|].
      destruct rg_cases as [[Hg Hvr]|Hg].
      - destruct (er_rg _ _ _ HE Hg) as [_ Hn]. destruct (Hn r Hr) as [(A1 & _) (A2 & _)].
        unfold act_of. rewrite A1, A2. cbn [fst snd]. split; [assumption|].
        pose proof (cr_prec0 _ _ _ _ _ Hc Hg) as P1. pose proof (cr_prec _ _ _ _ _ Hc) as P2. rewrite P1 in P2.
        rewrite !wrapped_none, !set_prec_id, !set_dt_id by (unfold wrapped; rewrite <- ?P2, ?P1; reflexivity). exact Hc.
      - rewrite Hg in Hv. rewrite inp_eq.
        destruct (er_act _ _ _ HE (e_input E1) r vs1 vs2 (c_dt c1) (c_dt c2) pd1 pd2 Hr Hv (cr_dt _ _ _ _ _ Hc) Hp) as [H1 H2].
        split; [assumption|]. apply CR_dt; [assumption|]. rewrite (sv_token_eq _ _ Hv), <- (cr_prec _ _ _ _ _ Hc). now apply CR_prec.
    Qed.

    Lemma s_do_parse h r d body pos c1 c2 : R r -> ok body ->
      (m_stk m = false -> needs_top (e_g E1) body = true -> r_macro_ref d = true) -> C h c1 c2 ->
      SIW h (do_parse E1 rec1 r d body pos c1) (do_parse E2 rec2 r d body pos c2).
    Proof.
      intros HR Ho Hn Hc. rewrite !do_parse_alt. unfold do_parse'. rewrite inp_eq.
      eapply osim_bindE with (P := RR m ok h).
      { apply s_body; auto; [apply VR_new|]. apply CR_dt; [|assumption]. apply (er_enter _ _ _ HE); [assumption|]. apply (cr_dt _ _ _ _ _ Hc). }
      intros [[len x1] b1] [[len' x2] b2] _ _ (Hl & Hxv & Hxc). cbn [fst snd] in *. subst len'.
      match goal with |- osim _ _ (let '(_, _) := ?x in _) (let '(_, _) := ?y in _) =>
        assert (Hmid : WR m ok h x y); [|destruct x as [[l1 v1] d1], y as [[l2 v2] d2]] end.
      { destruct len as [k|].
        - cbv zeta.
          set (y1 := if is_choice_like _ then _ else set_choice 0 0 (set_name (Some r) (set_span (pos, k) x1))).
          set (y2 := if is_choice_like _ then _ else set_choice 0 0 (set_name (Some r) (set_span (pos, k) x2))).
          assert (Hy : VV y1 y2).
          { unfold y1, y2. destruct (is_choice_like _); [|apply VR_choice]; now apply VR_name, VR_span. }
          assert (Hpr : exists b msg p1 p2, pred_of E1 r (e_input E1) y1 (c_dt b1) = (b, msg, p1) /\
                        pred_of E2 r (e_input E1) y2 (c_dt b2) = (b, msg, p2) /\ Vr p1 p2).
          { destruct rg_cases as [[Hg Hvr]|Hg].
            - destruct (er_rg _ _ _ HE Hg) as [_ Hnn]. destruct (Hnn r HR) as [(_ & A1 & _) (_ & A2 & _)].
              unfold pred_of. rewrite A1, A2. exists true, [], None, None. auto.
            - rewrite Hg in Hy. destruct (er_pred _ _ _ HE (e_input E1) r y1 y2 _ _ HR Hy (cr_dt _ _ _ _ _ Hxc)) as [H1 H2].
              destruct (pred_of E1 _ _ _ _) as [[b msg] p1], (pred_of E2 _ _ _ _) as [[b' msg'] p2]. cbn in *. inv H1. eauto 10. }
          destruct Hpr as (b & msg & p1 & p2 & -> & -> & Hp).
          destruct b.
          + rewrite <- (cr_rcv _ _ _ _ _ Hxc). destruct (c_rcv b1); [split; [reflexivity|split]; auto|].
            destruct (s_reduce h r d y1 y2 p1 p2 b1 b2 HR Hy Hp Hxc) as [H1 H2].
            destruct (reduce E1 _ _ _ _ _) as [w1 e1], (reduce E2 _ _ _ _ _) as [w2 e2]. split; [reflexivity|split]; auto.
          + split; [reflexivity|split]; cbn [fst snd]; auto. now apply CR_msg.
        - split; [reflexivity|split]; cbn [fst snd]; auto. rewrite <- (cr_caps _ _ _ _ _ Hxc). now apply CR_msg. }
      destruct Hmid as (Hl & Hw & Hd). cbn [fst snd] in *. subst l2.
      destruct (er_leave _ _ _ HE (e_input E1) r pos l1 v1 v2 _ _ HR Hw (cr_dt _ _ _ _ _ Hd)) as [H1 H2].
      destruct (leave_of E1 _ _ _ _ _ _) as [w1 u1], (leave_of E2 _ _ _ _ _ _) as [w2 u2]. cbn [fst snd] in *.
      apply WR_ok; [assumption|]. now apply CR_dt.
    Qed.

    (** ** Tables *)
    Notation LR := (Forall2 (fun (x : lrkey * (option nat * option V1)) (y : lrkey * (option nat * option V2)) =>
      fst x = fst y /\ fst (snd x) = fst (snd y) /\ Vr (snd (snd x)) (snd (snd y)))).
    Lemma lr_filter (f : lrkey -> bool) l1 l2 : LR l1 l2 -> LR (filter (fun p => f (fst p)) l1) (filter (fun p => f (fst p)) l2).
    Proof.
      induction 1 as [|x y l l' (Hk & Hx) Hl IH]; cbn; [constructor|]. rewrite <- Hk. destruct (f (fst x)); [|assumption]. constructor; auto.
    Qed.
    Lemma lr_find_rel l1 l2 k : LR l1 l2 ->
      match lr_find l1 k, lr_find l2 k with
      | Some a, Some b => fst a = fst b /\ Vr (snd a) (snd b)
      | None, None => True
      | _, _ => False
      end.
    Proof.
      unfold lr_find. induction 1 as [|x y l l' (Hk & Hx) Hl IH]; cbn; [exact Logic.I|]. rewrite <- Hk.
      destruct (key_eqb (fst x) k); [assumption|exact IH].
    Qed.
    Lemma lr_erase_rel k l1 l2 : LR l1 l2 -> LR (lr_erase k l1) (lr_erase k l2).
    Proof. apply (lr_filter (fun q => negb (key_eqb q k))). Qed.
    Lemma lr_set_rel k n v1 v2 l1 l2 : Vr v1 v2 -> LR l1 l2 -> LR (lr_set k (n, v1) l1) (lr_set k (n, v2) l2).
    Proof. intros Hv Hl. constructor; [cbn; auto|]. now apply lr_erase_rel. Qed.
    Lemma CR_clear_cycle h pos r cyc c1 c2 : C h c1 c2 -> C h (clear_cycle pos r cyc c1) (clear_cycle pos r cyc c2).
    Proof.
      intros H. unfold clear_cycle. apply CR_lrm; [|assumption]. rewrite <- (cr_acts _ _ _ _ _ H).
      apply (lr_filter (fun q => negb ((snd q =? pos) && negb (fst q =? r) && existsb (Nat.eqb (fst q)) cyc && negb (existsb (key_eqb q) (c_acts c1))))).
      apply (cr_lrm _ _ _ _ _ H).
    Qed.
    Lemma idx_eq slot pos : pk_idx E2 slot pos = pk_idx E1 slot pos.
    Proof. unfold pk_idx. now rewrite (er_cached _ _ _ HE). Qed.
    Lemma size_eq : pk_size E2 = pk_size E1.
    Proof. unfold pk_size, inlen. now rewrite inp_eq, (er_cached _ _ _ HE). Qed.
    Lemma CR_clear h pos r c1 c2 : R r -> C h c1 c2 -> C h (clear_packrat_cache E1 pos r c1) (clear_packrat_cache E2 pos r c2).
    Proof.
      intros HR H. unfold clear_packrat_cache. rewrite <- (er_packrat _ _ _ HE). destruct (e_packrat E1); [|assumption].
      rewrite <- (er_slot _ _ _ HE) by assumption. destruct (e_slot E1 r) as [slot|]; [|assumption]. cbv zeta.
      rewrite idx_eq, size_eq. apply CR_pkv.
      - intros k. rewrite !nfind_nerase. destruct (k =? _); [assumption|].
        destruct (_ <? _); cbn; apply (cr_pkv _ _ _ _ _ H).
      - destruct (_ <? _); [|assumption]. rewrite <- (cr_pkr _ _ _ _ _ H). now apply CR_pkr.
    Qed.
    Lemma CR_write h pos r len v1 v2 c1 c2 : R r -> Vr v1 v2 -> C h c1 c2 ->
      C h (write_packrat_cache E1 pos r len v1 c1) (write_packrat_cache E2 pos r len v2 c2).
    Proof.
      intros HR Hv H. unfold write_packrat_cache. rewrite <- (er_packrat _ _ _ HE). destruct (e_packrat E1); [|assumption].
      rewrite <- (er_slot _ _ _ HE) by assumption. destruct (e_slot E1 r) as [slot|]; [|assumption]. cbv zeta.
      rewrite idx_eq, size_eq. destruct (_ <? _); [|assumption]. rewrite <- (cr_pkr _ _ _ _ _ H).
      destruct (_ <? _)%N; [now apply CR_pkr|].
      assert (Hk : forall (b1 : ctx1) (b2 : ctx2), C h b1 b2 ->
        C h (match v1 with Some v => set_pkv (nset (pk_idx E1 slot pos) v (c_pkv b1)) b1
                         | None => set_pkv (nerase (pk_idx E1 slot pos) (c_pkv b1)) b1 end)
            (match v2 with Some v => set_pkv (nset (pk_idx E1 slot pos) v (c_pkv b2)) b2
                         | None => set_pkv (nerase (pk_idx E1 slot pos) (c_pkv b2)) b2 end)).
      { intros b1 b2 Hb. pose proof (cr_pkv _ _ _ _ _ Hb) as Hp.
        destruct v1, v2; (apply CR_pkv; [|assumption]); intros k; rewrite ?nfind_nset, ?nfind_nerase; destruct (k =? _); auto. }
      apply Hk. now apply CR_pkr.
    Qed.
    Definition fnsim h (fn1 : ctx1 -> outcome (option nat * option V1 * ctx1)) (fn2 : ctx2 -> outcome (option nat * option V2 * ctx2)) : Prop :=
      forall c1 c2, C h c1 c2 -> SIW h (fn1 c1) (fn2 c2).
    Ltac wstep := match goal with |- osim _ (WR ?m ?k ?h) _ _ => eapply osim_bindE with (P := WR m k h) end;
      [|intros [[?r ?vs] ?c] [[?r ?vs] ?c] ?Hq1 ?Hq2 (?Hr & ?Hv & ?Hc); cbn [fst snd] in *; subst].
    Lemma s_packrat h pos r fn1 fn2 c1 c2 : R r -> fnsim h fn1 fn2 -> C h c1 c2 ->
      SIW h (packrat E1 pos r fn1 c1) (packrat E2 pos r fn2 c2).
    Proof.
      intros HR Hfn Hc. unfold packrat. rewrite <- (er_slot _ _ _ HE) by assumption.
      destruct (e_slot E1 r) as [slot|].
      - cbv zeta. rewrite idx_eq, size_eq. destruct (_ <? _); [|constructor].
        rewrite <- (cr_pkr _ _ _ _ _ Hc). destruct (nfind (c_pkr c1) _) as [[len|]|].
        + apply WR_ok; [|assumption]. apply (cr_pkv _ _ _ _ _ Hc).
        + now apply WR_ok.
        + wstep; [apply Hfn; auto with sim|]. apply WR_ok; [assumption|]. destruct r1; [|assumption]. now apply CR_write.
      - rewrite <- (cr_actp _ _ _ _ _ Hc). destruct (nfind (c_actp c1) r) as [p|].
        + destruct (p =? pos); [now apply WR_ok|].
          wstep; [apply Hfn; auto with sim|]. apply WR_ok; [assumption|]. rewrite <- (cr_actp _ _ _ _ _ Hc0). auto with sim.
        + wstep; [apply Hfn; auto with sim|]. apply WR_ok; [assumption|]. rewrite <- (cr_actp _ _ _ _ _ Hc0). auto with sim.
    Qed.
    Lemma s_guard h pos r fn1 fn2 c1 c2 : fnsim h fn1 fn2 -> C h c1 c2 ->
      SIW h (guard pos r fn1 c1) (guard pos r fn2 c2).
    Proof.
      intros Hfn Hc. unfold guard. pose proof (lr_find_rel _ _ (r, pos) (cr_lrm _ _ _ _ _ Hc)) as Hl.
      destruct (lr_find (c_lrm c1) _), (lr_find (c_lrm c2) _); try contradiction; [now apply WR_ok|].
      wstep.
      - apply Hfn. apply CR_lrm; [|assumption]. apply lr_set_rel; [assumption|]. apply (cr_lrm _ _ _ _ _ Hc).
      - apply WR_ok; [assumption|]. apply CR_lrm; [|assumption]. apply lr_erase_rel. apply (cr_lrm _ _ _ _ _ Hc0).
    Qed.
    Lemma s_grow h r d body cyc pos : R r -> ok body ->
      (m_stk m = false -> needs_top (e_g E1) body = true -> r_macro_ref d = true) ->
      forall fuel len v1 v2 c1 c2, Vr v1 v2 -> C h c1 c2 ->
      osim (m_log m) (fun x y => fst (fst x) = fst (fst y) /\ Vr (snd (fst x)) (snd (fst y)) /\ C h (snd x) (snd y))
        (lr_grow fuel E1 rec1 r d body cyc pos len v1 c1) (lr_grow fuel E2 rec2 r d body cyc pos len v2 c2).
    Proof.
      intros HR Ho Hn. induction fuel as [|fuel IH]; intros len v1 v2 c1 c2 Hv Hc; cbn [lr_grow]; [constructor|]. cbv zeta.
      eapply osim_bindE with (P := WR m ok h).
      - apply s_do_parse; auto. apply CR_clear_cycle. now apply CR_clear.
      - intros [[nl w1] b1] [[nl' w2] b2] _ _ (Hl & Hw & Hb). cbn [fst snd] in *. subst nl'.
        destruct nl as [k|]; [|now constructor]. destruct (k <=? len); [now constructor|].
        apply IH; auto. apply CR_lrm; [|assumption]. apply lr_set_rel; [assumption|]. apply (cr_lrm _ _ _ _ _ Hb).
    Qed.
    Lemma s_lr h fuel r d body pos c1 c2 : R r -> ok body ->
      (m_stk m = false -> needs_top (e_g E1) body = true -> r_macro_ref d = true) -> C h c1 c2 ->
      SIW h (parse_lr fuel E1 rec1 r d body pos c1) (parse_lr fuel E2 rec2 r d body pos c2).
    Proof.
      intros HR Ho Hn Hc. unfold parse_lr. cbv zeta. pose proof (lr_find_rel _ _ (r, pos) (cr_lrm _ _ _ _ _ Hc)) as Hl.
      rewrite <- (cr_hits _ _ _ _ _ Hc), <- (cr_acts _ _ _ _ _ Hc).
      destruct (lr_find (c_lrm c1) _) as [[l1 w1]|], (lr_find (c_lrm c2) _) as [[l2 w2]|]; try contradiction.
      { cbn [fst snd] in Hl. destruct Hl as [<- Hl]. destruct l1; apply WR_ok; auto with sim. }
      wstep.
      - apply s_do_parse; auto. apply CR_hits, CR_acts, CR_lrm; [|assumption]. apply lr_set_rel; [assumption|]. apply (cr_lrm _ _ _ _ _ Hc).
      - rewrite <- (cr_hits _ _ _ _ _ Hc0). set (cyc := match c_hits c with [] => [] | h => rid_add r h end).
        assert (Hc3 : C h (set_hits (fold_right rid_add (c_hits c1) cyc) c) (set_hits (fold_right rid_add (c_hits c1) cyc) c0)) by auto with sim.
        destruct r1 as [len0|].
        + eapply osim_bindE with (P := fun x y => fst (fst x) = fst (fst y) /\ Vr (snd (fst x)) (snd (fst y)) /\ C h (snd x) (snd y)).
          * apply s_grow; auto. apply CR_lrm; [|assumption]. apply lr_set_rel; [assumption|]. apply (cr_lrm _ _ _ _ _ Hc3).
          * intros [[n w1] b1] [[n' w2] b2] _ _ (Hl1 & Hw & Hb). cbn [fst snd] in *. subst n'.
            apply WR_ok; [assumption|].
            assert (Hw' : C h (write_packrat_cache E1 pos r n w1 b1) (write_packrat_cache E2 pos r n w2 b2)) by now apply CR_write.
            rewrite <- (cr_acts _ _ _ _ _ Hw'). now apply CR_acts.
        + apply WR_ok; [assumption|]. pose proof (cr_acts _ _ _ _ _ Hc3) as Ha. cbn in Ha |- *. rewrite <- Ha. now apply CR_acts.
    Qed.

    Lemma body_macro r d body : R r -> nth_error (e_g E1) r = Some d -> r_body d = Some body -> r_is_macro d = false ->
      m_stk m = false -> needs_top (e_g E1) body = true -> r_macro_ref d = true.
    Proof. intros HR Hd Hb Hm Hs Hn. destruct (er_macro _ _ _ HE Hs _ _ _ HR Hd Hb Hn); congruence. Qed.

    (** Values on one side, recognizer on the other. *)
    Lemma s_do_recog h r d body pos vs2 c1 c2 : R r -> ok body -> m_rg m = true ->
      (m_stk m = false -> needs_top (e_g E1) body = true -> r_macro_ref d = true) ->
      Forall (fun v => v = None) (v_vals vs2) -> C h c1 c2 ->
      osim (m_log m) (fun x y => fst (fst x) = fst (fst y) /\ snd (fst x) = None /\
          Forall (fun v => v = None) (v_vals (snd (fst y))) /\ C h (snd x) (snd y))
        (do_parse E1 rec1 r d body pos c1) (parse_ope_body E2 rec2 r d body pos vs2 c2).
    Proof.
      intros HR Ho Hg Hn Hv Hc. rewrite do_parse_alt. unfold do_parse'.
      destruct (er_rg _ _ _ HE Hg) as [Hvr Hnn]. destruct (Hnn r HR) as [(A1 & A2 & A3 & A4) _].
      unfold enter_of, leave_of, pred_of. rewrite A2, A3, A4, set_dt_id.
      eapply osim_mapl.
      { apply (s_body h); auto. rewrite Hg. cbn. split; [constructor|exact Hv]. }
      intros [[len x1] b1] [[len' x2] b2] (Hl & Hxv & Hxc). cbn [fst snd] in *. subst len'. rewrite Hg in Hxv. cbn in Hxv. destruct Hxv as [Hx1 Hx2].
      destruct len as [k|]; cbv zeta.
      - destruct (c_rcv b1).
        + eexists. split; [reflexivity|]. cbn [fst snd]. rewrite set_dt_id. auto.
        + rewrite reduce_alt. unfold act_of. rewrite A1. cbn [fst snd].
          assert (Hfr : forall b, front (v_vals (if b : bool then set_name (Some r) (set_span (pos, k) x1)
                    else set_choice 0 0 (set_name (Some r) (set_span (pos, k) x1)))) = None).
          { intros b. destruct b; cbn; destruct Hx1; auto. }
          pose proof (cr_prec0 _ _ _ _ _ Hxc Hg) as P1.
          rewrite !wrapped_none, !set_prec_id, !set_dt_id by (unfold wrapped; rewrite P1; reflexivity).
          destruct (r_disable_action d); (eexists; split; [reflexivity|]); cbn [fst snd]; rewrite set_dt_id; auto.
      - eexists. split; [reflexivity|]. cbn [fst snd]. rewrite set_dt_id. split; [reflexivity|]. split; [reflexivity|]. split; [assumption|].
        set (q := negb _). destruct (c_log b1 && q && _) eqn:Hlog; [|assumption].
        apply andb_prop in Hlog as [Hlog _]. apply andb_prop in Hlog as [Hlog _].
        pose proof (cr_log _ _ _ _ _ Hxc) as HL. destruct (m_log m) eqn:Hm; [|now apply CR_err1].
        rewrite (cr_rglog _ _ _ _ _ Hxc Hg) in HL. congruence.
    Qed.

    Lemma s_hld h fuel r pos vs1 vs2 c1 c2 : R r -> VV vs1 vs2 -> C h c1 c2 ->
      SIM h (parse_hld fuel E1 rec1 r pos vs1 c1) (parse_hld fuel E2 rec2 r pos vs2 c2).
    Proof.
      intros HR Hv Hc. unfold parse_hld. rewrite (get_rule_eq r HR). unfold get_rule.
      destruct (nth_error (e_g E1) r) as [d|] eqn:Hd; [|constructor]. cbn [bind].
      destruct (r_body d) as [body|] eqn:Hb; [|constructor].
      pose proof (er_body _ _ _ HE _ _ _ HR Hd Hb) as Ho.
      destruct (r_is_macro d) eqn:Hm.
      { destruct (r_lr d); [constructor|].
        eapply osim_bindE with (P := RR m ok true).
        - apply Hrec; auto; [intros _; now right|]. now apply CR_push with (h := h).
        - intros [[len x1] b1] [[len' x2] b2] Q1 Q2 (Hl & Hxv & Hxc). cbn [fst snd] in *. subst len'. apply RR_ok; [assumption|].
          pose proof (f_rstk _ _ (Hf1 _ _ _ _ _ _ _ _ Q1)) as F1. pose proof (f_rstk _ _ (Hf2 _ _ _ _ _ _ _ _ Q2)) as F2.
          cbn in F1, F2. rewrite F1, F2. cbn [tl]. now apply CR_restk with (h' := true). }
      pose proof (body_macro r d body HR Hd Hb Hm) as Hn.
      assert (Hgen : SIM h
        (let* (len, val, c') := (if r_lr d then parse_lr fuel E1 rec1 r d body pos c1
           else if e_packrat E1 then packrat E1 pos r (do_parse E1 rec1 r d body pos) c1
           else guard pos r (do_parse E1 rec1 r d body pos) c1) in
         match len with
         | Some k => Ok (Some k, if negb (r_ignore d) && negb (e_recog E1) then push_val val (str2tag (r_name d)) vs1 else vs1, c')
         | None => Ok (None, vs1, c')
         end)
        (let* (len, val, c') := (if r_lr d then parse_lr fuel E2 rec2 r d body pos c2
           else if e_packrat E2 then packrat E2 pos r (do_parse E2 rec2 r d body pos) c2
           else guard pos r (do_parse E2 rec2 r d body pos) c2) in
         match len with
         | Some k => Ok (Some k, if negb (r_ignore d) && negb (e_recog E2) then push_val val (str2tag (r_name d)) vs2 else vs2, c')
         | None => Ok (None, vs2, c')
         end)).
      { eapply osim_bindE with (P := WR m ok h).
        - assert (Hfn : fnsim h (do_parse E1 rec1 r d body pos) (do_parse E2 rec2 r d body pos)) by (intros b1 b2 Hbc; now apply s_do_parse).
          rewrite <- (er_packrat _ _ _ HE).
          destruct (r_lr d); [now apply s_lr|]. destruct (e_packrat E1); [now apply s_packrat|now apply s_guard].
        - intros [[len w1] b1] [[len' w2] b2] _ _ (Hl & Hw & Hbc). cbn [fst snd] in *. subst len'.
          destruct len; apply RR_ok; auto. now apply VR_push. }
      pose proof (er_recog _ _ _ HE) as Hrg. destruct (m_rg m) eqn:Hg.
      - destruct Hrg as [G1 G2]. rewrite G1, G2. cbn [andb].
        destruct (r_lr d) eqn:Hlr; [rewrite G1, G2 in Hgen; exact Hgen|]. cbn [negb].
        clear Hgen. destruct Hv as [Hv1 Hv2]. rewrite <- (er_packrat _ _ _ HE).
        assert (Hpv : forall (v : option V1), v = None -> Forall (fun v => v = None)
           (v_vals (if negb (r_ignore d) && true then push_val v (str2tag (r_name d)) vs1 else vs1))).
        { intros v ->. destruct (_ && _); [|assumption]. cbn. apply Forall_app. auto. }
        destruct (er_rg _ _ _ HE Hg) as [Hvr _].
        assert (Hrr : forall (n : option nat) (v : option V1) (x2 : sv V2) (b1 : ctx1) (b2 : ctx2), v = None -> Forall (fun v => v = None) (v_vals x2) -> C h b1 b2 ->
          RR m ok h (match n with Some k => (Some k, if negb (r_ignore d) && true then push_val v (str2tag (r_name d)) vs1 else vs1, b1)
                     | None => (None, vs1, b1) end) (n, x2, b2)).
        { intros n v x2 b1 b2 Hvn Hx Hb12. destruct n; (split; [reflexivity|split]); cbn [fst snd]; auto; rewrite Hg; cbn; auto. }
        assert (Hfold : forall (x : outcome (option nat * option V1 * ctx1)),
          (let* (len, val, c') := x in
           match len with
           | Some k => Ok (Some k, if negb (r_ignore d) && true then push_val val (str2tag (r_name d)) vs1 else vs1, c')
           | None => Ok (None, vs1, c')
           end) =
          (let* (len, val, c') := x in
           Ok (match len with
           | Some k => (Some k, if negb (r_ignore d) && true then push_val val (str2tag (r_name d)) vs1 else vs1, c')
           | None => (None, vs1, c')
           end))).
        { intros [[[[k|] v] c]| | |]; reflexivity. }
        rewrite Hfold. clear Hfold.
        destruct (e_packrat E1).
        + unfold packrat. rewrite <- (er_slot _ _ _ HE) by assumption. destruct (e_slot E1 r) as [slot|].
          * cbv zeta. rewrite idx_eq, size_eq. destruct (_ <? _); [|constructor].
            rewrite <- (cr_pkr _ _ _ _ _ Hc). destruct (nfind (c_pkr c1) _) as [[len|]|]; cbn [bind].
            -- constructor. apply (Hrr (Some len)); auto. pose proof (cr_pkv _ _ _ _ _ Hc (pk_idx E1 slot pos)) as Hp. apply Hvr in Hp. apply Hp.
            -- constructor. apply (Hrr None None); auto.
            -- rewrite bind_assoc. eapply osim_bindE; [apply (s_do_recog h); auto with sim|].
               intros [[len w1] b1] [[len' x2] b2] _ _ (Hl & Hw & Hx & Hbc). cbn [fst snd bind] in *. subst len' w1.
               constructor. apply (Hrr len None); auto. destruct len; [|assumption]. apply CR_write; auto.
          * rewrite <- (cr_actp _ _ _ _ _ Hc). destruct (nfind (c_actp c1) r) as [p|].
            -- destruct (p =? pos); [constructor; apply (Hrr None None); auto|].
               rewrite bind_assoc. eapply osim_bindE; [apply (s_do_recog h); auto with sim|].
               intros [[len w1] b1] [[len' x2] b2] _ _ (Hl & Hw & Hx & Hbc). cbn [fst snd bind] in *. subst len' w1.
               constructor. apply (Hrr len None); auto. rewrite <- (cr_actp _ _ _ _ _ Hbc). auto with sim.
            -- rewrite bind_assoc. eapply osim_bindE; [apply (s_do_recog h); auto with sim|].
               intros [[len w1] b1] [[len' x2] b2] _ _ (Hl & Hw & Hx & Hbc). cbn [fst snd bind] in *. subst len' w1.
               constructor. apply (Hrr len None); auto. rewrite <- (cr_actp _ _ _ _ _ Hbc). auto with sim.
        + unfold guard. pose proof (lr_find_rel _ _ (r, pos) (cr_lrm _ _ _ _ _ Hc)) as Hl.
          destruct (lr_find (c_lrm c1) _), (lr_find (c_lrm c2) _); try contradiction; [constructor; apply (Hrr None None); auto|].
          rewrite bind_assoc. eapply osim_bindE.
          { apply (s_do_recog h); auto. apply CR_lrm; [|assumption]. apply lr_set_rel; [assumption|]. apply (cr_lrm _ _ _ _ _ Hc). }
          intros [[len w1] b1] [[len' x2] b2] _ _ (Hl' & Hw & Hx & Hbc). cbn [fst snd bind] in *. subst len' w1.
          constructor. apply (Hrr len None); auto. apply CR_lrm; [|assumption]. apply lr_erase_rel. apply (cr_lrm _ _ _ _ _ Hbc).
      - rewrite Hrg in Hgen |- *. destruct (e_recog E2 && negb (r_lr d)) eqn:Hfast; [|exact Hgen].
        clear Hgen. rewrite <- (er_packrat _ _ _ HE). destruct (e_packrat E1).
        + rewrite <- (er_slot _ _ _ HE) by assumption. destruct (e_slot E1 r) as [slot|].
          * cbv zeta. rewrite idx_eq, size_eq. destruct (_ <? _); [|constructor].
            rewrite <- (cr_pkr _ _ _ _ _ Hc). destruct (nfind (c_pkr c1) _) as [len|]; [apply RR_ok; [now rewrite Hg|assumption]|].
            step; [apply s_body; auto with sim; now rewrite Hg|]. apply RR_ok; [assumption|]. destruct r1; [|assumption]. now apply CR_write.
          * rewrite <- (cr_actp _ _ _ _ _ Hc). destruct (nfind (c_actp c1) r) as [p|].
            -- destruct (p =? pos); [apply RR_ok; [now rewrite Hg|assumption]|].
               step; [apply s_body; auto with sim; now rewrite Hg|]. apply RR_ok; [assumption|]. rewrite <- (cr_actp _ _ _ _ _ Hc0). auto with sim.
            -- step; [apply s_body; auto with sim; now rewrite Hg|]. apply RR_ok; [assumption|]. rewrite <- (cr_actp _ _ _ _ _ Hc0). auto with sim.
        + pose proof (lr_find_rel _ _ (r, pos) (cr_lrm _ _ _ _ _ Hc)) as Hl.
          destruct (lr_find (c_lrm c1) _), (lr_find (c_lrm c2) _); try contradiction; [apply RR_ok; [now rewrite Hg|assumption]|].
          step.
          -- apply s_body; auto; [now rewrite Hg|]. apply CR_lrm; [|assumption]. apply lr_set_rel; [assumption|]. apply (cr_lrm _ _ _ _ _ Hc).
          -- apply RR_ok; [assumption|]. apply CR_lrm; [|assumption]. apply lr_erase_rel. apply (cr_lrm _ _ _ _ _ Hc0).
    Qed.

    Lemma top_args_eq h c1 c2 : C h c1 c2 -> top_args c2 = top_args c1 /\ okopes R Nm (m_plain m) (ha E1 E2) (top_args c1).
    Proof.
      intros H. unfold top_args. rewrite <- (cr_args _ _ _ _ _ H). split; [reflexivity|].
      destruct (cr_okargs _ _ _ _ _ H); [exact Logic.I|assumption].
    Qed.
    Lemma s_dispatch h rl iarg args pos vs1 vs2 c1 c2 : 
      match rl with Some r => R r /\ okopes R Nm (m_plain m) (ha E1 E2) args | None => True end -> (forall n mc, hdok m E1 h (Ref n rl iarg mc args)) -> VV vs1 vs2 -> C h c1 c2 ->
      SIM h (parse_dispatch E1 rec1 rl iarg args pos vs1 c1) (parse_dispatch E2 rec2 rl iarg args pos vs2 c2).
    Proof.
      intros HR Hh Hv Hc. unfold parse_dispatch. destruct (top_args_eq _ _ _ Hc) as [Ht Hto]. destruct rl as [r|].
      - destruct HR as [HR Ho]. rewrite (get_rule_eq r HR). unfold get_rule.
        destruct (nth_error (e_g E1) r) as [d|] eqn:Hd; [|constructor]. cbn [bind].
        destruct (r_is_macro d) eqn:Hm.
        + specialize (Hh [] false). unfold hdok in Hh. cbn [needs_top] in Hh. rewrite Hd, Hm in Hh. cbn [orb] in Hh. specialize (Hh eq_refl).
          assert (Hhd : hd_error (c_rstk c1) = hd_error (c_rstk c2)).
          { destruct Hh as [Hs|Hs]; [now rewrite (cr_stk _ _ _ _ _ Hc Hs)|now apply (cr_hd _ _ _ _ _ Hc)]. }
          pose proof (cr_R _ _ _ _ _ Hc) as HRs.
          destruct (c_rstk c1) as [|top rs], (c_rstk c2) as [|top' rs']; try discriminate; [constructor|].
          inv Hhd. inv HRs. rewrite (rule_eq top') by assumption. destruct (nth_error (e_g E1) top') as [td|]; [|constructor]. cbn [bind].
          rewrite Ht. apply osim_bindP. intros args' Ha. destruct (r_lr d); [constructor|].
          step.
          * apply Hrec; auto; [discriminate|]. apply CR_args_push; [|assumption]. eapply okopes_subst; eauto.
          * apply RR_ok; auto with sim.
        + rewrite <- (er_packrat _ _ _ HE). destruct (_ && _ && _).
          * apply Hrec; auto. discriminate.
          * step; [apply Hrec; auto; [discriminate|]; apply CR_args_push; [exact Logic.I|assumption]|]. apply RR_ok; auto with sim.
      - rewrite Ht. destruct (nth_error (top_args c1) iarg) as [a|] eqn:Ha; [|constructor].
        apply Hrec; auto; [eapply okopes_nth; eauto|]. intros _. apply (Hh [] false). reflexivity.
    Qed.
    Lemma s_ref h rl iarg args pos vs1 vs2 c1 c2 : 
      match rl with Some r => R r /\ okopes R Nm (m_plain m) (ha E1 E2) args | None => True end -> (forall n mc, hdok m E1 h (Ref n rl iarg mc args)) -> VV vs1 vs2 -> C h c1 c2 ->
      SIM h (parse_ref E1 rec1 rl iarg args pos vs1 c1) (parse_ref E2 rec2 rl iarg args pos vs2 c2).
    Proof.
      intros HR Hh Hv Hc. unfold parse_ref. cbv zeta.
      set (i1 := match rl with Some r => match nth_error (e_g E1) r with Some d => r_ignore d | None => false end | None => false end).
      set (i2 := match rl with Some r => match nth_error (e_g E2) r with Some d => r_ignore d | None => false end | None => false end).
      destruct (e_tracer E1), (e_tracer E2).
      - step; [apply s_dispatch; auto; destruct i1, i2; auto with sim|]. apply RR_ok; auto with sim.
      - eapply osim_mapl with (P := RR m ok h); [apply s_dispatch; auto; destruct i1; auto with sim|].
        intros [[a x1] b1] [[b x2] b2] (E & Hx & Hb). cbn in *. subst. eexists. split; [reflexivity|]. split; [reflexivity|split]; cbn; auto with sim.
      - eapply osim_mapr with (P := RR m ok h); [apply s_dispatch; auto; destruct i2; auto with sim|].
        intros [[a x1] b1] [[b x2] b2] (E & Hx & Hb). cbn in *. subst. eexists. split; [reflexivity|]. split; [reflexivity|split]; cbn; auto with sim.
      - now apply s_dispatch.
    Qed.

    (** ** Precedence climbing *)
    Lemma binop_eq h rl binop c1 c2 : R rl -> C h c1 c2 -> binop_rule E2 rl binop c2 = binop_rule E1 rl binop c1.
    Proof. intros HR Hc. unfold binop_rule. rewrite (get_rule_eq rl HR). destruct (top_args_eq _ _ _ Hc) as [-> _]. reflexivity. Qed.
    Lemma has_action_eq h r c1 c2 : ha E1 E2 r -> C h c1 c2 -> has_action E2 c2 r = has_action E1 c1 r.
    Proof.
      intros H Hc. unfold has_action, wrapped. rewrite (cr_prec _ _ _ _ _ Hc). f_equal. destruct H as [H1 H2].
      destruct (e_action E1 r), (e_action E2 r); auto; [specialize (H2 eq_refl)|specialize (H1 eq_refl)]; discriminate.
    Qed.
    Lemma s_prec_loop h atom binop info rl : m_rg m = false -> ok atom -> ok binop -> R rl -> ha E1 E2 rl ->
      hdok m E1 h atom -> hdok m E1 h binop -> forall fuel mp pos i vs1 vs2 c1 c2, VRs vs1 vs2 -> C h c1 c2 ->
      SIM h (prec_loop fuel E1 rec1 atom binop info rl mp pos i vs1 c1) (prec_loop fuel E2 rec2 atom binop info rl mp pos i vs2 c2).
    Proof.
      intros Hg Hoa Hob HR Hha Hh1 Hh2. induction fuel as [|fuel IH]; intros mp pos i vs1 vs2 c1 c2 Hv Hc; cbn [prec_loop];
        (replace (inlen E2) with (inlen E1) by (unfold inlen; now rewrite inp_eq)); (destruct (pos + i <? inlen E1); [|apply RR_ok; [now rewrite Hg|assumption]]); [constructor|].
      step; [apply Hrec; auto; apply VR_new|]. rewrite Hg in Hv0. cbn [VR] in Hv0.
      assert (HvR : VV vs1 vs2) by (now rewrite Hg).
      destruct r0 as [chlen|]; [|now apply RR_ok]. cbv zeta. rewrite <- (cr_prec _ _ _ _ _ Hc0).
      destruct (binfo_find _ _) as [[level la]|]; [|now apply RR_ok]. destruct (level <? mp); [now apply RR_ok|].
      pose proof (vr_vals _ _ Hv0) as Hvv. destruct Hvv as [|o1 o2 l1 l2 Hov _]; [constructor|].
      eapply osim_bindE with (P := RR m ok h).
      - step; [apply Hrec; auto; apply VR_new|]. destruct r0 as [la'|]; [|now apply RR_ok].
        rewrite (binop_eq _ _ _ _ _ HR Hc1). apply osim_bindP. intros br _.
        rewrite Hg in Hv1. cbn [VR] in Hv1.
        step; [apply IH; [assumption|]; rewrite <- (cr_prec _ _ _ _ _ Hc1); now apply CR_prec|].
        apply RR_ok; [assumption|]. rewrite <- (cr_prec _ _ _ _ _ Hc2). now apply CR_prec.
      - intros [[r2 x1] b1] [[r2' x2] b2] _ _ (Hl & Hxv & Hxc). cbn [fst snd] in *. subst r2'. rewrite Hg in Hxv. cbn [VR] in Hxv.
        assert (Hpush : forall (a1 : option V1) a2 (y1 : sv V1) (y2 : sv V2), Vr a1 a2 -> VRs y1 y2 ->
           VRs (set_vals (v_vals y1 ++ [a1]) y1) (set_vals (v_vals y2 ++ [a2]) y2)).
        { intros a1 a2 y1 y2 Ha []. constructor; cbn; auto. apply Forall2_app; auto. }
        destruct r2 as [l2'|].
        + pose proof (vr_vals _ _ Hxv) as Hvv. destruct Hvv as [|v1 v2 k1 k2 Hvr _]; [constructor|].
          set (w1 := set_vals (v_vals (set_vals (v_vals vs1 ++ [o1]) vs1) ++ [v1]) (set_vals (v_vals vs1 ++ [o1]) vs1)).
          set (w2 := set_vals (v_vals (set_vals (v_vals vs2 ++ [o2]) vs2) ++ [v2]) (set_vals (v_vals vs2 ++ [o2]) vs2)).
          assert (Hw : VRs w1 w2) by (apply Hpush; [assumption|]; now apply Hpush).
          rewrite (has_action_eq _ _ _ _ Hha Hxc).
          assert (Hset : forall a1 a2 (y1 : sv V1) (y2 : sv V2), Vr a1 a2 -> VRs y1 y2 -> VRs (set_vals [a1] y1) (set_vals [a2] y2)).
          { intros a1 a2 y1 y2 Ha []. constructor; cbn; auto. }
          destruct (has_action E1 b1 rl).
          * set (z1 := set_span (pos, i + chlen + l2') w1). set (z2 := set_span (pos, i + chlen + l2') w2).
            assert (Hz : VRs z1 z2) by (apply (VR_span false); assumption).
            rewrite !run_action_alt. rewrite inp_eq.
            destruct (er_act _ _ _ HE (e_input E1) rl z1 z2 (c_dt b1) (c_dt b2) None None HR Hz (cr_dt _ _ _ _ _ Hxc) Vr_none) as [H1 H2].
            apply IH; [now apply Hset|]. apply CR_dt; [assumption|]. rewrite (sv_token_eq _ _ Hz), <- (cr_prec _ _ _ _ _ Hxc). now apply CR_prec.
          * apply IH; [|assumption]. apply Hset; [|assumption]. apply (VR_front false); [discriminate|assumption].
        + apply RR_ok; [|assumption]. rewrite Hg. destruct Hv; constructor; cbn; auto.
    Qed.
    Lemma s_prec h fuel atom binop info rl pos vs1 vs2 c1 c2 : m_rg m = false -> ok atom -> ok binop -> R rl -> ha E1 E2 rl ->
      hdok m E1 h atom -> hdok m E1 h binop -> VV vs1 vs2 -> C h c1 c2 ->
      SIM h (parse_prec fuel E1 rec1 atom binop info rl pos vs1 c1) (parse_prec fuel E2 rec2 atom binop info rl pos vs2 c2).
    Proof.
      intros Hg Hoa Hob HR Hha Hh1 Hh2 Hv Hc. unfold parse_prec. step; [now apply Hrec|].
      destruct r0 as [la|]; [|now apply RR_ok]. rewrite (binop_eq _ _ _ _ _ HR Hc0). apply osim_bindP. intros br _.
      rewrite Hg in Hv0. cbn [VR] in Hv0.
      step; [apply s_prec_loop; auto; rewrite <- (cr_prec _ _ _ _ _ Hc0); now apply CR_prec|].
      apply RR_ok; [assumption|]. rewrite <- (cr_prec _ _ _ _ _ Hc1). now apply CR_prec.
    Qed.

    (** ** Recovery *)
    Lemma CR_log l1 l2 h c1 c2 : (if m_log m then l1 = l2 else l2 = false) -> (m_log m = true -> m_stk m = false -> l1 = false) ->
      (m_rg m = true -> l2 = false) -> C h c1 c2 -> C h (set_log l1 c1) (set_log l2 c2).
    Proof. intros A B D []. constructor; cbn; auto. Qed.
    Lemma s_rcv h e pos vs1 vs2 c1 c2 : ok e -> hdok m E1 h e -> VV vs1 vs2 -> C h c1 c2 ->
      SIM h (parse_rcv E1 rec1 e pos vs1 c1) (parse_rcv E2 rec2 e pos vs2 c2).
    Proof.
      intros Ho Hh Hv Hc. unfold parse_rcv. destruct e; try constructor. cbn [okope] in Ho. destruct Ho as [Ho1 Ho2].
      eapply osim_bind with (P := fun x y => C h x y).
      { pose proof (cr_log _ _ _ _ _ Hc) as Hl. destruct (m_log m) eqn:Hm.
        - rewrite <- Hl. destruct (c_log c1); [|now constructor]. destruct args as [|a args]; [constructor|].
          destruct a; try now constructor. destruct rule0 as [lrid|]; [|constructor].
          unfold get_rule. rewrite <- (er_g _ _ _ HE lrid) by (now apply Ho2). apply osim_bindP. intros d _.
          rewrite <- (cr_caps _ _ _ _ _ Hc).
          destruct (r_error_message d); [now constructor|]. constructor.
          match goal with |- CR _ _ _ (set_err (err_message ?a ?b ?d _) _) _ => apply (CR_err m ok h (err_message a b d)) end; [|assumption].
          apply (cr_exp _ _ _ _ _ Hc).
        - rewrite Hl. destruct (c_log c1); [|now constructor]. destruct args as [|a args]; [now apply os_ub1|].
          destruct a; try now constructor. destruct rule0 as [lrid|]; [|now apply os_ub1].
          unfold get_rule. destruct (nth_error _ _) as [d|]; cbn [bind]; [|now apply os_ub1].
          destruct (r_error_message d); constructor; [assumption|]. now apply CR_err1. }
      intros b1 b2 Hb. cbv zeta.
      eapply osim_bindE with (P := RR m ok h).
      { apply Hrec; auto; [split; assumption|apply VR_new|]. apply CR_dt; [apply (er_u0 _ _ _ HE)|]. apply CR_log; auto. now destruct (m_log m). }
      intros [[len x1] d1] [[len' x2] d2] _ _ (Hl & Hxv & Hxc). cbn [fst snd] in *. subst len'.
      assert (Hd : C h (set_dt (c_dt b1) (set_log (c_log b1) d1)) (set_dt (c_dt b2) (set_log (c_log b2) d2))).
      { apply CR_dt; [apply (cr_dt _ _ _ _ _ Hb)|]. apply CR_log; [apply (cr_log _ _ _ _ _ Hb)|apply (cr_nolog _ _ _ _ _ Hb)|apply (cr_rglog _ _ _ _ _ Hb)|assumption]. }
      set (f1 := set_dt (c_dt b1) (set_log (c_log b1) d1)) in *. set (f2 := set_dt (c_dt b2) (set_log (c_log b2) d2)) in *.
      eapply osim_bind with (P := fun x y => C h x y).
      { destruct len as [n|]; [|now constructor].
        assert (Hr : C h (set_rcv true f1) (set_rcv true f2)) by auto with sim.
        set (g1 := set_rcv true f1) in *. set (g2 := set_rcv true f2) in *.
        pose proof (cr_log _ _ _ _ _ Hb) as HL. destruct (m_log m) eqn:Hm.
        - rewrite <- HL. destruct (c_log b1); [|now constructor].
          rewrite inp_eq, <- (cr_err _ _ _ _ _ Hr Hm).
          rewrite (output_log_same Nm (e_g E1) (e_g E2)); [|apply (er_g _ _ _ HE)|apply (cr_exp _ _ _ _ _ Hr Hm)].
          apply osim_bindP. intros [ei rp] _. constructor. rewrite <- (cr_out _ _ _ _ _ Hr Hm).
          apply CR_out. apply (CR_err m ok h (fun _ => err_clear ei)); [|assumption]. intros _. cbn. constructor.
        - rewrite HL. destruct (c_log b1); [|now constructor].
          pose proof (output_log_nofuel (e_g E1) (e_input E1) (c_err g1)).
          destruct (output_log _ _ _) as [[ei rp]| | |]; cbn [bind]; [|congruence|now apply os_ub1|now apply os_throw1].
          constructor. apply CR_out1; [assumption|]. now apply CR_err1. }
      intros g1 g2 Hgg. apply RR_ok; [assumption|]. now apply CR_cut_top.
    Qed.

    Lemma hdok_list h l : (existsb (needs_top (e_g E1)) l = true -> m_stk m = true \/ h = true) -> Forall (hdok m E1 h) l.
    Proof.
      intros H. apply Forall_forall. intros x Hx Hn. apply H. apply existsb_exists. eauto.
    Qed.
    Lemma s_core h fuel o pos vs1 vs2 c1 c2 : ok o -> hdok m E1 h o -> VV vs1 vs2 -> C h c1 c2 ->
      SIM h (parse_core fuel rec1 E1 o pos vs1 c1) (parse_core fuel rec2 E2 o pos vs2 c2).
    Proof.
      intros Ho Hh Hv Hc. destruct o; cbn [parse_core okope] in *.
      - apply s_seq; auto. now apply hdok_list.
      - destruct Ho. apply s_cho; auto. now apply hdok_list.
      - now apply s_rep.
      - now apply s_and.
      - now apply s_not.
      - now apply s_dic.
      - now apply s_literal.
      - now apply s_cls.
      - now apply s_chr.
      - now apply s_dot.
      - now apply s_csc.
      - now apply s_cap.
      - now apply s_tok.
      - now apply s_ign.
      - now apply s_usr.
      - apply Hrec; auto; discriminate.
      - now apply s_hld.
      - destruct Ho. apply s_ref; auto; intros n mc; exact Hh.
      - now apply s_wsp.
      - now apply s_bkr.
      - destruct Ho as (H1 & H2 & H3 & H4 & H5).
        assert (Hg : m_rg m = false).
        { destruct (m_rg m) eqn:Hg; [|reflexivity]. rewrite (er_plain _ _ _ HE Hg) in H1. discriminate. }
        apply s_prec; auto; intros Hx; apply Hh; cbn [needs_top]; rewrite Hx; auto using orb_true_r.
      - now apply s_rcv.
      - apply RR_ok; auto with sim.
      - constructor.
    Qed.
  End Ops.

  Theorem sim_parse fuel : simrec (parse fuel) (parse fuel).
  Proof.
    induction fuel as [|fuel IH]; intros m E1 E2 h o pos vs1 vs2 c1 c2 HE Ho Hh Hv Hc; cbn [parse]; [constructor|].
    assert (Hcore : forall b1 b2, CRE m E1 E2 h b1 b2 ->
      osim (m_log m) (RRE m E1 E2 h) (parse_core fuel (parse fuel) E1 o pos vs1 b1) (parse_core fuel (parse fuel) E2 o pos vs2 b2)).
    { intros b1 b2 Hb. apply s_core; auto.
      - intros ? ? ? ? ? ? ? ? . apply parse_frame.
      - intros ? ? ? ? ? ? ? ? . apply parse_frame. }
    unfold traced. destruct (is_traceable E1 o c1), (is_traceable E2 o c2).
    - eapply osim_bindE; [apply Hcore; auto 12 with sim|].
      intros [[a x1] b1] [[b x2] b2] _ _ (E & Hx & Hb). cbn [fst snd] in *. subst. apply RR_ok; [assumption|]. auto 12 with sim.
    - eapply osim_mapl; [apply Hcore; auto 12 with sim|].
      intros [[a x1] b1] [[b x2] b2] (E & Hx & Hb). cbn [fst snd] in *. subst. eexists. split; [reflexivity|]. split; [reflexivity|split]; cbn [fst snd]; auto 12 with sim.
    - eapply osim_mapr; [apply Hcore; auto 12 with sim|].
      intros [[a x1] b1] [[b x2] b2] (E & Hx & Hb). cbn [fst snd] in *. subst. eexists. split; [reflexivity|]. split; [reflexivity|split]; cbn [fst snd]; auto 12 with sim.
    - now apply Hcore.
  Qed.
End Sim.
