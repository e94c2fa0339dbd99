(** * Precedence climbing (C22). *)
From Verif Require Import Base BaseLemmas Utf8 Escape TrieM LineInfo Ope Ctx ErrLog Engine EngineLemmas Top Frame Scope Bounds Mono TopFacts
  PackratFilter SessionM RefSem RefMono Refine RefineOps RefineMain TopRef GrammarCond PropMemo PrecSpec PrecTree PrecM PrecCond Samples.

Section Vocabulary.
  Context {V U : Type}.
  Variable E : env V U.
  Variable m : mode.
  (** What a rule does at a position, seen from outside (RefSem.v). *)
  Definition matches (r : rid) (p n : nat) (v : option V) : Prop := exists k, call k E m r p = Some (Some (n, v)).
  Definition misses (r : rid) (p : nat) : Prop := exists k, call k E m r p = Some None.
  (** What [vs.token()] is for the action of rule [r] when it matches at [p]. *)
  Definition action_token (r : rid) (p : nat) (tk : bytes) : Prop :=
    exists k d body n chvs, get_body E r = Some (d, body) /\ ref_scope (ref k) E m d body p = Some (Some (n, chvs))
      /\ tk = sv_token E (set_span (p, n) chvs).

  (** Operands are matches of rule [ra]; operators are matches of rule [rb] whose
      token is in the table [ls]. *)
  Definition operand_of (ra : rid) (x : operand_at V) : Prop := matches ra (oa_pos x) (oa_len x) (oa_val x).
  Definition operator_of (ls : table_lines) (rb : rid) (o : operator_at V) : Prop :=
    matches rb (op_pos o) (op_len o) (op_val o) /\ action_token rb (op_pos o) (op_tok o) /\ exists n la, on_line ls (op_tok o) n la.
  (** No operator of the table follows at [p]. *)
  Definition no_operator (ls : table_lines) (rb : rid) (p : nat) : Prop :=
    List.length (e_input E) <= p \/ misses rb p
    \/ exists n v tk, matches rb p n v /\ action_token rb p tk /\ forall l la, ~ on_line ls tk l la.
  (** The action of the rule applied to a left operand, an operator and a right
      operand found in [s .. s+n). *)
  Definition applied (r : rid) (s n : nat) (a o b v : option V) : Prop :=
    match e_action E r with
    | Some f => exists vs, v_vals vs = [a; o; b] /\ v_sv vs = (s, n) /\ v = fst (f (e_input E) vs (e_u0 E) None)
    | None => v = a
    end.
  (** [prec] gives operators the level and associativity of their line. *)
  Definition of_table (ls : table_lines) (prec : operator_at V -> nat * bool) : Prop :=
    forall o n la, on_line ls (op_tok o) n la -> prec o = (n, la).
End Vocabulary.

Section Lift.
  Context {V U : Type}.
  Variable E : env V U.
  Lemma grouped_same {L O} (p1 p2 : O -> nat * bool) (t : tree L O) : (forall o, has_op t o -> p1 o = p2 o) -> grouped p1 t -> grouped p2 t.
  Proof.
    induction t as [x|l IHl o r IHr]; intros H; [auto|]. cbn [grouped]. intros (A & B & C & D).
    assert (Hin : forall o', has_op (Node l o r) o' <-> has_op l o' \/ o' = o \/ has_op r o').
    { intros o'. unfold has_op. cbn [yield]. rewrite in_app_iff. cbn. split; intros [X|[X|X]]; auto; [injection X; auto|subst; auto]. }
    assert (Ho : p1 o = p2 o) by (apply H, Hin; auto).
    split; [apply IHl; [|exact A]; intros; apply H, Hin; auto|]. split; [apply IHr; [|exact B]; intros; apply H, Hin; auto|].
    unfold level, left_assoc in *. split; intros o' Ho'.
    - rewrite <- Ho, <- (H o') by (apply Hin; auto). auto.
    - rewrite <- Ho, <- (H o') by (apply Hin; auto). auto.
  Qed.
  Lemma placed_mono (p1 p2 : operand_at V -> Prop) (o1 o2 : operator_at V -> Prop) t : (forall x, p1 x -> p2 x) -> (forall o, o1 o -> o2 o) ->
    placed p1 o1 t -> placed p2 o2 t.
  Proof. intros H1 H2. induction t as [x|l IHl o r IHr]; cbn; [auto|]. intros (A & B & C & D & F). auto 10. Qed.
  Lemma placed_ops (p1 : operand_at V -> Prop) (o1 : operator_at V -> Prop) t o : placed p1 o1 t -> has_op t o -> o1 o.
  Proof.
    induction t as [x|l IHl q r IHr]; cbn [placed]; [intros _ [H|[]]; discriminate|]. intros (A & _ & B & _ & C) H.
    unfold has_op in H. cbn [yield] in H. apply in_app_iff in H as [H|[H|H]]; auto. injection H as <-. exact B.
  Qed.

  Variables (nm : bytes) (r : rid) (ia : nat) (mac : bool) (d : rule).
  Hypothesis Hd : nth_error (e_g E) r = Some d.
  Hypothesis Hmac : r_is_macro d = false.
  Hypothesis Hign : r_ignore d = false.
  Notation o := (Ref nm (Some r) ia mac []).
  (** A reference to an ordinary rule is a call. *)
  Lemma ref_is_call k fr m p (x : rv V) : ref k E None fr m o p sv_new = Some x ->
    exists j y, call j E m r p = Some y /\ match x, y with Some (n, vs), Some (n', v) => n' = n /\ v_vals vs = [v] | None, None => True | _, _ => False end.
  Proof.
    intros H. destruct k as [|k]; [discriminate|]. cbn [ref ref_core] in H. unfold ref_reference in H. rewrite Hd in H. cbn [obind] in H. rewrite Hmac in H.
    destruct k as [|k]; [discriminate|]. cbn [ref ref_core] in H. unfold ref_hld in H. exists (S k). cbn [call]. unfold ref_call.
    destruct (get_body E r) as [[d' body]|] eqn:Hb; [|discriminate]. cbn [obind] in *.
    assert (d' = d) as -> by (unfold get_body in Hb; rewrite Hd in Hb; cbn in Hb; destruct (r_body d); inversion Hb; reflexivity).
    rewrite Hmac in H. destruct (ref_rule k (ref k) E m r d body p) as [y|]; [|discriminate]. cbn [obind] in H. exists y. split; [reflexivity|].
    injection H as <-. destruct y as [[n v]|]; [|exact I]. split; [reflexivity|]. rewrite Hign. reflexivity.
  Qed.
  Lemma call_fun j1 j2 m p x y : call j1 E m r p = Some x -> call j2 E m r p = Some y -> x = y.
  Proof.
    intros H1 H2. destruct (Nat.le_gt_cases j1 j2) as [Hj|Hj].
    - pose proof (call_mono j1 j2 E m r p x Hj H1). congruence.
    - pose proof (call_mono j2 j1 E m r p y ltac:(lia) H2). congruence.
  Qed.
End Lift.

Section Main.
  Context {V U : Type}.
  Implicit Types (P : pobj V U).

  (** The %whitespace matched before the expression: [s] bytes, leaving [vals]. *)
  Definition leading P input (s : nat) (vals : list (option V)) : Prop :=
    match p_ws P with
    | None => s = 0 /\ vals = []
    | Some w => exists k vs, ref k (mk_env P input) None no_frame m_top w 0 sv_new = Some (Some (s, vs)) /\ v_vals vs = vals
    end.
  Definition leading_fails P input : Prop :=
    exists w k, p_ws P = Some w /\ ref k (mk_env P input) None no_frame m_top w 0 sv_new = Some None.

  (** The start rule is the precedence rule [ra (rb ra)*] with table [ls]. *)
  Record is_prec_rule (ls : table_lines) (ra rb : rid) P : Prop := {
    ip_rule : exists d na ia ma nb ib mb, nth_error (p_g P) (p_start P) = Some d
      /\ r_body d = Some (Pre (Ref na (Some ra) ia ma []) (Ref nb (Some rb) ib mb []) (prec_table ls) (p_start P))
      /\ r_disable_action d = true /\ r_no_whitespace d = false /\ r_ignore d = false /\ r_lr d = false;
    ip_pred : p_pred P (p_start P) = None;
    ip_leave : p_leave P (p_start P) = None
  }.

  Lemma prec_top P input dt md mm ls ra rb :
    prec_parser md mm P -> pure (mk_env P input) -> is_prec_rule ls ra rb P -> settled P input ->
    let E := mk_env P input in
    exists b reps res F, (forall fuel, F <= fuel -> parser_parse fuel P input dt = Ok (b, reps, res))
      /\ ((exists t w vals,
             placed (operand_of E m_top ra) (operator_of E m_top ls rb) t
             /\ leading P input (start t) vals
             /\ (forall prec, of_table ls prec -> grouped prec t)
             /\ evaluates (applied E (p_start P)) t w
             /\ no_operator E m_top ls rb (stop t)
             /\ rs_len res = stop t /\ v_vals (rs_vs res) = vals ++ [w]
             /\ b = (negb (p_eoi P) || (stop t =? List.length input)))
          \/ (b = false
              /\ (leading_fails P input
                  \/ (exists s vals, leading P input s vals /\ misses E m_top ra s)
                  \/ exists t vals o, placed (operand_of E m_top ra) (operator_of E m_top ls rb) t /\ leading P input (start t) vals
                       /\ operator_of E m_top ls rb o /\ op_pos o = stop t /\ misses E m_top ra (op_pos o + op_len o)))).
  Proof.
    intros Hpp Hpure [(d & na & ia & ma & nb & ib & mb & Hd & Hbody & Hdis & Hnw & Hig & Hlr) Hpr Hlv] (k & x & Hx) E.
    pose proof (prec_okA md mm P input Hpp Hpure) as HA. destruct (pp_start _ _ _ Hpp) as [Hmd (d0 & Hd0 & Hmac)].
    rewrite Hd in Hd0. injection Hd0 as <-.
    assert (Hal : core_modes (p_g P) md mm (p_start P) m_top) by (cbn; rewrite Hd, Hmac; exact Hmd).
    destruct (parser_parse_ref (kp := true) k P input dt _ _ x HA Hal Hx) as (reps & res & [F HF] & Hres).
    eexists _, reps, res, F. split; [exact HF|]. clear HF F.
    assert (Hnl : ~ @loose V U true (mk_env P input)).
    { intros [H|[H _]]; [pose proof (pp_values _ _ _ Hpp); change (recognize_only P = true) in H; congruence|discriminate]. }
    (* the rules of operands and operators *)
    pose proof (pp_rules _ _ _ Hpp) as Hrules. unfold prec_grammar in Hrules. rewrite forallb_forall in Hrules.
    specialize (Hrules _ (in_combine_seq _ _ _ Hd)). cbn [fst snd] in Hrules.
    assert (Hpr0 : prec_rule (p_g P) (is_some (p_ws P)) md mm (p_start P) d = true).
    { apply orb_prop in Hrules as [H|H]; [|exact H]. unfold core_rule in H. rewrite Hbody in H. apply andb_prop in H as [_ H]. discriminate. }
    unfold prec_rule in Hpr0. rewrite Hbody in Hpr0. cbv zeta in Hpr0. rewrite !andb_true_iff in Hpr0. destruct Hpr0 as [[[[[[_ _] H3] H4] _] _] _].
    destruct (nth_error (p_g P) ra) as [da|] eqn:Hda; [|discriminate]. destruct (nth_error (p_g P) rb) as [db|] eqn:Hdb; [|discriminate].
    rewrite !andb_true_iff in H3. rewrite !andb_true_iff in H4. destruct H3 as [A1 A2], H4 as [[[B1 B2] B3] B4]. apply negb_true_iff in A1, A2, B1, B2, B3, B4.
    (* unfold the reference semantics *)
    unfold ref_top in Hx.
    destruct (match e_ws (mk_env P input) with None => Some (Some (0, sv_new)) | Some w => ref k (mk_env P input) None no_frame m_top w 0 sv_new end) as [w|] eqn:Hw; [|discriminate].
    cbn [obind] in Hx. change (e_ws (mk_env P input)) with (p_ws P) in Hw.
    destruct w as [[s vs0]|].
    2:{ injection Hx as <-. right. split; [reflexivity|]. left. destruct (p_ws P) as [w|] eqn:Hws; [|discriminate]. exists w, k. auto. }
    assert (Hlead : leading P input s (v_vals vs0)).
    { unfold leading. destruct (p_ws P) as [w|]; [exists k, vs0; auto|]. injection Hw as <- <-. auto. }
    destruct (ref k (mk_env P input) None no_frame m_top (Hld (p_start P)) s vs0) as [y|] eqn:Hy; [|discriminate]. cbn [obind] in Hx.
    destruct k as [|k]; [discriminate|]. cbn [ref ref_core] in Hy. unfold ref_hld, get_body in Hy. change (e_g (mk_env P input)) with (p_g P) in Hy.
    rewrite Hd in Hy. cbn [obind] in Hy. rewrite Hbody in Hy. cbn [obind] in Hy. rewrite Hmac in Hy. unfold ref_rule in Hy. rewrite Hlr in Hy.
    unfold ref_once in Hy. rewrite Hnw in Hy.
    destruct k as [|k]; [discriminate|]. cbn [ref ref_core] in Hy.
    set (run := ref k (mk_env P input) None (r_params d, []) m_top) in *.
    set (tok := ref_token (ref k) (mk_env P input) m_top (Ref nb (Some rb) ib mb [])) in *.
    match type of Hy with obind (obind (ref_pre ?f ?E ?r ?t ?a ?b ?i ?q ?p sv_new) _) _ = _ => destruct (ref_pre f E r t a b i q p sv_new) as [z|] eqn:Hz end; [|discriminate].
    cbn [obind] in Hy.
    assert (Hone_a : forall p n vs, run (Ref na (Some ra) ia ma []) p sv_new = Some (Some (n, vs)) -> exists v, v_vals vs = [v]).
    { intros p n vs H. destruct (ref_is_call (mk_env P input) na ra ia ma da Hda A1 A2 _ _ _ _ _ H) as (j & [[n' v]|] & _ & Hv); [|contradiction]. destruct Hv. eauto. }
    assert (Hone_b : forall p n vs, run (Ref nb (Some rb) ib mb []) p sv_new = Some (Some (n, vs)) -> exists v, v_vals vs = [v]).
    { intros p n vs H. destruct (ref_is_call (mk_env P input) nb rb ib mb db Hdb B1 B2 _ _ _ _ _ H) as (j & [[n' v]|] & _ & Hv); [|contradiction]. destruct Hv. eauto. }
    pose proof (pre_tree (mk_env P input) run tok _ _ (prec_table ls) (p_start P) Hone_a Hone_b k s z Hz) as Ht.
    (* the vocabulary *)
    assert (Lx : forall q, t_operand run (Ref na (Some ra) ia ma []) q -> operand_of E m_top ra q).
    { intros q (vs & H & Hv). destruct (ref_is_call (mk_env P input) na ra ia ma da Hda A1 A2 _ _ _ _ _ H) as (j & [[n' v]|] & Hc & Hn); [|contradiction].
      destruct Hn as [-> Hn]. exists j. rewrite Hv in Hn. injection Hn as ->. exact Hc. }
    assert (Lm : forall p, run (Ref na (Some ra) ia ma []) p sv_new = Some None -> misses E m_top ra p).
    { intros p H. destruct (ref_is_call (mk_env P input) na ra ia ma da Hda A1 A2 _ _ _ _ _ H) as (j & [[n' v]|] & Hc & Hn); [contradiction|]. exists j. exact Hc. }
    assert (Ltk : forall p tk, tok p = Some tk -> action_token E m_top rb p tk).
    { intros p tk H. unfold tok, ref_token in H. destruct (get_body (mk_env P input) rb) as [[d1 b1]|] eqn:Hg1; [|discriminate]. cbn [obind] in H.
      destruct (ref_scope (ref k) (mk_env P input) m_top d1 b1 p) as [[[n1 v1]|]|] eqn:Hs1; try discriminate. cbn [obind] in H. injection H as <-.
      exists k, d1, b1, n1, v1. auto. }
    assert (Lo : forall q, t_operator run tok (Ref nb (Some rb) ib mb []) (prec_table ls) q -> operator_of E m_top ls rb q).
    { intros q [(vs & H & Hv) [Htk Hbi]].
      destruct (ref_is_call (mk_env P input) nb rb ib mb db Hdb B1 B2 _ _ _ _ _ H) as (j & [[n' v]|] & Hc & Hn); [|contradiction].
      destruct Hn as [-> Hn]. split; [exists j; rewrite Hv in Hn; injection Hn as ->; exact Hc|]. split; [now apply Ltk|].
      destruct (binfo_find (prec_table ls) (op_tok q)) as [[n la]|] eqn:Hf; [|congruence]. exists n, la. now apply prec_table_line. }
    destruct z as [[n vs]|].
    - destruct Ht as (t & w & Hvw & [G1 G2 G3 G4 _ G6] & Hend). unfold ref_value in Hy.
      change (e_pred (mk_env P input) (p_start P)) with (p_pred P (p_start P)) in Hy. rewrite Hpr in Hy.
      change (e_leave (mk_env P input) (p_start P)) with (p_leave P (p_start P)) in Hy. rewrite Hlv, Hdis in Hy. cbn [obind] in Hy.
      injection Hy as <-. injection Hx as <-. destruct Hres as [Hlen [Hv|Hv]]; [contradiction|]. left. exists t, w, (v_vals vs0).
      split; [now apply (placed_mono _ _ _ _ t Lx Lo)|]. split; [rewrite G2; exact Hlead|]. split.
      { intros prec Hprec. eapply grouped_same; [|exact G4]. intros o Ho. pose proof (placed_ops _ _ _ _ G1 Ho) as (_ & _ & Hbi).
        unfold t_prec. destruct (binfo_find (prec_table ls) (op_tok o)) as [[n0 la]|] eqn:Hf; [|congruence].
        symmetry. apply Hprec. now apply prec_table_line. }
      split; [exact G6|]. rewrite G3 in *. split.
      { destruct Hend as [He|[He|(n0 & vs1 & tk & R1 & R2 & R3)]]; [now left|right; left|right; right].
        - destruct (ref_is_call (mk_env P input) nb rb ib mb db Hdb B1 B2 _ _ _ _ _ He) as (j & [[n' v]|] & Hc & Hn); [contradiction|]. exists j. exact Hc.
        - destruct (ref_is_call (mk_env P input) nb rb ib mb db Hdb B1 B2 _ _ _ _ _ R1) as (j & [[n' v]|] & Hc & Hn); [|contradiction].
          exists n', v, tk. split; [exists j; exact Hc|]. split; [now apply Ltk|]. intros l la Hon. apply prec_table_line in Hon. rewrite Hon in R3. lia. }
      split; [exact Hlen|]. split; [|reflexivity]. rewrite Hv, Hig. cbn [push_val v_vals].
      f_equal. f_equal.
      rewrite Hvw. destruct (p_action P (p_start P)); reflexivity.
    - injection Hy as <-. injection Hx as <-. right. split; [reflexivity|]. right. destruct Ht as [Ht|(t & o & R1 & R2 & R3 & R4 & R5)].
      + left. exists s, (v_vals vs0). split; [exact Hlead|]. now apply Lm.
      + right. exists t, (v_vals vs0), o. split; [now apply (placed_mono _ _ _ _ t Lx Lo)|]. split; [rewrite R2; exact Hlead|]. split; [now apply Lo|].
        split; [exact R4|]. now apply Lm.
  Qed.
End Main.


(** ** C22.  The start rule is [ra (rb ra)* { precedence <ls> }].  Either the
    parse ends after the expression built from a tree of operands and operators
    matched one after the other from the first byte after leading whitespace; the
    tree is grouped as the table says; the value is obtained by applying the rule's
    action at every node of that tree; and no operator of the table follows.  Or it
    fails, because the first operand is missing, or the operand after an operator of
    the table is missing. *)
Theorem C22_expression_grouped_by_table_partial :
  forall (V U : Type) (P : pobj V U) (input : bytes) (dt : U) md mm (ls : table_lines) (ra rb : rid),
  prec_parser md mm P -> pure (mk_env P input) -> is_prec_rule ls ra rb P -> settled P input ->
  let E := mk_env P input in
  exists b reps res F, (forall fuel, F <= fuel -> parser_parse fuel P input dt = Ok (b, reps, res))
    /\ ((exists t w vals,
           placed (operand_of E m_top ra) (operator_of E m_top ls rb) t
           /\ leading P input (start t) vals
           /\ (forall prec, of_table ls prec -> grouped prec t)
           /\ evaluates (applied E (p_start P)) t w
           /\ no_operator E m_top ls rb (stop t)
           /\ rs_len res = stop t /\ v_vals (rs_vs res) = vals ++ [w]
           /\ b = (negb (p_eoi P) || (stop t =? List.length input)))
        \/ (b = false
            /\ (leading_fails P input
                \/ (exists s vals, leading P input s vals /\ misses E m_top ra s)
                \/ exists t vals o, placed (operand_of E m_top ra) (operator_of E m_top ls rb) t /\ leading P input (start t) vals
                     /\ operator_of E m_top ls rb o /\ op_pos o = stop t /\ misses E m_top ra (op_pos o + op_len o)))).
Proof. intros V U P input dt md mm ls ra rb. exact (prec_top P input dt md mm ls ra rb). Qed.
Print Assumptions C22_expression_grouped_by_table_partial.

(** The table leaves no choice: there is one way to group a row of operands and
    operators. *)
Theorem C22_grouping_unique_partial : forall (L O : Type) (prec : O -> nat * bool) (t1 t2 : tree L O),
  grouped prec t1 -> grouped prec t2 -> yield t1 = yield t2 -> t1 = t2.
Proof. intros L O prec t1 t2. apply grouped_unique. Qed.
Print Assumptions C22_grouping_unique_partial.

(** Levels are line numbers: the table built from the instruction gives an operator
    the number and the associativity of the last line it is written on, and other
    operators nothing. *)
Theorem C22_level_is_line_partial : forall (ls : table_lines) (tok : bytes) (n : nat) (la : bool),
  binfo_find (prec_table ls) tok = Some (n, la) <-> on_line ls tok n la.
Proof. exact prec_table_line. Qed.
Print Assumptions C22_level_is_line_partial.

(** The instruction on a rule written [a (b a)*], [a] and [b] different names, is
    accepted and makes the rule a precedence rule over them with the table given. *)
Theorem C22_instruction_accepted_partial : forall (r : rid) (info : binop_info) na ra ia ma aa ia' ra' ma' aa' nb rb ib mb ab k1 k2 k3,
  na <> nb ->
  apply_precedence r info (Seq k1 [Ref na ra ia ma aa; Rep (Seq k2 [Ref nb rb ib mb ab; Ref na ra' ia' ma' aa']) 0 None k3])
  = Some (Pre (Ref na ra ia ma aa) (Ref nb rb ib mb ab) info r).
Proof.
  intros. cbn [apply_precedence]. rewrite bytes_eqb_refl. destruct (bytes_eqb na nb) eqn:He; [|reflexivity].
  apply bytes_eqb_eq in He. contradiction.
Qed.
Print Assumptions C22_instruction_accepted_partial.
(** And only in such a rule: a precedence instruction is accepted only where the body is
    atom (op atom)* with the same atom twice and another rule as operator, and then puts the
    climbing expression over those two references in its place.  (Elements behind the
    repetition or behind the second atom are dropped without a word.) *)
Theorem C22_instruction_only_partial : forall r info body b', apply_precedence r info body = Some b' ->
  exists k1 k2 k3 na ra ia ma aa nb rb ib mb ab ra' ia' ma' aa' rest rest',
  body = Seq k1 (Ref na ra ia ma aa :: Rep (Seq k2 (Ref nb rb ib mb ab :: Ref na ra' ia' ma' aa' :: rest)) 0 None k3 :: rest')
  /\ na <> nb /\ b' = Pre (Ref na ra ia ma aa) (Ref nb rb ib mb ab) info r.
Proof.
  intros r info body b' H. unfold apply_precedence in H.
  repeat match type of H with match ?x with _ => _ end = _ => is_var x; destruct x; try discriminate H end.
  destruct (bytes_eqb name name1 && negb (bytes_eqb name name0)) eqn:He; [|discriminate]. injection H as <-. apply andb_prop in He as [H1 H2].
  apply bytes_eqb_eq in H1. subst. apply negb_true_iff in H2. repeat eexists. intros ->. rewrite bytes_eqb_refl in H2. discriminate.
Qed.
Print Assumptions C22_instruction_only_partial.

(** EXPR <- NUM (OP NUM)* { precedence  L - +   L / *   R ^ }   NUM <- [0-9]   OP <- [-+*/^]
    The value of EXPR is the expression with parentheses. *)
Definition prec_d (name : string) (body : ope) : rule :=
  {| r_name := bs name; r_body := Some body; r_ignore := false; r_is_macro := false; r_params := [];
     r_disable_action := true; r_lr := false; r_can_be_empty := false; r_macro_ref := false;
     r_error_message := []; r_no_ast_opt := false; r_no_whitespace := false; r_ast_name := bs name |}.
Definition ls_arith : table_lines := ([(true, [bs "-"; bs "+"]); (true, [bs "*"; bs "/"]); (false, [bs "^"])])%string.
Definition pnum : ope := Ref (bs "NUM") (Some 1) 0 false [].
Definition pop : ope := Ref (bs "OP") (Some 2) 0 false [].
Definition g_arith : grammar :=
  [prec_d "EXPR" (Pre pnum pop (prec_table ls_arith) 0); plain "NUM" (Cls [(48, 57)%N] false false);
   plain "OP" (Cls [(42, 43); (45, 45); (47, 47); (94, 94)]%N false false)].
Definition par_act (inp : bytes) (vs : sv bytes) (u : unit) (_ : option unit) : option bytes * unit :=
  (match v_vals vs with
   | [Some a; Some o; Some b] => Some (bs "(" ++ a ++ o ++ b ++ bs ")")
   | [Some a] => Some a
   | _ => Some (sub inp (fst (v_sv vs)) (snd (v_sv vs)))
   end, u).
Definition parenthesize (P : pobj bytes unit) : pobj bytes unit :=
  {| p_g := p_g P; p_start := p_start P; p_ws := p_ws P; p_word := p_word P; p_packrat := p_packrat P; p_slot := p_slot P;
     p_cached := p_cached P; p_eoi := p_eoi P; p_tracer := p_tracer P; p_verbose := p_verbose P; p_log := p_log P; p_u0 := p_u0 P;
     p_action := fun _ => Some (fun inp vs u _ => par_act inp vs u None);
     p_pred := p_pred P; p_enter := p_enter P; p_leave := p_leave P; p_user := p_user P |}.
Definition P_arith : pobj bytes unit := parenthesize (sample g_arith None None true false).
Example C22_meets : exists reps res,
  prec_parser (fun _ => m_top) [] P_arith /\ pure (mk_env P_arith (bs "1+2*3^4^5-6"))
  /\ is_prec_rule ls_arith 1 2 P_arith /\ settled P_arith (bs "1+2*3^4^5-6")
  /\ parser_parse 60 P_arith (bs "1+2*3^4^5-6") tt = Ok (true, reps, res)
  /\ v_vals (rs_vs res) = [Some (bs "((1+(2*(3^(4^5))))-6)")]
  /\ apply_precedence 0 (prec_table ls_arith) (seqs [pnum; many (seqs [pop; pnum])]) = r_body (nth 0 g_arith (plain "" Cut)).
Proof.
  eexists _, _.
  split. { constructor; try reflexivity; try discriminate; [split; [reflexivity|split; (reflexivity || exact I)]|]. split; [reflexivity|]. eexists. split; reflexivity. }
  split. { constructor; try reflexivity; try discriminate; cbn; intros; try (injection H as <-; reflexivity); try discriminate; auto. }
  split. { constructor; try reflexivity. eexists _, _, _, _, _, _, _. repeat (split; [reflexivity|]). reflexivity. }
  split; [eexists 60, _; vm_compute; reflexivity|]. split; [vm_compute; reflexivity|]. split; [vm_compute; reflexivity|]. reflexivity.
Qed.

(** An expression ending in an operator is not cut short before it: the rule fails,
    although its first operand alone is an operand (operator operand)* prefix. *)
Theorem C22_dangling_operator_refuted : exists reps res reps' res',
  parser_parse 60 P_arith (bs "1") tt = Ok (true, reps, res) /\ rs_len res = 1
  /\ parser_parse 60 P_arith (bs "1+") tt = Ok (false, reps', res') /\ rs_ret res' = false
  /\ operand_of (mk_env P_arith (bs "1+")) m_top 1 {| oa_pos := 0; oa_len := 1; oa_val := Some (bs "1") |}
  /\ misses (mk_env P_arith (bs "1+")) m_top 1 2.
Proof.
  eexists _, _, _, _. split; [vm_compute; reflexivity|]. split; [reflexivity|]. split; [vm_compute; reflexivity|]. split; [reflexivity|].
  split; exists 20; vm_compute; reflexivity.
Qed.
Print Assumptions C22_dangling_operator_refuted.

(** With packrat parsing an operator that has been tried before is not recognised:
    with  S <- NUM (OP '!' / OP '?') / EXPR   EXPR <- NUM (OP NUM)* { precedence L - +  L * /  R ^ }
    1+2 is an expression without packrat parsing and is not with it. *)
Definition g_memo_op : grammar :=
  [plain "S" (alts [seqs [Ref (bs "NUM") (Some 2) 0 false [];
                          alts [seqs [Ref (bs "OP") (Some 3) 0 false []; lit "!"]; seqs [Ref (bs "OP") (Some 3) 0 false []; lit "?"]]];
                    Ref (bs "EXPR") (Some 1) 0 false []]);
   prec_d "EXPR" (Pre (Ref (bs "NUM") (Some 2) 0 false []) (Ref (bs "OP") (Some 3) 0 false []) (prec_table ls_arith) 1);
   plain "NUM" (Cls [(48, 57)%N] false false);
   plain "OP" (Cls [(42, 43); (45, 45); (47, 47); (94, 94)]%N false false)].
Definition memo_op (packrat : bool) (s : rid) : pobj bytes unit :=
  {| p_g := g_memo_op; p_start := s; p_ws := None; p_word := None; p_packrat := packrat; p_slot := fun _ => None;
     p_cached := 0; p_eoi := true; p_tracer := false; p_verbose := false; p_log := false; p_u0 := tt;
     p_action := fun _ => Some (fun inp vs u _ => par_act inp vs u None); p_pred := fun _ => None; p_enter := fun _ => None;
     p_leave := fun _ => None; p_user := fun _ _ _ vs u => (None, vs, u) |}.
Definition value_of {V U} (x : outcome (bool * list report * result V U)) : option (bool * list (option V)) :=
  match x with Ok (b, _, res) => Some (b, v_vals (rs_vs res)) | _ => None end.
Theorem C22_memoised_operator_refuted :
  value_of (alone g_memo_op (memo_op false) (fun _ _ => false) 60 (0, bs "1+2*3", tt)) = Some (true, [Some (bs "(1+(2*3))")])
  /\ value_of (alone g_memo_op (memo_op true) (fun _ _ => false) 60 (0, bs "1+2*3", tt)) = Some (false, [Some (bs "1")]).
Proof. split; vm_compute; reflexivity. Qed.
Print Assumptions C22_memoised_operator_refuted.

(** An ignored operator rule, ~OP, leaves no value: the first element of an empty
    vector is read, on any expression with an operator. *)
Definition g_ignored_op : grammar :=
  [prec_d "EXPR" (Pre pnum pop (prec_table ls_arith) 0); plain "NUM" (Cls [(48, 57)%N] false false);
   {| r_name := bs "OP"; r_body := r_body (nth 2 g_arith (plain "" Cut)); r_ignore := true; r_is_macro := false; r_params := [];
     r_disable_action := false; r_lr := false; r_can_be_empty := false; r_macro_ref := false;
     r_error_message := []; r_no_ast_opt := false; r_no_whitespace := false; r_ast_name := bs "OP" |}].
Theorem C22_ignored_operator_refuted :
  match parser_parse 60 (parenthesize (sample g_ignored_op None None true false)) (bs "1+2") tt with Ok _ | OutOfFuel => False | _ => True end.
Proof. vm_compute. exact I. Qed.
Print Assumptions C22_ignored_operator_refuted.
