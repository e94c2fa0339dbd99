(** * Specification of C38, C39, C43 and C44: what a caller can see of a parse, and
    what is changed between the two parses that are compared. *)
From Verif Require Import Base Utf8 Escape TrieM LineInfo Ope Ctx ErrLog Engine Top.

Section View.
  Context {V U : Type}.
  (** Everything the caller of parser::parse can see except trace callbacks: the
      boolean, the reports, the Definition::Result, the value, the user data. *)
  Definition seen (x : bool * list report * result V U) :=
    let '(b, reps, r) := x in (b, reps, rs_ret r, rs_recovered r, rs_len r, rs_err r, result_value r, rs_dt r).
  Definition view (x : outcome (bool * list report * result V U)) := let* y := x in Ok (seen y).
  (** The same without the reports and the error record. *)
  Definition matched (x : bool * list report * result V U) :=
    let '(b, _, r) := x in (b, rs_ret r, rs_recovered r, rs_len r, result_value r, rs_dt r).
  (** Match, consumption and recovery only. *)
  Definition recognised (x : bool * list report * result V U) :=
    let '(b, _, r) := x in (b, rs_ret r, rs_recovered r, rs_len r).

  (** parser P with tracers attached or not, verbose or not. *)
  Definition with_trace (t v : bool) (P : pobj V U) : pobj V U :=
    {| p_g := p_g P; p_start := p_start P; p_ws := p_ws P; p_word := p_word P; p_packrat := p_packrat P;
       p_slot := p_slot P; p_cached := p_cached P; p_eoi := p_eoi P; p_tracer := t; p_verbose := v; p_log := p_log P;
       p_u0 := p_u0 P; p_action := p_action P; p_pred := p_pred P; p_enter := p_enter P; p_leave := p_leave P; p_user := p_user P |}.
  (** parser P with or without a log callback. *)
  Definition with_log (l : bool) (P : pobj V U) : pobj V U :=
    {| p_g := p_g P; p_start := p_start P; p_ws := p_ws P; p_word := p_word P; p_packrat := p_packrat P;
       p_slot := p_slot P; p_cached := p_cached P; p_eoi := p_eoi P; p_tracer := p_tracer P; p_verbose := p_verbose P; p_log := l;
       p_u0 := p_u0 P; p_action := p_action P; p_pred := p_pred P; p_enter := p_enter P; p_leave := p_leave P; p_user := p_user P |}.
End View.

(** Does [o] call a macro, or refer to a macro parameter, outside the bodies of the
    rules it calls? *)
Fixpoint calls_macro (g : grammar) (o : ope) : bool :=
  match o with
  | Seq _ l | Cho _ _ l => existsb (calls_macro g) l
  | Rep e _ _ _ | And e | Not e | Csc e | Cap _ e | Tok e | Ign e | Wsp e | Rcv e => calls_macro g e
  | Pre a b _ _ => calls_macro g a || calls_macro g b
  | Ref _ None _ _ _ => false
  | Ref _ (Some r) _ _ args =>
    match nth_error g r with Some d => r_is_macro d | None => false end || existsb (calls_macro g) args
  | _ => false
  end.
Fixpoint uses_param (o : ope) : bool :=
  match o with
  | Seq _ l | Cho _ _ l => existsb uses_param l
  | Rep e _ _ _ | And e | Not e | Csc e | Cap _ e | Tok e | Ign e | Wsp e | Rcv e => uses_param e
  | Pre a b _ _ => uses_param a || uses_param b
  | Ref _ None _ _ _ => true
  | Ref _ (Some _) _ _ args => existsb uses_param args
  | _ => false
  end.
(** Parameters occur only in macro bodies (the grammar checks, C31); a rule whose
    body calls a macro is marked so (AssignIDToDefinition, 4342-4363; the default
    before it has run is "marked"); %whitespace does neither. *)
Definition macro_marks (g : grammar) : Prop :=
  forall r d b, nth_error g r = Some d -> r_body d = Some b ->
    (uses_param b = true -> r_is_macro d = true) /\ (calls_macro g b = true -> r_is_macro d = true \/ r_macro_ref d = true).
Definition plain_ws (g : grammar) (ws : option ope) : Prop :=
  forall w, ws = Some w -> uses_param w = false /\ calls_macro g w = false.

(** Rules an operator names only in error messages or trace output (the first
    rule of a first set, 1621-1630; the label of a recovery operator, 4270-4280), or
    owns (the rule of a precedence operator). *)
Fixpoint message_names (o : ope) : list rid :=
  match o with
  | Seq _ l => flat_map message_names l
  | Cho _ fs l => flat_map (fun f => match fs_first_rule f with Some r => [r] | None => [] end) fs ++ flat_map message_names l
  | Rep e _ _ _ | And e | Not e | Csc e | Cap _ e | Tok e | Ign e | Wsp e | Rcv e => message_names e
  | Pre a b _ r => r :: message_names a ++ message_names b
  | Ref _ _ _ _ args => match args with Ref _ (Some l) _ _ _ :: _ => [l] | _ => [] end ++ flat_map message_names args
  | _ => []
  end.

(** Rules that can be reached from the start rule, %whitespace and %word. *)
Inductive mentions : ope -> rid -> Prop :=
| mn_wkh r : mentions (Wkh r) r
| mn_hld r : mentions (Hld r) r
| mn_ref n r i m args : mentions (Ref n (Some r) i m args) r
| mn_arg n r i m args x q : In x args -> mentions x q -> mentions (Ref n (Some r) i m args) q
| mn_seq kg l x q : In x l -> mentions x q -> mentions (Seq kg l) q
| mn_cho fl fs l x q : In x l -> mentions x q -> mentions (Cho fl fs l) q
| mn_rep e a b s q : mentions e q -> mentions (Rep e a b s) q
| mn_and e q : mentions e q -> mentions (And e) q
| mn_not e q : mentions e q -> mentions (Not e) q
| mn_csc e q : mentions e q -> mentions (Csc e) q
| mn_cap n e q : mentions e q -> mentions (Cap n e) q
| mn_tok e q : mentions e q -> mentions (Tok e) q
| mn_ign e q : mentions e q -> mentions (Ign e) q
| mn_wsp e q : mentions e q -> mentions (Wsp e) q
| mn_rcv e q : mentions e q -> mentions (Rcv e) q
| mn_pre1 a b t r q : mentions a q -> mentions (Pre a b t r) q
| mn_pre2 a b t r q : mentions b q -> mentions (Pre a b t r) q.
Inductive reachable (g : grammar) (start : rid) (ws word : option ope) : rid -> Prop :=
| rc_start : reachable g start ws word start
| rc_ws w r : ws = Some w -> mentions w r -> reachable g start ws word r
| rc_word w r : word = Some w -> mentions w r -> reachable g start ws word r
| rc_rule q d b r : reachable g start ws word q -> nth_error g q = Some d -> r_body d = Some b -> mentions b r ->
    reachable g start ws word r.

(** Two parsers that differ at most in rules which cannot be reached. *)
Record same_reachable {V U} (P Q : pobj V U) : Prop := {
  sr_start : p_start P = p_start Q; sr_ws : p_ws P = p_ws Q; sr_word : p_word P = p_word Q;
  sr_packrat : p_packrat P = p_packrat Q; sr_cached : p_cached P = p_cached Q; sr_eoi : p_eoi P = p_eoi Q;
  sr_tracer : p_tracer P = p_tracer Q; sr_verbose : p_verbose P = p_verbose Q; sr_log : p_log P = p_log Q;
  sr_u0 : p_u0 P = p_u0 Q; sr_user : p_user P = p_user Q;
  sr_rule : forall r, reachable (p_g P) (p_start P) (p_ws P) (p_word P) r ->
    nth_error (p_g P) r = nth_error (p_g Q) r /\ p_slot P r = p_slot Q r /\ p_action P r = p_action Q r /\ p_pred P r = p_pred Q r
    /\ p_enter P r = p_enter Q r /\ p_leave P r = p_leave Q r
}.
(** Rules named in messages are reachable too. *)
Definition names_reachable (g : grammar) (start : rid) (ws word : option ope) : Prop :=
  let R := reachable g start ws word in
  (forall w, ws = Some w \/ word = Some w -> Forall R (message_names w)) /\
  (forall r d b, R r -> nth_error g r = Some d -> r_body d = Some b -> Forall R (message_names b)).

(** Two parsers for the same grammar whose semantic callbacks are unrelated, except
    that predicates and user-defined parsers do not look at the values. *)
Definition same_shape {V1 V2} (x : sv V1) (y : sv V2) : Prop :=
  List.length (v_vals x) = List.length (v_vals y) /\ v_tags x = v_tags y /\ v_toks x = v_toks y /\ v_sv x = v_sv y
  /\ v_cc x = v_cc y /\ v_ch x = v_ch y /\ v_name x = v_name y.
(** A predicate that is absent accepts. *)
Definition verdict {V U} (P : pobj V U) (r : rid) (inp : bytes) (vs : sv V) (dt : U) : bool * bytes :=
  match p_pred P r with Some f => fst (f inp vs dt) | None => (true, []) end.
(** Rules with a {precedence ...} table. *)
Fixpoint prec_rules (o : ope) : list rid :=
  match o with
  | Seq _ l | Cho _ _ l => flat_map prec_rules l
  | Rep e _ _ _ | And e | Not e | Csc e | Cap _ e | Tok e | Ign e | Wsp e | Rcv e => prec_rules e
  | Pre a b _ r => r :: prec_rules a ++ prec_rules b
  | Ref _ _ _ _ args => flat_map prec_rules args
  | _ => []
  end.
Definition owns_precedence (g : grammar) (ws word : option ope) (q : rid) : Prop :=
  (exists w, (ws = Some w \/ word = Some w) /\ In q (prec_rules w)) \/
  (exists r d b, nth_error g r = Some d /\ r_body d = Some b /\ In q (prec_rules b)).
Record same_but_actions {V1 U1 V2 U2} (P : pobj V1 U1) (Q : pobj V2 U2) : Prop := {
  sa_g : p_g P = p_g Q; sa_start : p_start P = p_start Q; sa_ws : p_ws P = p_ws Q; sa_word : p_word P = p_word Q;
  sa_packrat : p_packrat P = p_packrat Q; sa_slot : p_slot P = p_slot Q; sa_cached : p_cached P = p_cached Q;
  sa_eoi : p_eoi P = p_eoi Q; sa_log : p_log P = p_log Q;
  sa_pred : forall r inp x y d e, same_shape x y -> verdict P r inp x d = verdict Q r inp y e;
  sa_user : forall id inp pos x y d e, same_shape x y ->
    let '(n, x', _) := p_user P id inp pos x d in let '(k, y', _) := p_user Q id inp pos y e in n = k /\ same_shape x' y';
  sa_prec : forall q, owns_precedence (p_g P) (p_ws P) (p_word P) q -> (p_action P q = None <-> p_action Q q = None)
}.

(** What does not depend on actions: everything but the values and the user data. *)
Definition unvalued {V U} (x : bool * list report * result V U) :=
  let '(b, reps, r) := x in (b, reps, rs_ret r, rs_recovered r, rs_len r, rs_err r).
Definition outer_view {V U} (x : outcome (bool * list report * result V U)) := let* y := x in Ok (unvalued y).
