(** * The model run on the project's own conformance suite (tests, not proofs)
    /repo/spec/tests holds grammar texts, inputs and the expected outcome of each parse;
    /repo/harness/cpp/harness.cc is its driver.  Here the same driver is written on the model: the
    grammar text is read and loaded ([load_text]), the input parsed ([parser_parse]), the
    result, the tree as text, the error reports, the value and the enter/leave callbacks
    compared.  The files Conform*.v are generated from the JSON files by
    tools/mkconform.py; they check the model, they prove no property. *)
From Coq Require Import NArith ZArith Strings.Byte.
From Verif Require Import Base Ope Ctx Engine Top LoadM MetaM PropLoad PropMeta AstM AstText AstSetup PackratFilter.

Definition many : nat := N.to_nat 20000.
Definition bl (l : list N) : bytes := map (fun n => match Byte.of_N n with Some b => b | None => x00 end) l.
Definition eqb_opt (a b : option bool) : bool := match a, b with Some x, Some y => Bool.eqb x y | None, _ => true | _, _ => false end.
Definition idx (l : list rid) (r : rid) : nat :=
  (fix go l i := match l with [] => i | x :: l' => if Nat.eqb x r then i else go l' (S i) end) l 0.

(** Loading, harness.cc 560-580. *)
Definition conf_load (lr : bool) (start text : list N) : option verdict :=
  match load_text many no_keys lr (fun x => x) meta_g true (bl start) (bl text) with Ok (v, _) => v | _ => None end.
Definition conf_rejected (lr : bool) (start text : list N) : bool := match conf_load lr start text with Some Rejected => true | _ => false end.
Definition conf_accepted (lr : bool) (start text : list N) : bool := match conf_load lr start text with Some (Accepted _) => true | _ => false end.

(** The parser object made from the loaded grammar, with the memo slots of
    initialize_packrat_filter. *)
Definition conf_setup (packrat : bool) (l : loaded) : ast_setup :=
  let ids := id_list (definition_ids (ld_g l) (ld_start l) (ld_ws l) (ld_word l)) in
  let (index, c) := packrat_filter (ld_g l) (idx ids) (List.length ids) (fun _ _ => false) (ld_start l) (ld_ws l) (ld_word l) ids in
  {| as_g := ld_g l; as_start := ld_start l; as_ws := ld_ws l; as_word := ld_word l; as_packrat := packrat;
     as_slot := fun r => cache_slot index (idx ids r); as_cached := c; as_eoi := true; as_tracer := false; as_verbose := false; as_log := true;
     as_pred := fun _ => None; as_user := fun _ _ _ => None |}.
(** get_no_ast_opt_rules, peglib.h 7038-7048. *)
Definition kept_rules (g : grammar) : list bytes :=
  flat_map (fun d => if r_no_ast_opt d then [match r_ast_name d with [] => r_name d | n => n end] else []) g.

(** What a case expects. *)
Record expect := { x_match : option bool; x_ast : option (list N);
                   x_whole : bool; x_errs : list (option nat * option nat * option (list N));
                   x_value : option Z; x_trace : option (bool * list (bool * list N)); x_input : list N }.
Definition same_rep (e : option nat * option nat * option (list N)) (r : report) : bool :=
  let '(l, c, t) := e in
  match l with Some x => Nat.eqb x (rp_line r) | None => true end
  && match c with Some x => Nat.eqb x (rp_col r) | None => true end
  && match t with Some x => bytes_eqb (bl x) (rp_text r) | None => true end.
Fixpoint same_reps (whole : bool) es (rs : list report) : bool :=
  match es, rs with
  | [], [] => true | [], _ => negb whole | _, [] => false
  | e :: es', r :: rs' => same_rep e r && same_reps whole es' rs'
  end.

(** Trees, harness.cc 653-656 and 680-690. *)
Definition conf_ast (packrat opt : bool) (l : loaded) (x : expect) : bool :=
  let inp := bl (x_input x) in
  match parser_parse many (node_parser [] (conf_setup packrat l)) inp [] with
  | Ok (m, reps, r) =>
    eqb_opt (x_match x) (Some m) && same_reps (x_whole x) (x_errs x) reps
    && match x_ast x, result_value r with
       | None, _ => true
       | Some _, None => negb m
       | Some t, Some a =>
         match (if opt && m then optimize true (kept_rules (ld_g l)) many (rs_dt r) a None else Ok (rs_dt r, a)) with
         | Ok (h, a') => match ast_to_s h inp None many a' with Ok s => bytes_eqb (bl t) s | _ => false end
         | _ => false
         end
       end
  | _ => false
  end.

(** ** Actions, bind_action, harness.cc 120-240 *)
Inductive cval := Num (z : Z) | Str (s : bytes).
Inductive binop := Add | Sub | Mul | Div.
Inductive act := ANumber | AString | AChoice | ASize | APass (i : nat)
  | ACases (cs : list (nat * (binop * nat * nat))) (dflt : nat) | AReduce (ops : list (list N * binop)).
Definition num (v : option (option cval)) : Z := match v with Some (Some (Num z)) => z | _ => 0%Z end.
Definition apply (o : binop) (a b : Z) : Z := match o with Add => a + b | Sub => a - b | Mul => a * b | Div => Z.quot a b end%Z.
Definition tok {V} (input : bytes) (vs : sv V) : bytes := let (p, n) := token_span vs in sub input p n.
Fixpoint decimal (l : bytes) (z : Z) : Z := match l with [] => z | b :: l' => decimal l' (10 * z + Z.of_N (Byte.to_N b) - 48)%Z end.
Fixpoint reduce_ops (ops : list (list N * binop)) (z : Z) (l : list (option cval)) : Z :=
  match l with
  | Some (Str o) :: v :: l' =>
    reduce_ops ops (match find (fun p => bytes_eqb (bl (fst p)) o) ops with Some p => apply (snd p) z (num (Some v)) | None => z end) l'
  | _ => z
  end.
Definition run_act (a : act) (input : bytes) (vs : sv cval) : option cval :=
  let at' i := nth_error (v_vals vs) i in
  match a with
  | ANumber => Some (Num (decimal (tok input vs) 0))
  | AString => Some (Str (tok input vs))
  | AChoice => Some (Num (Z.of_nat (v_ch vs)))
  | ASize => Some (Num (Z.of_nat (List.length (v_vals vs))))
  | APass i => match at' i with Some v => v | None => None end
  | ACases cs d =>
    match find (fun p => Nat.eqb (fst p) (v_ch vs)) cs with
    | Some (_, (o, l, r)) => Some (Num (apply o (num (at' l)) (num (at' r))))
    | None => Some (Num (num (at' d)))
    end
  | AReduce ops => match v_vals vs with v :: l => Some (Num (reduce_ops ops (num (Some v)) l)) | [] => Some (Num 0) end
  end.

(** ** Handlers, bind_handlers and bind_trace, harness.cc 295-455
    The state is the trace, newest first, one flag and one counter. *)
Record cstate := { s_trace : list (bool * bytes); s_flag : bool; s_count : Z }.
Inductive upd := SetFlag (b : bool) | Count (z : Z) | Record_.
Inductive check := Between (a b : Z) | NotIn (l : list (list N)) | Upper.
Definition run_upd (enter : bool) (name : bytes) (u : upd) (s : cstate) : cstate :=
  match u with
  | SetFlag b => {| s_trace := s_trace s; s_flag := b; s_count := s_count s |}
  | Count z => {| s_trace := s_trace s; s_flag := s_flag s; s_count := (s_count s + z)%Z |}
  | Record_ => {| s_trace := (enter, name) :: s_trace s; s_flag := s_flag s; s_count := s_count s |}
  end.
Definition run_check (k : check) (input : bytes) (vs : sv cval) : bool :=
  match k with
  | Between a b => let z := decimal (tok input vs) 0 in (a <=? z)%Z && (z <=? b)%Z
  | NotIn l => negb (existsb (fun w => bytes_eqb (bl w) (tok input vs)) l)
  | Upper => let s := sub input (fst (v_sv vs)) (snd (v_sv vs)) in
             match s with [] => false | _ => forallb (fun b => (65 <=? Byte.to_N b)%N && (Byte.to_N b <=? 90)%N) s end
  end.
Record hooks := { h_act : list (list N * act); h_enter : list (list N * upd); h_leave : list (list N * upd);
                  h_pred : list (list N * (bool * check * list N)); h_flag : bool }.
Definition no_hooks : hooks := {| h_act := []; h_enter := []; h_leave := []; h_pred := []; h_flag := false |}.
Definition hook {A} (g : grammar) (l : list (list N * A)) (r : rid) : option (bytes * A) :=
  match nth_error g r with
  | Some d => match find (fun p => bytes_eqb (bl (fst p)) (r_name d)) l with Some p => Some (r_name d, snd p) | None => None end
  | None => None
  end.
Definition conf_parser (packrat : bool) (h : hooks) (l : loaded) : pobj cval cstate :=
  let S := conf_setup packrat l in let g := ld_g l in
  {| p_g := g; p_start := as_start S; p_ws := as_ws S; p_word := as_word S; p_packrat := as_packrat S;
     p_slot := as_slot S; p_cached := as_cached S; p_eoi := true; p_tracer := false; p_verbose := false; p_log := true;
     p_u0 := {| s_trace := []; s_flag := h_flag h; s_count := 0 |};
     p_action := fun r => match hook g (h_act h) r with Some (_, a) => Some (fun i vs u _ => (run_act a i vs, u)) | None => None end;
     p_pred := fun r => match hook g (h_pred h) r with
       | Some (_, (when, k, msg)) => Some (fun i vs u =>
           if when && negb (s_flag u) then (true, [], None)
           else if run_check k i vs then (true, [], None) else (false, bl msg, None))
       | None => None end;
     p_enter := fun r => match hook g (h_enter h) r with Some (n, a) => Some (fun _ _ u => run_upd true n a u) | None => None end;
     p_leave := fun r => match hook g (h_leave h) r with Some (n, a) => Some (fun _ _ _ v u => (v, run_upd false n a u)) | None => None end;
     p_user := fun _ _ _ vs u => (None, vs, u) |}.
Fixpoint same_trace (whole : bool) (es : list (bool * list N)) (l : list (bool * bytes)) : bool :=
  match es, l with
  | [], [] => true | [], _ => negb whole | _, [] => false
  | (b, n) :: es', (b', n') :: l' => Bool.eqb b b' && bytes_eqb (bl n) n' && same_trace whole es' l'
  end.
(** The driver, harness.cc 545-770; [x_value] of a case with a counter is its final state. *)
Definition conf_case (packrat : bool) (h : hooks) (l : loaded) (x : expect) : bool :=
  let P := conf_parser packrat h l in
  match parser_parse many P (bl (x_input x)) (p_u0 P) with
  | Ok (m, reps, r) =>
    eqb_opt (x_match x) (Some m) && same_reps (x_whole x) (x_errs x) reps
    && match x_value x with
       | None => true
       | Some z => negb m || match result_value r with Some (Num z') => Z.eqb z z' | _ => Z.eqb z (s_count (rs_dt r)) end
       end
    && match x_trace x with None => true | Some (w, es) => same_trace w es (rev (s_trace (rs_dt r))) end
  | _ => false
  end.
Definition conf_group (lr : bool) (start text : list N) (one : loaded -> expect -> bool) (xs : list expect) : bool :=
  match conf_load lr start text with Some (Accepted l) => forallb (one l) xs | _ => false end.

(** Single rules of the meta-grammar: ParserGenerator::parse_test, peglib.h 5388-5395. *)
Definition conf_meta (rule : list N) (xs : list (list N * bool)) : bool :=
  match rule_named meta_g (bl rule) with
  | None => false
  | Some s =>
    let P := {| p_g := meta_g; p_start := s; p_ws := None; p_word := None; p_packrat := false; p_slot := fun _ => None; p_cached := 0;
       p_eoi := true; p_tracer := false; p_verbose := false; p_log := false; p_u0 := data0; p_action := meta_action; p_pred := fun _ => None;
       p_enter := meta_enter; p_leave := meta_leave; p_user := fun _ _ _ vs d => (None, vs, d) |} in
    forallb (fun p => match def_parse many P (bl (fst p)) data0 with
                      | Ok r => Bool.eqb (snd p) (rs_ret r && Nat.eqb (rs_len r) (List.length (fst p)))
                      | _ => false end) xs
  end.
