(** * Top level: Definition::parse_core (peglib.h 3341-3420),
    initialize_definition_ids (3334-3345, 4339-4368), parser::parse
    (6851-6898, 7031-7036). *)
From Verif Require Import Base Utf8 Escape TrieM LineInfo Ope Ctx ErrLog Engine.

(** AssignIDToDefinition, 2438-2460 and 4339-4368.  State: definitions met, in
    order (the id is the index); a Cut or Recovery was met; a User or
    PrecedenceClimbing operator was met.  [fuel] bounds the nesting of rules
    entered: each entered rule is new, so the number of rules suffices. *)
Record ids_st := { id_list : list rid; id_cut : bool; id_opaque : bool }.
Definition ids_cut (st : ids_st) := {| id_list := id_list st; id_cut := true; id_opaque := id_opaque st |}.
Definition ids_opaque (st : ids_st) := {| id_list := id_list st; id_cut := id_cut st; id_opaque := true |}.
Definition mem_rid (r : rid) (l : list rid) : bool := existsb (Nat.eqb r) l.

Section Ids.
  Variable enter : rid -> ids_st -> ids_st.       (* visit(Holder&) *)
  Fixpoint ids_ope (o : ope) (st : ids_st) : ids_st :=
    let fix all l st := match l with [] => st | x :: l' => all l' (ids_ope x st) end in
    match o with
    | Seq _ l | Cho _ _ l => all l st
    | Rep e _ _ _ | And e | Not e | Csc e | Cap _ e | Tok e | Ign e | Wsp e => ids_ope e st
    | Rcv e => ids_ope e (ids_cut st)
    | Cut => ids_cut st
    | Usr _ => ids_opaque st
    | Pre a b _ _ => ids_ope b (ids_ope a (ids_opaque st))
    | Wkh r | Hld r => enter r st
    | Ref _ (Some r) _ _ args => enter r (all args st)
    | _ => st
    end.
End Ids.
Fixpoint ids_enter (fuel : nat) (g : grammar) (r : rid) (st : ids_st) : ids_st :=
  match fuel with
  | O => st
  | S fuel' =>
    if mem_rid r (id_list st) then st
    else
      let st1 := {| id_list := id_list st ++ [r]; id_cut := id_cut st; id_opaque := id_opaque st |} in
      match nth_error g r with
      | Some d => match r_body d with
                  | Some b => ids_ope (ids_enter fuel' g) b st1
                  | None => st1
                  end
      | None => st1
      end
  end.
(** initialize_definition_ids, 3334-3345. *)
Definition definition_ids (g : grammar) (start : rid) (ws word : option ope) : ids_st :=
  let en := ids_enter (S (List.length g)) g in
  let opt o st := match o with Some e => ids_ope en e st | None => st end in
  opt word (opt ws (en start {| id_list := []; id_cut := false; id_opaque := false |})).

(** The state of a [parser] object and the start Definition's settings that a
    parse reads.  [p_slot]/[p_cached]: result of initialize_packrat_filter
    (4753-4917), a performance heuristic whose choice is left open here. *)
Record pobj {V U : Type} := {
  p_g : grammar;
  p_start : rid;
  p_ws : option ope;
  p_word : option ope;
  p_packrat : bool;
  p_slot : rid -> option nat;
  p_cached : nat;
  p_eoi : bool;
  p_tracer : bool;          (* both tracer_enter and tracer_leave are set *)
  p_verbose : bool;
  p_log : bool;             (* log or error reporter set *)
  p_u0 : U;
  p_action : rid -> option (bytes -> sv V -> U -> option V -> option V * U);
  p_pred : rid -> option (bytes -> sv V -> U -> bool * bytes * option V);
  p_enter : rid -> option (bytes -> nat -> U -> U);
  p_leave : rid -> option (bytes -> nat -> option nat -> option V -> U -> option V * U);
  p_user : nat -> bytes -> nat -> sv V -> U -> option nat * sv V * U
}.
Arguments pobj : clear implicits.

(** Definition::Result, 3108-3113, and the rest of what a caller can observe. *)
Record result {V U : Type} := {
  rs_ret : bool;
  rs_recovered : bool;
  rs_len : nat;
  rs_vs : sv V;             (* the SemanticValues given to parse_core *)
  rs_err : errinfo;
  rs_out : list report;     (* callbacks made during the parse *)
  rs_evs : list event;      (* tracer callbacks, newest first *)
  rs_dt : U
}.
Arguments result : clear implicits.

Section Top.
  Context {V U : Type}.
  Implicit Types (P : pobj V U).

  Definition is_some {A} (x : option A) : bool := match x with Some _ => true | None => false end.

  (** The callback scan of recognizer mode, 3385-3395. *)
  Definition recognize_only P : bool :=
    let ids := definition_ids (p_g P) (p_start P) (p_ws P) (p_word P) in
    negb (id_opaque ids) && negb (p_tracer P) && negb (p_tracer P || p_log P) &&
    forallb (fun r => negb (is_some (p_action P r) || is_some (p_enter P r)
                            || is_some (p_leave P r) || is_some (p_pred P r))) (id_list ids).

  (** The Context built at 3371-3374. *)
  Definition mk_env P (input : bytes) : env V U :=
    {| e_g := p_g P; e_input := input; e_ws := p_ws P; e_word := p_word P;
       e_packrat := p_packrat P; e_slot := p_slot P; e_cached := p_cached P;
       e_has_cut := id_cut (definition_ids (p_g P) (p_start P) (p_ws P) (p_word P));
       e_tracer := p_tracer P; e_verbose := p_verbose P;
       e_need_rules := p_tracer P || p_log P; e_recog := recognize_only P;
       e_u0 := p_u0 P; e_action := p_action P; e_pred := p_pred P;
       e_enter := p_enter P; e_leave := p_leave P; e_user := p_user P |}.

  Definition mk_result (ret : bool) (len : nat) (vs : sv V) (c : ctx V U) : result V U :=
    {| rs_ret := ret; rs_recovered := c_rcv c; rs_len := len; rs_vs := vs;
       rs_err := c_err c; rs_out := c_out c; rs_evs := c_evs c; rs_dt := c_dt c |}.

  (** Definition::parse_core, 3341-3420.  [null - c.s] in the comparison at 3409
      is read as "below every position". *)
  Definition def_parse (fuel : nat) P (input : bytes) (dt : U) : outcome (result V U) :=
    let E := mk_env P input in
    let c0 := ctx_new (p_log P) dt in
    let* (wl, vs1, c1) :=
      (match p_ws P with
       | None => Ok (Some 0, sv_new, c0)
       | Some w =>
         let* (len, vs', c') := parse fuel E w 0 sv_new (set_ign (negb (p_verbose P)) c0) in
         Ok (len, vs', set_ign (c_ign c0) c')
       end) in
    match wl with
    | None => Ok (mk_result false 0 vs1 c1)
    | Some i =>
      let* (len, vs2, c2) := parse fuel E (Hld (p_start P)) i vs1 c1 in
      match len with
      | None => Ok (mk_result false i vs2 c2)
      | Some k =>
        let i' := i + k in
        if p_eoi P && (i' <? List.length input) then
          let c3 := if olt (ei_pos (c_err c2)) i'
                    then set_err (err_message i' (bs "expected end of input") None (c_err c2)) c2
                    else c2 in
          Ok (mk_result false i' vs2 c3)
        else Ok (mk_result true i' vs2 c2)
      end
    end.

  (** parser::parse_n and post_process, 6851-6858 and 7031-7036: the boolean and
      everything reported. *)
  Definition parser_parse (fuel : nat) P (input : bytes) (dt : U)
    : outcome (bool * list report * result V U) :=
    let* r := def_parse fuel P input dt in
    let* reps :=
      (if p_log P && negb (rs_ret r) then
         let* (_, rp) := output_log (p_g P) input (rs_err r) in
         Ok (rs_out r ++ match rp with Some x => [x] | None => [] end)
       else Ok (rs_out r)) in
    Ok (rs_ret r && negb (rs_recovered r), reps, r).

  (** parse_and_get_value, 3158-3168: the value handed to the caller. *)
  Definition result_value (r : result V U) : option V :=
    if rs_ret r then match v_vals (rs_vs r) with v :: _ => v | [] => None end else None.
End Top.
