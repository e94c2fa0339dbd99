(** * Several parses with one grammar object.

    What one parse leaves behind for the next (everything else is created by
    parse_core, 3341-3420): in every Definition the id and has_macro_ref written by
    AssignIDToDefinition (2438-2460, 4342-4368), and in the start Definition the
    results guarded by std::once_flag (3430-3440): the scan itself and
    packrat_index_.  A parse may be started from any rule, each with its own
    settings. *)
From Verif Require Import Base BaseLemmas Utf8 Escape TrieM LineInfo Ope Ctx ErrLog Engine Top IndepSpec PackratFilter.

Record sess := {
  s_id : rid -> nat;                                 (* Definition::id, 0 initially *)
  s_mark : rid -> bool;                              (* has_macro_ref, true initially *)
  s_done : list rid;                                 (* definition_ids_init_ has fired *)
  s_index : list (rid * (list (option nat) * nat))   (* packrat_filter_init_ has fired *)
}.
Definition sess0 : sess := {| s_id := fun _ => 0; s_mark := fun _ => true; s_done := []; s_index := [] |}.

Definition with_mark (b : bool) (d : rule) : rule :=
  {| r_name := r_name d; r_body := r_body d; r_ignore := r_ignore d; r_is_macro := r_is_macro d; r_params := r_params d;
     r_disable_action := r_disable_action d; r_lr := r_lr d; r_can_be_empty := r_can_be_empty d; r_macro_ref := b;
     r_error_message := r_error_message d; r_no_ast_opt := r_no_ast_opt d; r_no_whitespace := r_no_whitespace d;
     r_ast_name := r_ast_name d |}.
Fixpoint marked_from (i : nat) (mk : rid -> bool) (g : grammar) : grammar :=
  match g with [] => [] | d :: g' => with_mark (mk i) d :: marked_from (S i) mk g' end.
Definition marked := marked_from 0.

Fixpoint index_of (r : rid) (l : list rid) : option nat :=
  match l with [] => None | x :: l' => if x =? r then Some 0 else option_map S (index_of r l') end.

Section Session.
  Context {V U : Type}.
  Variable g : grammar.
  (** The settings of each Definition when it is used as a start rule; [p_g],
      [p_slot], [p_cached] and [p_start] of it are not used. *)
  Variable cfg : rid -> pobj V U.
  Variable sig : ope -> ope -> bool.

  (** initialize_definition_ids, 3334-3345. *)
  Definition scan (s : rid) : ids_st := definition_ids g s (p_ws (cfg s)) (p_word (cfg s)).
  Definition mark_of (r : rid) : bool :=
    match nth_error g r with Some d => match r_body d with Some b => calls_macro g b | None => false end | None => false end.
  Definition assign_ids (s : rid) (se : sess) : sess :=
    if nmem s (s_done se) then se
    else
      let l := id_list (scan s) in
      {| s_id := fun r => match index_of r l with Some i => i | None => s_id se r end;
         s_mark := fun r => match index_of r l with Some _ => mark_of r | None => s_mark se r end;
         s_done := s :: s_done se; s_index := s_index se |}.
  (** initialize_packrat_filter, called from 3355-3363. *)
  Definition assign_filter (s : rid) (se : sess) : sess :=
    if negb (p_packrat (cfg s)) then se
    else match nfind (s_index se) s with
         | Some _ => se
         | None =>
           let l := id_list (scan s) in
           {| s_id := s_id se; s_mark := s_mark se; s_done := s_done se;
              s_index := (s, packrat_filter g (s_id se) (List.length l) sig s (p_ws (cfg s)) (p_word (cfg s)) l) :: s_index se |}
         end.
  Definition prepare (s : rid) (se : sess) : sess := assign_filter s (assign_ids s se).

  (** The parser a parse from rule [s] amounts to; without packrat the slots are not
      read. *)
  Definition start_at (s : rid) (se : sess) : pobj V U :=
    let P := cfg s in
    let idx := match nfind (s_index se) s with Some x => x | None => ([], 0) end in
    {| p_g := marked (s_mark se) g; p_start := s; p_ws := p_ws P; p_word := p_word P; p_packrat := p_packrat P;
       p_slot := if p_packrat P then fun r => cache_slot (fst idx) (s_id se r) else fun _ => None;
       p_cached := if p_packrat P then snd idx else 0;
       p_eoi := p_eoi P; p_tracer := p_tracer P; p_verbose := p_verbose P; p_log := p_log P; p_u0 := p_u0 P;
       p_action := p_action P; p_pred := p_pred P; p_enter := p_enter P; p_leave := p_leave P; p_user := p_user P |}.

  (** A call: start rule, text, user data. *)
  Definition call := (rid * bytes * U)%type.
  Definition one (fuel : nat) (se : sess) (c : call) : outcome (bool * list report * result V U) :=
    let '(s, text, dt) := c in parser_parse fuel (start_at s (prepare s se)) text dt.
  (** The results of the calls of a session, in order. *)
  Fixpoint run (fuel : nat) (se : sess) (cs : list call) : list (outcome (bool * list report * result V U)) :=
    match cs with
    | [] => []
    | c :: cs' => one fuel se c :: run fuel (prepare (fst (fst c)) se) cs'
    end.
  (** The same call on a grammar object that has not been used before. *)
  Definition alone (fuel : nat) (c : call) : outcome (bool * list report * result V U) := one fuel sess0 c.
End Session.
