(** * The AST and its optimizer: AstBase (peglib.h 6480-6545) and AstOptimizer (6581-6618).
    Nodes live in a heap and are shared by address, as shared_ptr / weak_ptr do; the
    memory is never freed (so weak pointers do not expire). *)
From Verif Require Import Base LineInfo Ope Ctx.

(** The fields of AstBase other than [nodes] and [parent].  The token is the span of its
    string_view in the text. *)
Record adata := {
  a_path : bytes; a_line : nat; a_column : nat; a_name : bytes; a_position : nat; a_length : nat;
  a_choice_count : nat; a_choice : nat; a_original_name : bytes; a_original_choice_count : nat; a_original_choice : nat;
  a_tag : N; a_original_tag : N; a_is_token : bool; a_preserve_position : bool; a_token : nat * nat
}.
(** The third constructor, 6505-6516: a copy of [ast] standing for a collapsed node. *)
Definition ast_merge (ast : adata) (original_name : bytes) (position length original_choice_count original_choice : nat) : adata :=
  {| a_path := a_path ast; a_line := a_line ast; a_column := a_column ast; a_name := a_name ast;
     a_position := position; a_length := length; a_choice_count := a_choice_count ast; a_choice := a_choice ast;
     a_original_name := original_name; a_original_choice_count := original_choice_count; a_original_choice := original_choice;
     a_tag := a_tag ast; a_original_tag := str2tag original_name; a_is_token := a_is_token ast;
     a_preserve_position := a_preserve_position ast; a_token := a_token ast |}.

Definition addr := nat.
Record cell := { n_data : adata; n_nodes : list addr; n_parent : option addr }.
Definition heap := list cell.
Definition get_cell (h : heap) (a : addr) : outcome cell :=
  match nth_error h a with Some c => Ok c | None => UB NullDeref end.
Fixpoint put_cell (h : heap) (a : addr) (c : cell) : heap :=
  match h, a with
  | [], _ => []
  | _ :: h', O => c :: h'
  | x :: h', S a' => x :: put_cell h' a' c
  end.
(** std::make_shared. *)
Definition alloc (h : heap) (c : cell) : heap * addr := (h ++ [c], List.length h).

(** node->parent = ast, for every node of a list (6600-6602, 6654-6656). *)
Fixpoint set_parents (h : heap) (ns : list addr) (a : addr) : outcome heap :=
  match ns with
  | [] => Ok h
  | n :: ns' =>
    let* c := get_cell h n in
    set_parents (put_cell h n {| n_data := n_data c; n_nodes := n_nodes c; n_parent := Some a |}) ns' a
  end.

Section Optimize.
  Variables (mode : bool) (rules : list bytes).
  (** 6588-6590. *)
  Definition opt_name (name : bytes) : bool :=
    let found := existsb (bytes_eqb name) rules in if mode then negb found else found.

  (** AstOptimizer::optimize, 6585-6613. *)
  Fixpoint optimize (fuel : nat) (h : heap) (original : addr) (parent : option addr) : outcome (heap * addr) :=
    match fuel with
    | O => OutOfFuel
    | S fuel' =>
      let* o := get_cell h original in
      match n_nodes o with
      | [first] =>
        if opt_name (a_name (n_data o)) then
          let* (h1, child) := optimize fuel' h first parent in
          let* c := get_cell h1 child in
          let d := n_data c in
          let pos := if a_preserve_position d then a_position d else a_position (n_data o) in
          let len := if a_preserve_position d then a_length d else a_length (n_data o) in
          let (h2, ast) := alloc h1 {| n_data := ast_merge d (a_name (n_data o)) pos len (a_choice_count (n_data o)) (a_choice (n_data o));
                                       n_nodes := n_nodes c; n_parent := n_parent c |} in
          let* h3 := set_parents h2 (n_nodes c) ast in
          Ok (h3, ast)
        else copy fuel' h o parent
      | _ => copy fuel' h o parent
      end
    end
  with copy (fuel : nat) (h : heap) (o : cell) (parent : option addr) : outcome (heap * addr) :=
    match fuel with
    | O => OutOfFuel
    | S fuel' =>
      let (h1, ast) := alloc h {| n_data := n_data o; n_nodes := []; n_parent := parent |} in
      let* h2 := children fuel' h1 (n_nodes o) ast in
      Ok (h2, ast)
    end
  (** The loop over the original's nodes, 6608-6611. *)
  with children (fuel : nat) (h : heap) (ns : list addr) (ast : addr) : outcome heap :=
    match fuel with
    | O => OutOfFuel
    | S fuel' =>
      match ns with
      | [] => Ok h
      | n :: ns' =>
        let* (h1, child) := optimize fuel' h n (Some ast) in
        let* a := get_cell h1 ast in
        children fuel' (put_cell h1 ast {| n_data := n_data a; n_nodes := n_nodes a ++ [child]; n_parent := n_parent a |}) ns' ast
      end
    end.
End Optimize.

(** ** Building the tree, add_ast_action 6623-6658
    Here a node holds its children by value; the shared, parent-linked form is in
    [Section HeapAction] below. *)
Inductive tree := T (d : adata) (l : list tree).
Definition t_data (t : tree) := let (d, _) := t in d.
Definition t_nodes (t : tree) := let (_, l) := t in l.
(** The two constructors 6481-6503.  [path] is the name given to parse ("" if none). *)
Definition new_data (path : bytes) (line column : nat) (name : bytes) (token : option (nat * nat))
  (position length choice_count choice : nat) (preserve_position : bool) : adata :=
  {| a_path := path; a_line := line; a_column := column; a_name := name; a_position := position; a_length := length;
     a_choice_count := choice_count; a_choice := choice; a_original_name := name; a_original_choice_count := choice_count;
     a_original_choice := choice; a_tag := str2tag name; a_original_tag := str2tag name;
     a_is_token := match token with Some _ => true | None => false end; a_preserve_position := preserve_position;
     a_token := match token with Some t => t | None => (0, 0) end |}.
(** SemanticValues::token(0), 603-607, as a span. *)
Definition token_span {V} (vs : sv V) : nat * nat := match v_toks vs with t :: _ => t | [] => v_sv vs end.
(** Fields computed by the action.  line_info cannot fail here (C09); the model uses (1, 1) if it did. *)
Definition node_data {V} (path : bytes) (d : rule) (input : bytes) (vs : sv V) : adata :=
  let (ln, col) := match line_info input (fst (v_sv vs)) with Ok x => x | _ => (1, 1) end in
  let name := match r_ast_name d with [] => r_name d | n => n end in
  let tok := match r_body d with Some o => is_token_ope o | None => false end in
  new_data path ln col name (if tok then Some (token_span vs) else None)
    (fst (v_sv vs)) (snd (v_sv vs)) (v_cc vs) (v_ch vs) (r_no_ast_opt d).
Fixpoint somes {A} (l : list (option A)) : list A :=
  match l with [] => [] | Some x :: l' => x :: somes l' | None :: l' => somes l' end.
(** The action of rule [d].  vs.transform throws bad_any_cast on a value that is not a
    node; the model leaves such a value out (no AST is returned then by the code). *)
Definition ast_action {U} (path : bytes) (d : rule) (input : bytes) (vs : sv tree) (u : U) (pd : option tree) : option tree * U :=
  let nd := node_data path d input vs in
  (Some (T nd (if a_is_token nd then [] else somes (v_vals vs))), u).

Section HeapAction.
  (** The same with shared nodes: the heap travels as the user data. *)
  Definition ast_action_heap (path : bytes) (d : rule) (input : bytes) (vs : sv addr) (h : heap) (pd : option addr) : option addr * heap :=
    let nd := node_data path d input vs in
    let ns := if a_is_token nd then [] else somes (v_vals vs) in
    let (h1, a) := alloc h {| n_data := nd; n_nodes := ns; n_parent := None |} in
    (* set_parents cannot fail: the children are nodes (AstShared.v) *)
    (Some a, match set_parents h1 ns a with Ok h2 => h2 | _ => h1 end).
End HeapAction.
