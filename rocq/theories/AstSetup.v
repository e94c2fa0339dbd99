(** * The parsers enable_ast makes: every rule gets the action of add_ast_action. *)
From Verif Require Import Base Ope Ctx Engine Top AstM.

(** What enable_ast (7004-7009) leaves as it was: the grammar and the options of the
    parser; custom parsers and predicates that look at the text only. *)
Record ast_setup := {
  as_g : grammar; as_start : rid; as_ws : option ope; as_word : option ope;
  as_packrat : bool; as_slot : rid -> option nat; as_cached : nat; as_eoi : bool;
  as_tracer : bool; as_verbose : bool; as_log : bool;
  as_pred : rid -> option (bytes -> nat * nat -> bool * bytes);
  as_user : nat -> bytes -> nat -> option nat
}.
(** The parser whose rules have the actions [act], add_ast_action 6623-6658 over all rules
    (enable_ast 7004-7009). *)
Definition setup_parser {V U} (S : ast_setup) (act : rule -> bytes -> sv V -> U -> option V -> option V * U) (u0 : U) : pobj V U :=
  {| p_g := as_g S; p_start := as_start S; p_ws := as_ws S; p_word := as_word S; p_packrat := as_packrat S;
     p_slot := as_slot S; p_cached := as_cached S; p_eoi := as_eoi S; p_tracer := as_tracer S;
     p_verbose := as_verbose S; p_log := as_log S; p_u0 := u0;
     p_action := fun r => match nth_error (as_g S) r with Some d => Some (act d) | None => None end;
     p_pred := fun r => match as_pred S r with Some f => Some (fun i vs _ => (f i (v_sv vs), None)) | None => None end;
     p_enter := fun _ => None; p_leave := fun _ => None;
     p_user := fun id i pos vs u => (as_user S id i pos, vs, u) |}.
(** Trees held by value (as in C34), and shared nodes with the heap as user data. *)
Definition tree_parser (path : bytes) (S : ast_setup) : pobj tree unit := setup_parser S (ast_action path) tt.
Definition node_parser (path : bytes) (S : ast_setup) : pobj addr heap := setup_parser S (ast_action_heap path) [].
