(** * What a grammar text means once its definitions are known. *)
From Verif Require Import Base BaseLemmas TrieSpec Ope Ctx Engine Top PrecSpec LoadM NotationSpec.

(** The rule a definition makes. *)
Definition rule_of (x : def) : rule :=
  {| r_name := df_name x; r_body := Some (df_body x); r_ignore := df_ignored x;
     r_is_macro := match df_params x with Some _ => true | None => false end;
     r_params := match df_params x with Some ps => ps | None => [] end;
     r_disable_action := false; r_lr := false; r_can_be_empty := false; r_macro_ref := true; r_error_message := [];
     r_no_ast_opt := false; r_no_whitespace := false; r_ast_name := [] |}.
(** The built-in macro  ~%recover(x) <- x. *)
Definition recover_def : def :=
  {| df_ignored := true; df_name := bs "%recover"; df_params := Some [bs "x"]; df_body := Ref (bs "x") None 0 false []; df_instrs := [] |}.
(** The start rule: the first one whose name does not begin with a percent sign. *)
Definition percent (n : bytes) : bool := match n with c :: _ => beq c x25 | [] => false end.
Definition start_name (ds : list def) : bytes :=
  match find (fun x => negb (percent (df_name x))) ds with Some x => df_name x | None => [] end.
(** The instructions, by rule. *)
Definition instr_table (ds : list def) : list (bytes * list instr) :=
  flat_map (fun x => match df_instrs x with [] => [] | is => [(df_name x, is)] end) ds.
Definition instr_keyword (i : instr) : bytes :=
  match i with
  | IPrecedence _ => bs "precedence" | IMessage _ => bs "error_message" | INoAstOpt => bs "no_ast_opt"
  | INoWhitespace => bs "no_whitespace" | IAstName _ => bs "ast_name"
  end.
(** Every back reference of an expression comes after a capture of its name in the same
    expression; [before] is what came before. *)
Fixpoint local_refs (evs : list event) (before : list bytes) : bool :=
  match evs with
  | [] => true
  | Bound n :: evs' => local_refs evs' (n :: before)
  | Used n :: evs' => existsb (bytes_eqb n) before && local_refs evs' before
  | _ :: evs' => local_refs evs' before
  end.
(** Nothing is defined twice (the built-in macro included), every back reference follows a
    capture of its name earlier in the text that is not inside a closed $( ... ), and no
    definition has two instructions of a kind. *)
Definition consistent (ds : list def) : Prop :=
  NoDup (bs "%recover" :: map df_name ds)
  /\ unbound (flat_map (fun x => events (df_body x)) ds) [[]] = []
  /\ Forall (fun x => NoDup (map instr_keyword (df_instrs x))) ds.
