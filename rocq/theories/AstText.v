(** * Printing an AST: ast_to_s (peglib.h 6547-6578). *)
From Coq Require Import Decimal.
From Verif Require Import Base LineInfo Ope Ctx AstM.

(** std::to_string of a size_t, 6556. *)
Fixpoint digits (u : uint) : bytes :=
  match u with
  | Nil => []
  | D0 u => x30 :: digits u | D1 u => x31 :: digits u | D2 u => x32 :: digits u | D3 u => x33 :: digits u
  | D4 u => x34 :: digits u | D5 u => x35 :: digits u | D6 u => x36 :: digits u | D7 u => x37 :: digits u
  | D8 u => x38 :: digits u | D9 u => x39 :: digits u
  end.
Definition to_string (n : nat) : bytes := digits (Nat.to_uint n).

(** 6551-6553: two blanks per level. *)
Fixpoint blanks (level : nat) : bytes := match level with O => [] | S l => x20 :: x20 :: blanks l end.
(** 6554-6558: the name shown. *)
Definition shown_name (d : adata) : bytes :=
  a_original_name d
  ++ (if 0 <? a_original_choice_count d then bs "/" ++ to_string (a_original_choice d) else [])
  ++ (if bytes_eqb (a_name d) (a_original_name d) then [] else bs "[" ++ a_name d ++ bs "]").
(** 6559-6565: the node's own line.  The token is a string_view into the text [input]. *)
Definition node_line (input : bytes) (d : adata) (level : nat) : bytes :=
  blanks level
  ++ (if a_is_token d then bs "- " ++ shown_name d ++ bs " (" ++ sub input (fst (a_token d)) (snd (a_token d)) ++ bs ")" ++ [x0a]
      else bs "+ " ++ shown_name d ++ [x0a]).
Section Print.
  Variables (h : heap) (input : bytes).
  (* the optional callback; its result is appended after the node's line *)
  Variable fn : option (addr -> nat -> bytes).
  (** ast_to_s_core, 6547-6570; [s] is the text printed so far. *)
  Fixpoint ast_to_s_core (fuel : nat) (a : addr) (s : bytes) (level : nat) : outcome bytes :=
    match fuel with
    | O => OutOfFuel
    | S fuel' =>
      let* c := get_cell h a in
      let s1 := s ++ node_line input (n_data c) level in
      let s2 := match fn with Some f => s1 ++ f a (level + 1) | None => s1 end in
      (fix each l s := match l with
                       | [] => Ok s
                       | n :: l' => let* s' := ast_to_s_core fuel' n s (level + 1) in each l' s'
                       end) (n_nodes c) s2
    end.
  (** ast_to_s, 6572-6578. *)
  Definition ast_to_s (fuel : nat) (a : addr) : outcome bytes := ast_to_s_core fuel a [] 0.
End Print.
