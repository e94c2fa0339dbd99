(** * Directly left-recursive rules as iterations (vocabulary of C19).

    A rule  A <- A a1 / ... / A an / b1 / ... / bm  is read as
    A <- (b1 / ... / bm) (a1 / ... / an)*. *)
From Verif Require Import Base Ope.

(** [o] is the alternative "A rest"? *)
Definition lr_alt (r : rid) (o : ope) : option (list ope) :=
  match o with
  | Seq _ (Ref _ (Some r') _ _ [] :: rest) => if r' =? r then Some rest else None
  | _ => None
  end.
(** The leading alternatives that start with A, without it; and the others. *)
Fixpoint split_lr (r : rid) (l : list ope) : list (list ope) * list ope :=
  match l with
  | [] => ([], [])
  | o :: l' =>
    match lr_alt r o with
    | Some rest => let (a, b) := split_lr r l' in (rest :: a, b)
    | None => ([], l)
    end
  end.
Definition iteration (a : list (list ope)) (b : list ope) : ope :=
  Seq None [Cho false [] b; Rep (Cho false [] (map (Seq None) a)) 0 None None].
Definition set_body (d : rule) (b : option ope) : rule :=
  {| r_name := r_name d; r_body := b; r_ignore := r_ignore d; r_is_macro := r_is_macro d; r_params := r_params d;
     r_disable_action := r_disable_action d; r_lr := false; r_can_be_empty := r_can_be_empty d; r_macro_ref := r_macro_ref d;
     r_error_message := r_error_message d; r_no_ast_opt := r_no_ast_opt d; r_no_whitespace := r_no_whitespace d; r_ast_name := r_ast_name d |}.
(** Left-recursive rules of any other shape (indirect recursion, A not first, token
    rules, macros) are not covered: they get no body. *)
Definition iterate_rule (r : rid) (d : rule) : rule :=
  if r_lr d then
    set_body d (match r_body d with
                | Some (Cho _ _ l) => if r_is_macro d || r_no_whitespace d then None
                                      else let (a, b) := split_lr r l in Some (iteration a b)
                | _ => None
                end)
  else d.
Fixpoint iterate_from (r : rid) (g : grammar) : grammar :=
  match g with [] => [] | d :: g' => iterate_rule r d :: iterate_from (S r) g' end.
Definition iterate (g : grammar) : grammar := iterate_from 0 g.
