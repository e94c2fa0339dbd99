(** * What the text printed for an AST should show (C52). *)
From Verif Require Import Base AstM AstSpec AstText.

(** What a line shows of a node: the rule it stems from, the alternative taken (of rules that
    are choices), the rule of the node it was merged with if that is another one, and the text
    of a token. *)
Record label := { l_rule : bytes; l_choice : option nat; l_merged : option bytes; l_token : option bytes }.
Inductive outline := Outline (l : label) (below : list outline).

Definition label_of (input : bytes) (d : adata) : label :=
  {| l_rule := a_original_name d;
     l_choice := if 0 <? a_original_choice_count d then Some (a_original_choice d) else None;
     l_merged := if bytes_dec (a_name d) (a_original_name d) then None else Some (a_name d);
     l_token := if a_is_token d then Some (sub input (fst (a_token d)) (snd (a_token d))) else None |}.
Fixpoint outline_of (input : bytes) (t : tree) : outline :=
  match t with T d l => Outline (label_of input d) (map (outline_of input) l) end.

(** The nodes in preorder, each with its depth below the root (which is at [depth]). *)
Fixpoint with_depths (depth : nat) (t : tree) : list (nat * adata) :=
  match t with T d l => (depth, d) :: flat_map (with_depths (S depth)) l end.

(** Names of rules contain no blank, newline, slash or bracket; tokens no newline. *)
Definition plain_name (n : bytes) : Prop := Forall (fun b => ~ In b [x20; x0a; x2f; x5b]) n.
Definition plain_node (input : bytes) (x : tree) : Prop :=
  plain_name (a_name (t_data x)) /\ plain_name (a_original_name (t_data x))
  /\ (a_is_token (t_data x) = true -> ~ In x0a (sub input (fst (a_token (t_data x))) (snd (a_token (t_data x))))).
Definition plain_tree (input : bytes) (t : tree) : Prop := Forall (plain_node input) (nodes_of t).

(** The line of a node [depth] levels below the root: numbers in decimal ([to_string]). *)
Definition title (l : label) : bytes :=
  l_rule l ++ match l_choice l with Some n => bs "/" ++ to_string n | None => [] end
  ++ match l_merged l with Some n => bs "[" ++ n ++ bs "]" | None => [] end.
Definition line_text (depth : nat) (l : label) : bytes :=
  repeat x20 (2 * depth)
  ++ match l_token l with Some t => bs "- " ++ title l ++ bs " (" ++ t ++ bs ")" | None => bs "+ " ++ title l end
  ++ [x0a].
