(** * What optimising an AST should mean, in terms of plain trees. *)
From Verif Require Import Base LineInfo Ope Ctx AstM Choice.

(** The tree that hangs at an address of the heap, whatever the parent links are. *)
Inductive tree_at (h : heap) : addr -> tree -> Prop :=
| TreeAt : forall a c ts, nth_error h a = Some c -> Forall2 (tree_at h) (n_nodes c) ts -> tree_at h a (T (n_data c) ts).

(** The same with parent links: every node's parent is the node that lists it, and the
    root's is [par]; [fp] lists the addresses of the nodes in preorder. *)
Inductive linked (h : heap) : addr -> option addr -> tree -> list addr -> Prop :=
| Linked : forall a par d ns ts fp,
    nth_error h a = Some {| n_data := d; n_nodes := ns; n_parent := par |} ->
    linkeds h ns a ts fp -> linked h a par (T d ts) (a :: fp)
with linkeds (h : heap) : list addr -> addr -> list tree -> list addr -> Prop :=
| LNil : forall a, linkeds h [] a [] []
| LCons : forall a n ns t ts fp1 fp2,
    linked h n (Some a) t fp1 -> linkeds h ns a ts fp2 -> linkeds h (n :: ns) a (t :: ts) (fp1 ++ fp2).

(** The rules the options single out: with mode true the listed rules are the exceptions,
    with mode false they are the only ones concerned. *)
Definition concerned (mode : bool) (rules : list bytes) (name : bytes) : Prop :=
  if mode then ~ In name rules else In name rules.
(** A node to be removed. *)
Definition removable (mode : bool) (rules : list bytes) (t : tree) : Prop :=
  concerned mode rules (a_name (t_data t)) /\ List.length (t_nodes t) = 1.

(** All the nodes, in preorder. *)
Fixpoint nodes_of (t : tree) : list tree := match t with T _ l => t :: flat_map nodes_of l end.

(** What a node is, apart from its span and its original_ fields. *)
Definition ident (t : tree) : bytes * nat * nat * bytes * (nat * nat) * N * (bool * bool) * (nat * nat) * nat :=
  let d := t_data t in
  (a_path d, a_line d, a_column d, a_name d, (a_choice_count d, a_choice d), a_tag d,
   (a_is_token d, a_preserve_position d), a_token d, List.length (t_nodes t)).
Definition span (t : tree) : nat * nat := (a_position (t_data t), a_length (t_data t)).
Definition origin (t : tree) : bytes * nat * nat :=
  (a_original_name (t_data t), a_original_choice_count (t_data t), a_original_choice (t_data t)).

(** The leaves, in order. *)
Fixpoint leaves (t : tree) : list tree :=
  match t with T d [] => [t] | T _ l => flat_map leaves l end.

(** Spans nest: every node's children lie, in order and without overlapping, in its span. *)
Fixpoint in_order (lo hi : nat) (l : list tree) : Prop :=
  match l with
  | [] => lo <= hi
  | x :: l' => lo <= a_position (t_data x) /\ in_order (a_position (t_data x) + a_length (t_data x)) hi l'
  end.
Definition nested (t : tree) : Prop :=
  Forall (fun x => in_order (a_position (t_data x)) (a_position (t_data x) + a_length (t_data x)) (t_nodes x)) (nodes_of t).

(** Every node's token text lies in its span, and nodes know their place: line and column
    are those of the position, and token nodes have no children. *)
Definition token_inside (x : tree) : Prop :=
  a_is_token (t_data x) = true ->
  t_nodes x = [] /\ a_position (t_data x) <= fst (a_token (t_data x))
  /\ fst (a_token (t_data x)) + snd (a_token (t_data x)) <= a_position (t_data x) + a_length (t_data x).
Definition placed (input : bytes) (x : tree) : Prop :=
  a_position (t_data x) + a_length (t_data x) <= List.length input
  /\ line_info input (a_position (t_data x)) = Ok (a_line (t_data x), a_column (t_data x)).

(** The node stems from a rule of the grammar, whose kind and instructions it reflects. *)
Definition from_rule (g : grammar) (ws : option ope) (x : tree) : Prop :=
  exists r d, nth_error g r = Some d
    /\ a_name (t_data x) = (match r_ast_name d with [] => r_name d | n => n end)
    /\ a_tag (t_data x) = str2tag (a_name (t_data x))
    /\ a_is_token (t_data x) = (match r_body d with Some o => is_token_ope o | None => false end)
    /\ a_preserve_position (t_data x) = r_no_ast_opt d
    /\ told g ws d (a_choice_count (t_data x)) (a_choice (t_data x))
    /\ origin x = (a_name (t_data x), a_choice_count (t_data x), a_choice (t_data x)).

(** ** What every remaining node should look like
    [kept top t] lists, in preorder, the nodes of [t] that are not removed, each with the
    topmost node of the chain of removed nodes just above it, if any. *)
Definition bytes_dec (x y : bytes) : {x = y} + {x <> y} := list_eq_dec Byte.byte_eq_dec x y.
Definition concerned_dec (mode : bool) (rules : list bytes) (name : bytes) : {concerned mode rules name} + {~ concerned mode rules name}.
Proof.
  unfold concerned. destruct (in_dec bytes_dec name rules) as [Hi|Hi]; destruct mode; auto.
Defined.
Fixpoint kept (mode : bool) (rules : list bytes) (top : option tree) (t : tree) : list (option tree * tree) :=
  match t with
  | T d l =>
    match l with
    | [x] => if concerned_dec mode rules (a_name d) then kept mode rules (match top with Some _ => top | None => Some t end) x
             else (top, t) :: kept mode rules None x
    | _ => (top, t) :: flat_map (kept mode rules None) l
    end
  end.
(** The span is that of the topmost removed node, unless the rule asked for its own
    (no_ast_opt); the original_ fields name the topmost removed node. *)
Definition kept_span (k : option tree * tree) : nat * nat :=
  let (top, t) := k in
  match top with
  | Some tp => if a_preserve_position (t_data t) then span t else span tp
  | None => span t
  end.
Definition kept_origin (k : option tree * tree) : bytes * nat * nat * N :=
  let (top, t) := k in
  match top with
  | Some tp => (a_name (t_data tp), a_choice_count (t_data tp), a_choice (t_data tp), str2tag (a_name (t_data tp)))
  | None => (origin t, a_original_tag (t_data t))
  end.
