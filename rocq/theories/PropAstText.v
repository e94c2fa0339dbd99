(** * C52: the text printed for an AST. *)
From Verif Require Import Base LineInfo Ope Ctx AstM AstSpec AstText AstTextSpec AstTextProofs PropAst.

(** One line for every node, parents before their children and children in order, indented by
    two blanks per level. *)
Theorem C52_one_line_per_node : forall (h : heap) (input : bytes) (a : addr) (t : tree), tree_at h a t ->
  exists f0, forall f, f0 <= f ->
  ast_to_s h input None f a = Ok (flat_map (fun p => line_text (fst p) (label_of input (snd p))) (with_depths 0 t)).
Proof. exact print_text. Qed.
Print Assumptions C52_one_line_per_node.

(** The text tells apart ASTs that differ in shape, rules, alternatives or token texts, when
    no token contains a newline. *)
Theorem C52_text_determines_ast :
  forall (h1 h2 : heap) (input1 input2 : bytes) (a1 a2 : addr) (t1 t2 : tree) (f1 f2 : nat) (s : bytes),
  tree_at h1 a1 t1 -> tree_at h2 a2 t2 -> plain_tree input1 t1 -> plain_tree input2 t2 ->
  ast_to_s h1 input1 None f1 a1 = Ok s -> ast_to_s h2 input2 None f2 a2 = Ok s ->
  outline_of input1 t1 = outline_of input2 t2.
Proof. exact print_read. Qed.
Print Assumptions C52_text_determines_ast.

(** A case: the AST of C35, in the text "(cd)". *)
Lemma sample_at : tree_at sample_heap 3 sample_tree.
Proof. exact (proj1 C35_meets). Qed.
Lemma sample_plain : plain_tree (bs "(cd)") sample_tree.
Proof.
  unfold plain_tree, sample_tree. cbn [nodes_of flat_map app].
  assert (H : forall name, In name [bs "A"; bs "B"; bs "C"; bs "D"] -> plain_name name).
  { intros name Hn. unfold plain_name. cbn [In] in Hn. destruct Hn as [<- |[<- |[<- |[<- |[]]]]]; constructor; try constructor; cbn; intuition discriminate. }
  assert (G : forall name pos len tok ts, In name [bs "A"; bs "B"; bs "C"; bs "D"] -> (tok = true -> In (pos, len) [(1, 1); (2, 1)]) ->
    plain_node (bs "(cd)") (T (sample_node name pos len tok) ts)).
  { intros name pos len tok ts Hn Ht. split; [now apply H|]. split; [now apply H|]. cbn [t_data sample_node a_is_token a_token]. intros ->.
    destruct (Ht eq_refl) as [E|[E|[]]]; injection E as <- <-; cbn; intuition discriminate. }
  repeat (apply Forall_cons || apply Forall_nil); apply G; cbn; auto; discriminate.
Qed.
Example C52_meets : tree_at sample_heap 3 sample_tree /\ plain_tree (bs "(cd)") sample_tree
  /\ ast_to_s sample_heap (bs "(cd)") None 5 3 = Ok (bs "+ A" ++ [x0a] ++ bs "  + B" ++ [x0a] ++ bs "    - C (c)" ++ [x0a] ++ bs "    - D (d)" ++ [x0a]).
Proof. split; [exact sample_at|]. split; [exact sample_plain|vm_compute; reflexivity]. Qed.

(** With newlines in tokens, different ASTs may print alike: here one with two tokens and one
    with a single token that spans the line of the other. *)
Definition two_tokens : heap :=
  [ {| n_data := sample_node (bs "X") 0 1 true; n_nodes := []; n_parent := Some 2 |};
    {| n_data := sample_node (bs "Y") 1 1 true; n_nodes := []; n_parent := Some 2 |};
    {| n_data := sample_node (bs "S") 0 2 false; n_nodes := [0; 1]; n_parent := None |} ].
Definition one_token : heap :=
  [ {| n_data := sample_node (bs "X") 0 11 true; n_nodes := []; n_parent := Some 1 |};
    {| n_data := sample_node (bs "S") 0 11 false; n_nodes := [0]; n_parent := None |} ].
Definition odd_text : bytes := bs "x)" ++ [x0a] ++ bs "  - Y (y".
Theorem C52_newline_refuted : exists s t1 t2,
  tree_at two_tokens 2 t1 /\ tree_at one_token 1 t2
  /\ ast_to_s two_tokens (bs "xy") None 5 2 = Ok s /\ ast_to_s one_token odd_text None 5 1 = Ok s
  /\ outline_of (bs "xy") t1 <> outline_of odd_text t2.
Proof.
  eexists _, (T (sample_node (bs "S") 0 2 false) [T (sample_node (bs "X") 0 1 true) []; T (sample_node (bs "Y") 1 1 true) []]),
    (T (sample_node (bs "S") 0 11 false) [T (sample_node (bs "X") 0 11 true) []]).
  split; [|split; [|split; [vm_compute; reflexivity|split; [vm_compute; reflexivity|discriminate]]]].
  - refine (TreeAt two_tokens 2 {| n_data := sample_node (bs "S") 0 2 false; n_nodes := [0; 1]; n_parent := None |} _ eq_refl _).
    constructor; [|constructor; [|constructor]].
    + exact (TreeAt two_tokens 0 {| n_data := sample_node (bs "X") 0 1 true; n_nodes := []; n_parent := Some 2 |} _ eq_refl (Forall2_nil _)).
    + exact (TreeAt two_tokens 1 {| n_data := sample_node (bs "Y") 1 1 true; n_nodes := []; n_parent := Some 2 |} _ eq_refl (Forall2_nil _)).
  - refine (TreeAt one_token 1 {| n_data := sample_node (bs "S") 0 11 false; n_nodes := [0]; n_parent := None |} _ eq_refl _).
    constructor; [|constructor].
    exact (TreeAt one_token 0 {| n_data := sample_node (bs "X") 0 11 true; n_nodes := []; n_parent := Some 1 |} _ eq_refl (Forall2_nil _)).
Qed.
Print Assumptions C52_newline_refuted.
