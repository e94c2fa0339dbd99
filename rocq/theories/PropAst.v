(** * C35: AST optimisation. *)
From Verif Require Import Base LineInfo Ope Ctx AstM AstSpec AstProofs.
Require Import Lia.

Lemma linked_tree_at h : (forall a par t fp, linked h a par t fp -> tree_at h a t)
  /\ (forall ns a ts fp, linkeds h ns a ts fp -> Forall2 (tree_at h) ns ts).
Proof.
  apply (linked_both h (fun a _ t _ _ => tree_at h a t) (fun ns _ ts _ _ => Forall2 (tree_at h) ns ts)).
  - intros a par d ns ts fp Hc _ IH. exact (TreeAt h a _ ts Hc IH).
  - constructor.
  - intros. now constructor.
Qed.

Lemma optimize_spec : forall mode rules h a par t, tree_at h a t ->
  exists f0 h' b t' fp,
    (forall f, f0 <= f -> optimize mode rules f h a par = Ok (h', b))
    /\ (forall x, x < List.length h -> nth_error h' x = nth_error h x)
    /\ linked h' b par t' fp /\ NoDup fp /\ Forall (fun x => List.length h <= x) fp
    /\ map (fun x => (ident x, span x, (origin x, a_original_tag (t_data x)))) (nodes_of t')
       = map (fun k => (ident (snd k), kept_span k, kept_origin k)) (kept mode rules None t)
    /\ map ident (leaves t') = map ident (leaves t)
    /\ Forall (fun x => ~ removable mode rules x) (nodes_of t')
    /\ (nested t -> nested t').
Proof.
  intros mode rules h a par t Ht. destruct (optimize_ok mode rules t h a par Ht) as (f0 & h' & b & fp & Ho & [_ He] & Hl & [Hn Hf]).
  exists f0, h', b, (opt mode rules t), fp. split; [exact Ho|]. split; [exact He|]. split; [exact Hl|]. split; [exact Hn|].
  split; [eapply Forall_impl; [|exact Hf]; cbn; intros; lia|]. split; [exact (opt_kept mode rules t None)|]. split; [apply opt_leaves|].
  split; [|apply opt_nested]. eapply Forall_impl; [|apply opt_clean]. cbn. intros x Hx Hr. apply removableb_spec in Hr. congruence.
Qed.
Lemma optimize_idem : forall mode rules h a par t, tree_at h a t ->
  exists f0 h' b t' fp h'' b' fp',
    (forall f, f0 <= f -> optimize mode rules f h a par = Ok (h', b) /\ optimize mode rules f h' b par = Ok (h'', b'))
    /\ linked h' b par t' fp /\ linked h'' b' par t' fp'.
Proof.
  intros mode rules h a par t Ht. destruct (optimize_ok mode rules t h a par Ht) as (f0 & h' & b & fp & Ho & He & Hl & Hf).
  destruct (optimize_ok mode rules _ h' b par (proj1 (linked_tree_at h') _ _ _ _ Hl)) as (f1 & h'' & b' & fp' & Ho' & He' & Hl' & Hf').
  rewrite opt_idem in Hl'. exists (max f0 f1), h', b, (opt mode rules t), fp, h'', b', fp'. split; [|now split].
  intros f Hle. split; [apply Ho|apply Ho']; lia.
Qed.
Lemma kept_removed : forall mode rules t x,
  In x (map snd (kept mode rules None t)) <-> In x (nodes_of t) /\ ~ removable mode rules x.
Proof.
  intros. rewrite (kept_snd mode rules t None), filter_In, negb_true_iff. split; intros [H1 H2]; split; auto.
  - intros Hr. apply removableb_spec in Hr. congruence.
  - destruct (removableb mode rules x) eqn:E; [|reflexivity]. apply removableb_spec in E. contradiction.
Qed.

(** Optimising the tree at [a] builds a new tree, every node of which has the right parent
    ([linked]), without touching the old one.  Its nodes are exactly, in the same order, the
    nodes that are not to be removed, with their names, texts, lines, choices and numbers of
    children; their spans are their own or, if a chain of nodes was removed above them and
    the rule did not ask otherwise, that of the top of the chain.  The leaves are the same;
    no removable node is left; and spans nest if they did. *)
Theorem C35_optimize : forall mode rules h a par t, tree_at h a t ->
  exists f0 h' b t' fp,
    (forall f, f0 <= f -> optimize mode rules f h a par = Ok (h', b))
    /\ (forall x, x < List.length h -> nth_error h' x = nth_error h x)
    /\ linked h' b par t' fp /\ NoDup fp /\ Forall (fun x => List.length h <= x) fp
    /\ map (fun x => (ident x, span x, (origin x, a_original_tag (t_data x)))) (nodes_of t')
       = map (fun k => (ident (snd k), kept_span k, kept_origin k)) (kept mode rules None t)
    /\ map ident (leaves t') = map ident (leaves t)
    /\ Forall (fun x => ~ removable mode rules x) (nodes_of t')
    /\ (nested t -> nested t').
Proof. exact optimize_spec. Qed.
Print Assumptions C35_optimize.
Theorem C35_kept_are_not_removable : forall mode rules t x,
  In x (map snd (kept mode rules None t)) <-> In x (nodes_of t) /\ ~ removable mode rules x.
Proof. exact kept_removed. Qed.
Print Assumptions C35_kept_are_not_removable.
(** Optimising again, with the same options, gives an equal tree. *)
Theorem C35_idempotent : forall mode rules h a par t, tree_at h a t ->
  exists f0 h' b t' fp h'' b' fp',
    (forall f, f0 <= f -> optimize mode rules f h a par = Ok (h', b) /\ optimize mode rules f h' b par = Ok (h'', b'))
    /\ linked h' b par t' fp /\ linked h'' b' par t' fp'.
Proof. exact optimize_idem. Qed.
Print Assumptions C35_idempotent.

(** A case: the AST of A <- B, B <- left-paren C D right-paren, C, D tokens; only A, with one child, goes. *)
Definition sample_node (name : bytes) (pos len : nat) (tok : bool) : adata :=
  {| a_path := []; a_line := 1; a_column := S pos; a_name := name; a_position := pos; a_length := len; a_choice_count := 0; a_choice := 0;
     a_original_name := name; a_original_choice_count := 0; a_original_choice := 0; a_tag := str2tag name; a_original_tag := str2tag name;
     a_is_token := tok; a_preserve_position := false; a_token := if tok then (pos, len) else (0, 0) |}.
Definition sample_heap : heap :=
  [ {| n_data := sample_node (bs "C") 1 1 true; n_nodes := []; n_parent := Some 2 |};
    {| n_data := sample_node (bs "D") 2 1 true; n_nodes := []; n_parent := Some 2 |};
    {| n_data := sample_node (bs "B") 0 4 false; n_nodes := [0; 1]; n_parent := Some 3 |};
    {| n_data := sample_node (bs "A") 0 4 false; n_nodes := [2]; n_parent := None |} ].
Definition sample_tree : tree :=
  T (sample_node (bs "A") 0 4 false) [T (sample_node (bs "B") 0 4 false)
    [T (sample_node (bs "C") 1 1 true) []; T (sample_node (bs "D") 2 1 true) []]].
Example C35_meets : tree_at sample_heap 3 sample_tree /\ nested sample_tree /\ removable true [] sample_tree
  /\ (exists h', optimize true [] 20 sample_heap 3 None = Ok (h', 7)).
Proof.
  split; [|split; [|split]].
  - unfold sample_tree.
    refine (TreeAt sample_heap 3 {| n_data := sample_node (bs "A") 0 4 false; n_nodes := [2]; n_parent := None |} _ eq_refl _).
    constructor; [|constructor].
    refine (TreeAt sample_heap 2 {| n_data := sample_node (bs "B") 0 4 false; n_nodes := [0; 1]; n_parent := Some 3 |} _ eq_refl _).
    constructor; [|constructor; [|constructor]].
    + exact (TreeAt sample_heap 0 {| n_data := sample_node (bs "C") 1 1 true; n_nodes := []; n_parent := Some 2 |} _ eq_refl (Forall2_nil _)).
    + exact (TreeAt sample_heap 1 {| n_data := sample_node (bs "D") 2 1 true; n_nodes := []; n_parent := Some 2 |} _ eq_refl (Forall2_nil _)).
  - unfold nested, sample_tree. cbn. repeat constructor; cbn; lia.
  - split; cbn; auto.
  - eexists. vm_compute. reflexivity.
Qed.

(** ** C34: the AST built by a parse *)
From Verif Require Import Utf8 Escape TrieM ErrLog Engine Top Samples Scope AstParse AstSetup AstShared Choice EngineLemmas.

(** With AST actions and no other callbacks ([ast_parser]), whatever the grammar, the text,
    the options (packrat, logging, tracing) and the fuel: the children of every node of the
    returned AST lie, in order and without overlap, in the node's span; the root lies in the
    text consumed, and that in the text; a token node has no children and its text lies in
    its span; line and column of a node are those of its position; and a node has the name,
    tag, kind and no_ast_opt flag of a rule of the grammar. *)
Theorem C34_ast : forall U path (P : pobj tree U) input dt fuel res t, ast_parser path P ->
  def_parse fuel P input dt = Ok res -> result_value res = Some t ->
  nested t /\ rs_len res <= List.length input
  /\ a_position (t_data t) + a_length (t_data t) <= rs_len res
  /\ Forall token_inside (nodes_of t) /\ Forall (placed input) (nodes_of t) /\ Forall (from_rule (p_g P) (p_ws P)) (nodes_of t).
Proof. exact (@ast_tree). Qed.
Print Assumptions C34_ast.

(** A case: S <- N (comma N)*, N a token rule, with whitespace skipped and packrat on. *)
Definition ast_sample_g : grammar :=
  [plain "S" (seqs [Ref (bs "N") (Some 1) 0 false []; many (seqs [lit ","; Ref (bs "N") (Some 1) 0 false []])]); plain "N" (Tok (Rep (Cls [(48%N, 57%N)] false false) 1 None None))].
Definition ast_sample : pobj tree unit :=
  {| p_g := ast_sample_g; p_start := 0; p_ws := Some (Rep (lit " ") 0 None None); p_word := None; p_packrat := true; p_slot := fun r => if r <? 2 then Some r else None;
     p_cached := 2; p_eoi := true; p_tracer := false; p_verbose := false; p_log := true; p_u0 := tt;
     p_action := fun r => match nth_error ast_sample_g r with Some d => Some (ast_action (bs "file") d) | None => None end;
     p_pred := fun _ => None; p_enter := fun _ => None; p_leave := fun _ => None;
     p_user := fun _ _ _ vs u => (None, vs, u) |}.
Lemma ast_sample_ok : ast_parser (bs "file") ast_sample.
Proof.
  constructor; cbn [ast_sample p_action p_g p_leave p_user p_packrat p_slot p_cached p_ws]; try (intros; congruence).
  - intros r f Hf. destruct (nth_error ast_sample_g r) as [d|]; [|discriminate]. injection Hf as <-. exists d. split; reflexivity.
  - intros _ r s Hs. destruct (r <? 2) eqn:E; [|discriminate]. injection Hs as <-. now apply Nat.ltb_lt.
  - intros r d body Hd Hb. left. destruct r as [|[|[|r]]]; try discriminate; injection Hd as <-; injection Hb as <-; reflexivity.
  - intros w Hw. injection Hw as <-. reflexivity.
  - reflexivity.
Qed.
Example C34_meets : ast_parser (bs "file") ast_sample /\ exists res t, def_parse 60 ast_sample (bs " 12 , 3") tt = Ok res /\ result_value res = Some t
  /\ map span (nodes_of t) = [(1, 6); (1, 3); (6, 1)] /\ map (fun x => a_token (t_data x)) (nodes_of t) = [(0, 0); (1, 2); (6, 1)].
Proof. split; [exact ast_sample_ok|]. eexists _, _. split; [vm_compute; reflexivity|]. split; [vm_compute; reflexivity|]. split; vm_compute; reflexivity. Qed.

(** ** C46: which alternative a node stands for
    In the returned AST every node's choice_count is the number of alternatives of the
    choice that is the body of its rule, and its choice the number of one of them; both are
    0 for a rule whose body is not a choice.  Where whitespace is skipped only after the
    choice (token rules, dictionaries, no_whitespace rules) this needs a %whitespace that
    makes no choice of its own ([told]). *)
Theorem C46_choice : forall U path (P : pobj tree U) input dt fuel res t, ast_parser path P ->
  def_parse fuel P input dt = Ok res -> result_value res = Some t ->
  Forall (fun x => exists r d, nth_error (p_g P) r = Some d
    /\ a_name (t_data x) = (match r_ast_name d with [] => r_name d | n => n end)
    /\ told (p_g P) (p_ws P) d (a_choice_count (t_data x)) (a_choice (t_data x))) (nodes_of t).
Proof.
  intros U path P input dt fuel res t HP Hd Hv. destruct (C34_ast U path P input dt fuel res t HP Hd Hv) as (_ & _ & _ & _ & _ & H).
  eapply Forall_impl; [|exact H]. intros x (r & d & Hr & Hn & _ & _ & _ & Ht & _). exists r, d. auto.
Qed.
Print Assumptions C46_choice.

(** The alternative itself: the choice reported for a rule that is a plain choice is the
    one whose alternative matched, those before it having failed or been skipped by their
    first set. *)
Theorem C46_taken : forall V U (P : pobj V U) input fuel fl fs l pos vs c n vs' c', p_tracer P = false ->
  parse (S fuel) (mk_env P input) (Cho fl fs l) pos vs c = Ok (Some n, vs', c') ->
  v_cc vs' = List.length l /\ exists o vs1 c1 vs2 c2, nth_error l (v_ch vs') = Some o
    /\ parse fuel (mk_env P input) o pos vs1 c1 = Ok (Some n, vs2, c2) /\ v_vals vs' = v_vals vs2 /\ v_toks vs' = v_toks vs2.
Proof. intros V U P input fuel fl fs l pos vs c n vs' c' Ht H. exact (cho_taken fuel (mk_env P input) fl fs l pos vs c n vs' c' Ht H). Qed.
Print Assumptions C46_taken.

(** A case: a choice of three alternatives, and a token that is a choice of two. *)
Definition pick_g : grammar :=
  [plain "S" (alts [seqs [Ref (bs "T") (Some 1) 0 false []; lit "a"]; seqs [Ref (bs "T") (Some 1) 0 false []; lit "b"]; lit "c"]);
   plain "T" (Tok (alts [lit "x"; lit "y"]))].
Definition pick_sample (ws : ope) : pobj tree unit :=
  {| p_g := pick_g; p_start := 0; p_ws := Some (Wsp ws); p_word := None; p_packrat := false; p_slot := fun _ => None;
     p_cached := 0; p_eoi := true; p_tracer := false; p_verbose := false; p_log := true; p_u0 := tt;
     p_action := fun r => match nth_error pick_g r with Some d => Some (ast_action (bs "file") d) | None => None end;
     p_pred := fun _ => None; p_enter := fun _ => None; p_leave := fun _ => None;
     p_user := fun _ _ _ vs u => (None, vs, u) |}.
Lemma pick_ok ws : nopre ws = true -> ast_parser (bs "file") (pick_sample ws).
Proof.
  intros Hn. constructor; cbn [pick_sample p_action p_g p_leave p_user p_packrat p_slot p_cached p_ws]; try (intros; congruence).
  - intros r f Hf. destruct (nth_error pick_g r) as [d|]; [|discriminate]. injection Hf as <-. exists d. split; reflexivity.
  - intros r d body Hd Hb. left. destruct r as [|[|[|r]]]; try discriminate; injection Hd as <-; injection Hb as <-; reflexivity.
  - intros w Hw. injection Hw as <-. exact Hn.
  - unfold recognize_only. cbn [pick_sample p_log p_tracer orb negb]. now rewrite !andb_false_r.
Qed.
Definition choices (t : tree) : list (nat * nat) := map (fun x => (a_choice (t_data x), a_choice_count (t_data x))) (nodes_of t).
Example C46_meets : let P := pick_sample (many (lit " ")) in ast_parser (bs "file") P /\ quiet_ws (p_g P) (p_ws P) = true
  /\ exists res t, def_parse 60 P (bs "y  b") tt = Ok res /\ result_value res = Some t /\ choices t = [(1, 3); (1, 2)].
Proof. split; [now apply pick_ok|]. split; [reflexivity|]. eexists _, _. split; [vm_compute; reflexivity|]. split; vm_compute; reflexivity. Qed.

(** Without the condition on %whitespace the numbers of a token are wrong: with
    %whitespace <- (newline / space)* the choice() of the token T <- < 'x' / 'y' > is the
    one of the whitespace behind it, here 0 of 2 is reported for 'y' and, with a
    whitespace of three alternatives, 2 of 3. *)
Theorem C46_token_choice_refuted : exists ws res t, let P := pick_sample ws in ast_parser (bs "file") P
  /\ def_parse 60 P (bs "x b") tt = Ok res /\ result_value res = Some t
  /\ r_body (nth 1 (p_g P) (plain "" Cut)) = Some (Tok (alts [lit "x"; lit "y"]))
  /\ choices t = [(1, 3); (2, 3)].
Proof.
  exists (many (alts [lit "#"; lit ";"; lit " "])). eexists _, _. split; [now apply pick_ok|]. split; [vm_compute; reflexivity|].
  split; [vm_compute; reflexivity|]. split; vm_compute; reflexivity.
Qed.
Print Assumptions C46_token_choice_refuted.

(** ** C42: parent links of the AST returned by a parse
    The parsers of enable_ast (AstSetup.v): [node_parser] makes shared nodes, the heap of
    nodes being the user data; [tree_parser] makes trees held by value, as in C34. *)
Definition ast_setup_of (g : grammar) (packrat : bool) (slot : rid -> option nat) (cached : nat) : ast_setup :=
  {| as_g := g; as_start := 0; as_ws := None; as_word := None; as_packrat := packrat; as_slot := slot;
     as_cached := cached; as_eoi := true; as_tracer := false; as_verbose := false; as_log := false;
     as_pred := fun _ => None; as_user := fun _ _ _ => None |}.
(** S <- X 'a' / W 'b' / X 'c', X <- A, W <- A, A <- 'x'; the packrat filter caches X and A. *)
Definition links_g : grammar :=
  [plain "S" (alts [seqs [Ref (bs "X") (Some 1) 0 false []; lit "a"]; seqs [Ref (bs "W") (Some 2) 0 false []; lit "b"];
                    seqs [Ref (bs "X") (Some 1) 0 false []; lit "c"]]);
   plain "X" (Ref (bs "A") (Some 3) 0 false []); plain "W" (Ref (bs "A") (Some 3) 0 false []); plain "A" (lit "x")].
Definition links_slot (r : rid) : option nat := match r with 1 => Some 0 | 3 => Some 1 | _ => None end.

(** The parent of a node of the returned AST need not be the node that lists it: with
    packrat parsing, A is a child of X but its parent is the W of a failed alternative. *)
Theorem C42_parent_links_refuted : ~ (forall g slot cached input fuel res a,
  def_parse fuel (node_parser [] (ast_setup_of g true slot cached)) input [] = Ok res -> result_value res = Some a ->
  exists t fp, linked (rs_dt res) a None t fp).
Proof.
  intros H. assert (E : exists res, def_parse 60 (node_parser [] (ast_setup_of links_g true links_slot 2)) (bs "xc") [] = Ok res
    /\ result_value res = Some 3
    /\ (exists c, nth_error (rs_dt res) 3 = Some c /\ n_nodes c = [1])
    /\ (exists c, nth_error (rs_dt res) 1 = Some c /\ n_nodes c = [0])
    /\ exists c, nth_error (rs_dt res) 0 = Some c /\ n_parent c = Some 2).
  { eexists. split; [vm_compute; reflexivity|]. split; [vm_compute; reflexivity|].
    split; [|split]; (eexists; split; vm_compute; reflexivity). }
  destruct E as (res & Hd & Hv & (c3 & E3 & N3) & (c1 & E1 & N1) & (c0 & E0 & P0)).
  destruct (H _ _ _ _ _ _ _ Hd Hv) as (t & fp & Hl). clear H Hd Hv.
  inversion Hl as [? ? ? ns ts fp' Hc Hs]; subst. rewrite E3 in Hc. injection Hc as Hc. subst c3. cbn in N3. subst ns.
  inversion Hs as [|? ? ? ? ? ? ? Hl1 _]; subst. clear Hs Hl.
  inversion Hl1 as [? ? ? ns ts' fp'' Hc Hs]; subst. rewrite E1 in Hc. injection Hc as Hc. subst c1. cbn in N1. subst ns.
  inversion Hs as [|? ? ? ? ? ? ? Hl0 _]; subst. inversion Hl0 as [? ? ? ? ? ? Hc _]; subst. rewrite E0 in Hc. injection Hc as Hc. subst c0. discriminate P0.
Qed.
Print Assumptions C42_parent_links_refuted.

(** Whatever is memoized, shared nodes change nothing but the parents: the parse ends as
    with trees held by value, reports the same, and the nodes under the returned one form
    the same tree (of which C34 and C46 speak).  Recovery operators are left out. *)
Theorem C42_same_tree : forall path S input dt fuel res, no_recovery S -> def_parse fuel (node_parser path S) input dt = Ok res ->
  exists res', def_parse fuel (tree_parser path S) input tt = Ok res'
    /\ rs_ret res' = rs_ret res /\ rs_len res' = rs_len res /\ rs_recovered res' = rs_recovered res
    /\ rs_err res' = rs_err res /\ rs_out res' = rs_out res
    /\ match result_value res, result_value res' with
       | Some a, Some t => tree_at (rs_dt res) a t | None, None => True | _, _ => False end.
Proof. exact same_tree. Qed.
Print Assumptions C42_same_tree.

(** Without packrat parsing and left-recursive rules ([unshared]) the parent links are
    right: every node is listed once, by its parent, the root has none; the nodes are new
    and older nodes are left as they were. *)
Theorem C42_parent_links : forall path S input dt fuel res a, unshared S -> def_parse fuel (node_parser path S) input dt = Ok res ->
  result_value res = Some a ->
  exists res' t fp, def_parse fuel (tree_parser path S) input tt = Ok res' /\ result_value res' = Some t
    /\ linked (rs_dt res) a None t fp /\ NoDup fp
    /\ Forall (fun x => List.length dt <= x < List.length (rs_dt res)) fp
    /\ forall x, x < List.length dt -> nth_error (rs_dt res) x = nth_error dt x.
Proof. exact shared_links. Qed.
Print Assumptions C42_parent_links.

(** After optimize_ast they are right in any case, since the optimiser copies. *)
Theorem C42_after_optimize : forall path S input dt fuel res a mode rules, no_recovery S ->
  def_parse fuel (node_parser path S) input dt = Ok res -> result_value res = Some a ->
  exists f0 h b t fp, (forall f, f0 <= f -> optimize mode rules f (rs_dt res) a None = Ok (h, b))
    /\ linked h b None t fp /\ NoDup fp /\ Forall (fun x => List.length (rs_dt res) <= x) fp.
Proof.
  intros path S input dt fuel res a mode rules HN H Hv. destruct (same_tree path S input dt fuel res HN H) as (res' & _ & _ & _ & _ & _ & _ & Ht).
  rewrite Hv in Ht. destruct (result_value res') as [t|]; [|contradiction].
  destruct (C35_optimize mode rules _ a None t Ht) as (f0 & h & b & t' & fp & H1 & _ & H3 & H4 & H5 & _). exists f0, h, b, t', fp. auto.
Qed.
Print Assumptions C42_after_optimize.

(** A case: the grammar of the refutation, without packrat parsing; the text makes the
    first two alternatives fail after they have made nodes. *)
Lemma links_unshared : unshared (ast_setup_of links_g false links_slot 2).
Proof.
  constructor; cbn [ast_setup_of as_packrat as_g as_ws as_start]; [reflexivity| | |discriminate|cbn; lia].
  - intros r d H. destruct r as [|[|[|[|r]]]]; cbn in H; try (inv H; reflexivity). destruct r; discriminate.
  - intros r d body H Hb. left. destruct r as [|[|[|[|r]]]]; cbn in H; try (inv H; cbn in Hb; inv Hb; reflexivity). destruct r; discriminate.
Qed.
Lemma links_norcv packrat : no_recovery (ast_setup_of links_g packrat links_slot 2).
Proof.
  split; [|discriminate]. intros r d body H Hb. cbn [ast_setup_of as_g] in H. destruct r as [|[|[|[|r]]]]; cbn in H; try (inv H; cbn in Hb; inv Hb; reflexivity). destruct r; discriminate.
Qed.
Example C42_meets : unshared (ast_setup_of links_g false links_slot 2) /\ no_recovery (ast_setup_of links_g true links_slot 2)
  /\ exists res a, def_parse 60 (node_parser [] (ast_setup_of links_g false links_slot 2)) (bs "xc") [] = Ok res /\ result_value res = Some a
  /\ List.length (rs_dt res) = 7
  /\ map (fun x => n_nodes x) (rs_dt res) = [[]; [0]; []; [2]; []; [4]; [5]] /\ a = 6
  /\ map (fun x => n_parent x) (skipn 4 (rs_dt res)) = [Some 5; Some 6; None].
Proof.
  split; [apply links_unshared|]. split; [apply links_norcv|]. eexists _, _. split; [vm_compute; reflexivity|]. split; [vm_compute; reflexivity|].
  split; [reflexivity|]. split; [reflexivity|]. split; reflexivity.
Qed.
