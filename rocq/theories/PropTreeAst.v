(** * C55: the AST is the parse tree. *)
From Verif Require Import Base BaseLemmas Utf8 Utf8Spec Escape TrieM TrieSpec LineInfo Ope Ctx ErrLog Engine EngineLemmas Top RefSem Refine TopRef PegSpec PegFacts PegDen PegWord PegRef
  GrammarCond PegEngine LrSpec FirstTop TreeSpec TreeTop TreeDet AstM Samples PropPeg PropMemo PropRec PropTree.

(** The AST node of a tree: named after its rule, with the span, line, column and
    alternative of the tree; a token node has the token's text and no children, any
    other node the nodes of the subtrees in order. *)
Fixpoint ast_of (g : grammar) (path input : bytes) (t : ptree) : tree :=
  match t with
  | Node r pos len kids toks alt =>
    let d := nth_error g r in
    let name := match d with Some d => (match r_ast_name d with [] => r_name d | n => n end) | None => [] end in
    let token := match d with Some d => match r_body d with Some o => is_token_ope o | None => false end | None => false end in
    let lc := match line_info input pos with Ok x => x | _ => (1, 1) end in
    T {| a_path := path; a_line := fst lc; a_column := snd lc; a_name := name; a_position := pos; a_length := len;
         a_choice_count := fst alt; a_choice := snd alt; a_original_name := name; a_original_choice_count := fst alt; a_original_choice := snd alt;
         a_tag := str2tag name; a_original_tag := str2tag name; a_is_token := token;
         a_preserve_position := match d with Some d => r_no_ast_opt d | None => false end;
         a_token := if token then hd (pos, len) toks else (0, 0) |}
      (if token then [] else map (ast_of g path input) kids)
  end.

(** The rules of all nodes exist. *)
Fixpoint known (g : grammar) (t : ptree) : Prop :=
  let fix all l := match l with [] => True | k :: l' => known g k /\ all l' end in
  match t with Node r _ _ kids _ _ => (exists d, nth_error g r = Some d) /\ all kids end.
Lemma known_all g l : (fix all l := match l with [] => True | k :: l' => known g k /\ all l' end) l <-> Forall (known g) l.
Proof. induction l as [|k l IH]; split; intros H; [constructor|exact I| |]; [destruct H; constructor; tauto|inversion H; subst; tauto]. Qed.
Lemma known_node g r body pos f d : nth_error g r = Some d -> Forall (known g) (f_kids f) -> known g (node r body pos f).
Proof. intros Hd Hk. cbn. split; [eauto|]. now apply known_all. Qed.
Lemma known_used g d t : known g t -> Forall (known g) (f_kids (used d t)).
Proof. intros H. unfold used. destruct (r_ignore d); cbn; auto. Qed.
Lemma known_join g a b : Forall (known g) (f_kids a) -> Forall (known g) (f_kids b) -> Forall (known g) (f_kids (join a b)).
Proof. intros. cbn. apply Forall_app. auto. Qed.

Section Known.
  Variables (g : grammar) (ws : option ope) (input : bytes) (le : bytes -> nat -> bool -> Prop) (de : nat -> bool -> Prop).
  Let okf (x : option found) : Prop := forall f, x = Some f -> Forall (known g) (f_kids f).
  Theorem der_known :
    (forall fr m o pos x, der g ws input le de fr m o pos x -> okf x)
    /\ (forall fr m l pos x, der_seq g ws input le de fr m l pos x -> okf x)
    /\ (forall fr m t i l pos x, der_cho g ws input le de fr m t i l pos x -> okf x)
    /\ (forall fr m e n pos x, der_times g ws input le de fr m e n pos x -> okf x)
    /\ (forall fr m e n pos f, der_upto g ws input le de fr m e n pos f -> Forall (known g) (f_kids f))
    /\ (forall m pos x, skip g ws input le de m pos x -> okf x)
    /\ (forall m r pos x, der_rule g ws input le de m r pos x -> forall t, x = Some t -> known g t)
    /\ (forall m r d l a pos t x, grow g ws input le de m r d l a pos t x -> nth_error g r = Some d -> known g t -> known g x).
  Proof.
    apply der_all; intros.
    all: try (match goal with |- okf _ => intros ff Hf end).
    all: try discriminate; try (cbn; constructor); try assumption; try (now auto).
    all: try (injection Hf as <-; now (cbn; auto using known_join)).
    all: try (match goal with X : option found |- _ => destruct X as [w|]; [|discriminate]; injection Hf as <-; apply known_join; [now cbn; auto|now auto] end).
    - injection Hf as <-. apply known_join; auto.
    - destruct x as [t|]; [|discriminate]. injection Hf as <-. apply known_used. auto.
    - apply known_join; auto.
    - match goal with X : Some _ = Some _ |- _ => injection X as <- end. eapply known_node; eauto.
    - destruct x as [w|]; [|discriminate]. match goal with X : option_map _ _ = Some _ |- _ => injection X as <- end. eapply known_node; [eassumption|]. apply known_join; auto.
    - match goal with X : Some _ = Some _ |- _ => injection X as <- end. match goal with X : _ -> _ -> known g ?t |- known g ?t => apply X; [assumption|] end. eapply known_node; eauto.
    - match goal with X : _ -> _ -> known g ?t |- known g ?t => apply X; [assumption|] end. eapply known_node; [eassumption|]. apply known_join; [now apply known_used|auto].
  Qed.
End Known.

(** enable_ast on every rule: every rule's action makes its node; no other callbacks. *)
Record all_ast {U} (path : bytes) (P : pobj tree U) : Prop := {
  aa_action : forall r d, nth_error (p_g P) r = Some d -> p_action P r = Some (ast_action path d);
  aa_none : forall r, nth_error (p_g P) r = None -> p_action P r = None;
  aa_run : forall d, In d (p_g P) -> r_disable_action d = false;
  aa_leave : forall r, p_leave P r = None
}.

Section Ast.
  Context {U : Type}.
  Implicit Types (P : pobj tree U).
  Lemma ast_pure path P input : all_ast path P -> (forall q, p_pred P q = None) -> pure (mk_env P input).
  Proof.
    intros HA Hp. constructor; cbn.
    - intros r f inp vs u u' pd Hf. destruct (nth_error (p_g P) r) as [d|] eqn:Hd.
      + rewrite (aa_action _ _ HA r d Hd) in Hf. injection Hf as <-. reflexivity.
      + rewrite (aa_none _ _ HA r Hd) in Hf. discriminate.
    - intros r p inp vs u u' H. rewrite Hp in H. discriminate.
    - intros r f inp pos n v u u' Hf. rewrite (aa_leave _ _ HA r) in Hf. discriminate.
  Qed.
  Fixpoint ptree_size (t : ptree) : nat := match t with Node _ _ _ kids _ _ => S (fold_right (fun k n => ptree_size k + n) 0 kids) end.
  Lemma ast_value path P input t : all_ast path P -> known (p_g P) t -> value P input t = Some (ast_of (p_g P) path input t).
  Proof.
    intros HA. induction t as [t IH] using (well_founded_induction (well_founded_ltof _ ptree_size)).
    destruct t as [r pos len kids toks alt]. intros [[d Hd] Hk]. apply known_all in Hk.
    assert (Hkids : map (value P input) kids = map (fun k => Some (ast_of (p_g P) path input k)) kids).
    { apply map_ext_in. intros k Hin. rewrite Forall_forall in Hk. apply IH; [|auto]. unfold ltof. cbn. clear -Hin.
      induction kids as [|x l IHl]; [destruct Hin|]. cbn. destruct Hin as [-> | Hin]; [lia|]. specialize (IHl Hin). lia. }
    unfold value in *. cbn [eval ast_of]. rewrite (aa_action _ _ HA r d Hd), (aa_leave _ _ HA r). unfold muted. rewrite Hd, (aa_run _ _ HA d (nth_error_In _ _ Hd)).
    rewrite Hkids. unfold ast_action, node_data. cbn [v_sv v_vals v_cc v_ch v_toks fst snd].
    assert (Hs : forall l, somes (map (fun k => Some (ast_of (p_g P) path input k)) l) = map (ast_of (p_g P) path input) l) by (induction l as [|x l IHl]; cbn; [reflexivity|now rewrite IHl]).
    rewrite Hs. destruct (line_info input pos) as [[ln col]| | |]; unfold new_data, token_span; cbn [v_toks v_sv fst snd];
      (destruct (match r_body d with Some o => is_token_ope o | None => false end); cbn; [destruct toks|]; reflexivity).
  Qed.
End Ast.

(** ** C55.  When every rule makes AST nodes, the AST handed to the caller is the parse
    tree of the text, node for node ([ast_of]); more generally the values of the parse
    are the ASTs of its trees. *)
Theorem C55_ast_is_the_parse_tree_partial :
  forall (U : Type) path (P : pobj tree U) (input : bytes) (dt : U) md mm (f : found) d t,
  core_parser md mm P -> bare_parser P -> all_ast path P -> (forall q, p_pred P q = None) -> settled (iterated P) input ->
  recognize_only P = false ->
  nth_error (p_g P) (p_start P) = Some d -> r_ignore d = false -> f_kids f = [] -> tree_of P input (Some (join f (used d t))) ->
  p_eoi P = false \/ f_len f + t_len t = List.length input ->
  exists reps res F, (forall fuel, F <= fuel -> parser_parse fuel P input dt = Ok (true, reps, res))
    /\ result_value res = Some (ast_of (p_g P) path input t).
Proof.
  intros U path P input dt md mm f d t Hc Hb HA Hp Hs Hrec Hd Hi Hk Hy Hl.
  destruct (C54_value_of_the_parse_partial _ _ P input dt md mm f d t Hc Hb (ast_pure path P input HA Hp) Hp Hs Hrec Hd Hi Hk Hy Hl) as (reps & res & F & H1 & H2).
  exists reps, res, F. split; [exact H1|]. rewrite H2. apply ast_value; [exact HA|].
  inversion Hy as [| |f0 d0 t0 H3 H4 H5 E]; subst.
  pose proof (der_known (p_g P) (p_ws P) input (lit_ends (p_g P) (p_word P) input) (dic_ends (p_g P) (p_word P) input)) as (_ & _ & _ & _ & _ & _ & K & _).
  pose proof (K _ _ _ _ H5 t0 eq_refl) as K0. assert (d0 = d) by congruence. subst d0. 
  assert (E2 : f_kids f0 ++ [t0] = [t]).
  { match goal with Q : f_kids f0 ++ _ = _ |- _ => unfold used in Q; rewrite Hi in Q; cbn in Q; rewrite Hk in Q; exact Q end. }
  destruct (f_kids f0) as [|x l]; cbn in E2; [injection E2 as ->; exact K0|]. injection E2 as -> E2. destruct l; discriminate.
Qed.
Print Assumptions C55_ast_is_the_parse_tree_partial.
Theorem C55_asts_of_the_parse_partial :
  forall (U : Type) path (P : pobj tree U) (input : bytes) (dt : U) md mm (f : found),
  core_parser md mm P -> bare_parser P -> all_ast path P -> (forall q, p_pred P q = None) -> settled (iterated P) input ->
  recognize_only P = false -> tree_of P input (Some f) ->
  exists b reps res F, (forall fuel, F <= fuel -> parser_parse fuel P input dt = Ok (b, reps, res))
    /\ v_vals (rs_vs res) = map (fun t => Some (ast_of (p_g P) path input t)) (f_kids f).
Proof.
  intros U path P input dt md mm f Hc Hb HA Hp Hs Hrec Hy.
  destruct (parse_is_evaluation P input dt md mm (Some f) Hc Hb (ast_pure path P input HA Hp) Hp Hs Hy) as (b & reps & res & F & H1 & _ & _ & _ & H5).
  exists b, reps, res, F. split; [exact H1|]. destruct (H5 Hrec) as [-> _]. apply map_ext_in. intros t Ht. apply ast_value; [exact HA|].
  pose proof (der_known (p_g P) (p_ws P) input (lit_ends (p_g P) (p_word P) input) (dic_ends (p_g P) (p_word P) input)) as (_ & _ & _ & _ & _ & S & K & _).
  inversion Hy as [| |f0 d0 t0 H3 H4 H6 E]; subst.
  assert (X : Forall (known (p_g P)) (f_kids (join f0 (used d0 t0)))) by (apply known_join; [exact (S _ _ _ H3 f0 eq_refl)|apply known_used; exact (K _ _ _ _ H6 t0 eq_refl)]).
  rewrite Forall_forall in X. auto.
Qed.
Print Assumptions C55_asts_of_the_parse_partial.

(** The subtraction grammar of C54, with ASTs. *)
Definition P_ast : pobj tree unit :=
  {| p_g := g_minus; p_start := 0; p_ws := Some w_sum; p_word := None; p_packrat := false; p_slot := fun _ => None;
     p_cached := 0; p_eoi := true; p_tracer := false; p_verbose := true; p_log := true; p_u0 := tt;
     p_action := fun r => match nth_error g_minus r with Some d => Some (ast_action (bs "f") d) | None => None end;
     p_pred := fun _ => None; p_enter := fun _ => None; p_leave := fun _ => None;
     p_user := fun _ _ _ vs u => (None, vs, u) |}.
Fixpoint sketch (t : tree) : bytes :=
  match t with T d l => a_name d ++ bs "(" ++ flat_map sketch l ++ bs ")" end.
Example C55_meets : exists y reps res ast,
  core_parser (fun _ => m_top) [m_top; {| m_tok := true; m_ws := false |}] P_ast /\ bare_parser P_ast /\ all_ast (bs "f") P_ast
  /\ settled (iterated P_ast) (bs "7-2 -1") /\ recognize_only P_ast = false
  /\ tree_of P_ast (bs "7-2 -1") y
  /\ parser_parse 60 P_ast (bs "7-2 -1") tt = Ok (true, reps, res) /\ result_value res = Some ast /\ sketch ast = bs "S(E(E(E(N())N())N()))".
Proof.
  assert (Hc : core_parser (fun _ => m_top) [m_top; {| m_tok := true; m_ws := false |}] P_ast).
  { constructor; try reflexivity; [|discriminate]. split; [reflexivity|]. eexists. split; reflexivity. }
  assert (Hb : bare_parser P_ast) by (split; [reflexivity|split; (reflexivity || exact I)]).
  assert (Hs : settled (iterated P_ast) (bs "7-2 -1")) by (eexists 30, _; vm_compute; reflexivity).
  destruct (one_tree P_ast (bs "7-2 -1") _ _ Hc Hb (fun _ => eq_refl) Hs) as (y & Hy & _).
  eexists y, _, _, _. split; [exact Hc|]. split; [exact Hb|]. split.
  { constructor; cbn [P_ast p_g p_action p_leave]; [intros r d ->; reflexivity|intros r ->; reflexivity| |reflexivity].
    intros d [<- | [<- | [<- | []]]]; reflexivity. }
  split; [exact Hs|]. split; [reflexivity|]. split; [exact Hy|]. split; [vm_compute; reflexivity|]. split; [vm_compute; reflexivity|]. vm_compute. reflexivity.
Qed.
