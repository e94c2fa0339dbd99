(** * Loading a grammar (C31-C33). *)
From Verif Require ReadSpec.
From Verif Require Import Base BaseLemmas Utf8 Escape TrieM LineInfo Ope Ctx ErrLog Engine RefSem FirstSetM PackratFilter PrecSpec PrecM LoadM LoadSpec LoadRefs FirstSpec PegDen LoadPeg LoadLoop LoadLR LoadMain LoadWf LoadCheck FirstTop Top Samples.
From Verif Require PegSpec PegFacts.

(** References as the grammar text gives them. *)
Definition rf (n : string) : ope := Ref (bs n) None 0 false [].
Definition mc (n : string) (args : list ope) : ope := Ref (bs n) None 0 true args.
Definition macro_rule (name : string) (ps : list string) (body : ope) : rule :=
  {| r_name := bs name; r_body := Some body; r_ignore := false; r_is_macro := true; r_params := map bs ps;
     r_disable_action := false; r_lr := false; r_can_be_empty := false; r_macro_ref := false;
     r_error_message := []; r_no_ast_opt := false; r_no_whitespace := false; r_ast_name := bs name |}.
(** The macro every grammar text brings with it (peglib.h:5435-5440 via [ReadSpec.recover_def]):
    ~%recover(x) <- x. *)
Definition recover_rule : rule := ReadSpec.rule_of ReadSpec.recover_def.
Definition no_keys (a b : rid * list ope) : bool := false.

(** An accepted grammar mentions no undefined rule and no macro with the wrong number
    of arguments, and in the grammar the parser works with every reference is linked. *)
Theorem C31_references_resolve fuel keq lrec instrs start src l : source_grammar src ->
  load fuel keq lrec instrs start src = Some (Accepted l) ->
  ~ dangling src
  /\ forall d b n rl ia mac args, In d (ld_g l) -> r_body d = Some b -> inside (r_params d) b (Ref n rl ia mac args) ->
       resolved (ld_g l) (r_params d) n rl ia mac args.
Proof. exact (loaded_references fuel keq lrec instrs start src l). Qed.
Print Assumptions C31_references_resolve.

(** A grammar with a dangling reference is rejected, whatever else is in it. *)
Theorem C31_dangling_rejected fuel keq lrec instrs start src r : source_grammar src -> dangling src ->
  rule_named src start = Some r -> load fuel keq lrec instrs start src = Some Rejected.
Proof.
  intros Hsrc Hd Hr. unfold load. rewrite Hr.
  destruct (nth_error src r) as [sd|] eqn:Hs.
  2:{ exfalso. unfold rule_named in Hr. apply bindex_Some in Hr. rewrite nth_error_map, Hs in Hr. discriminate. }
  destruct Hsrc as [Hnd Hb _].
  replace (forallb _ src) with true.
  2:{ symmetry. apply forallb_forall. intros d Hdd. destruct (Hb d Hdd) as (b & -> & _). reflexivity. }
  cbn [negb]. destruct (r_ignore sd); [reflexivity|].
  destruct (all_refs_ok src) eqn:E; [|reflexivity]. exfalso. revert Hd. now apply all_refs_ok_spec.
Qed.
Print Assumptions C31_dangling_rejected.

(** S <- P('a', S) / B; P(x, y) <- x B y; B <- 'b'. *)
Definition c31_src : grammar :=
  [plain "S" (alts [mc "P" [lit "a"; rf "S"]; rf "B"]); macro_rule "P" ["x"; "y"]%string (seqs [rf "x"; rf "B"; rf "y"]); plain "B" (lit "b")].
(** The same with P('a'), and with C for B. *)
Definition c31_arity : grammar :=
  [plain "S" (alts [mc "P" [lit "a"]; rf "B"]); macro_rule "P" ["x"; "y"]%string (seqs [rf "x"; rf "B"; rf "y"]); plain "B" (lit "b")].
Definition c31_undef : grammar :=
  [plain "S" (alts [mc "P" [lit "a"; rf "S"]; rf "B"]); macro_rule "P" ["x"; "y"]%string (seqs [rf "x"; rf "C"; rf "y"]); plain "B" (lit "b")].
Fixpoint distinct (l : list bytes) : bool := match l with [] => true | x :: l' => negb (bmem x l') && distinct l' end.
Lemma distinct_NoDup l : distinct l = true -> NoDup l.
Proof.
  induction l as [|x l IH]; intros H; constructor; cbn in H; apply andb_prop in H as [A B]; [|auto].
  intros Hin. apply bmem_In in Hin. rewrite Hin in A. discriminate.
Qed.
Lemma src_check g : distinct (map r_name g) = true ->
  forallb (fun d => match r_body d with Some b => from_text b | None => false end && negb (r_lr d) && negb (r_can_be_empty d)) g = true -> source_grammar g.
Proof.
  intros H1 H2. rewrite forallb_forall in H2. split.
  - now apply distinct_NoDup.
  - intros d Hd. specialize (H2 d Hd). rewrite !andb_true_iff in H2. destruct H2 as [[A _] _]. destruct (r_body d) as [b|]; [eauto|discriminate].
  - intros d Hd. specialize (H2 d Hd). rewrite !andb_true_iff, !negb_true_iff in H2. tauto.
Qed.
Ltac is_source := apply src_check; vm_compute; reflexivity.

Example C31_meets :
  (source_grammar c31_src /\ exists l, load 50 no_keys true [] (bs "S") c31_src = Some (Accepted l))
  /\ (source_grammar c31_arity /\ dangling c31_arity)
  /\ (source_grammar c31_undef /\ dangling c31_undef /\ load 50 no_keys true [] (bs "S") c31_undef = Some Rejected).
Proof.
  split; [split; [is_source|]; vm_compute; eauto|].
  assert (D1 : dangling c31_arity).
  { eexists _, _, _, _, _, _, _. split; [left; reflexivity|]. split; [reflexivity|]. split.
    - eapply inside_part; [left; reflexivity|]. apply inside_self.
    - split; [intros []|]. right. eexists. split; [right; left; reflexivity|]. split; [reflexivity|]. right. split; [reflexivity|discriminate]. }
  assert (D2 : dangling c31_undef).
  { eexists _, _, _, _, _, _, _. split; [right; left; reflexivity|]. split; [reflexivity|]. split.
    - eapply inside_part; [right; left; reflexivity|]. apply inside_self.
    - split; [intros [H|[H|[]]]; discriminate|]. left. intros d [<- | [<- | [<- | []]]]; discriminate. }
  split; [split; [is_source|exact D1]|]. split; [is_source|]. split; [exact D2|vm_compute; reflexivity].
Qed.

(** What stands in parentheses after a macro parameter is the one thing not looked
    at: M(x) <- x(U) is accepted although U is not defined. *)
Theorem C31_parameter_arguments_refuted :
  exists src l, source_grammar src
    /\ load 50 no_keys true [] (bs "S") src = Some (Accepted l)
    /\ exists d b n args, In d src /\ r_body d = Some b /\ b = mc n [Ref args None 0 false []] /\ (forall d', In d' src -> r_name d' <> args).
Proof.
  exists [plain "S" (mc "M" [lit "a"]); macro_rule "M" ["x"]%string (mc "x" [rf "U"])]. eexists. split; [is_source|]. split; [vm_compute; reflexivity|].
  eexists _, _, _, _. split; [right; left; reflexivity|]. split; [reflexivity|]. split; [reflexivity|]. intros d [<- | [<- | []]]; discriminate.
Qed.
Print Assumptions C31_parameter_arguments_refuted.

(** ** C32 *)

(** In an accepted grammar without macros and beyond-textbook operators, an unbounded
    repetition that is not run inside another one never has an operand that matches
    the empty text: neither in a rule reached from the start rule, nor in one reached
    from %whitespace or %word. *)
Theorem C32_repetitions_consume_partial fuel keq lrec instrs start src l : source_grammar src ->
  load fuel keq lrec instrs start src = Some (Accepted l) ->
  let g := link_all src in
  ordinary_grammar g ->
  forall s r d b e mn sp,
    rule_named src start = Some s \/ rule_named src ws_name = Some s \/ rule_named src word_name = Some s ->
    plain_rule g s -> reaches g s r -> ~ run_in_loop g s r ->
    nth_error g r = Some d -> r_body d = Some b -> unlooped b (Rep e mn None sp) ->
    forall ws fr m, ~ PegSpec.can_be_empty (peg_of g ws) (den g ws fr m e).
Proof.
  intros Hsrc Hload g Hord s r d b e mn sp Hs Hps Hr Hq Hd Hb Hu ws fr m He.
  apply (loops_consume fuel keq lrec instrs start src l Hsrc Hload Hord s r d b e mn sp Hs Hps Hr Hq Hd Hb Hu).
  apply (means_empty g ws Hord e fr m); [|exact He].
  pose proof (Hord d (nth_error_In _ _ Hd) (plain_reached g Hord s r Hr Hps d Hd)) as Ho. rewrite Hb in Ho. clear -Hu Ho. remember (Rep e mn None sp) as x eqn:E.
  induction Hu as [o|o p x Hn Hp Hu IH]; [subst o; exact Ho|]. apply IH; [exact E|]. eapply ordinary_part; eauto.
Qed.
Print Assumptions C32_repetitions_consume_partial.

(** Which rules an expression without macros mentions, as a list, for the examples. *)
Fixpoint mention_list (o : ope) : list rid :=
  match o with
  | Seq _ l | Cho _ _ l => List.concat (map mention_list l)
  | Rep e _ _ _ | And e | Not e | Csc e | Cap _ e | Tok e | Ign e | Rcv e | Wsp e => mention_list e
  | Ref _ rl _ _ args => (match rl with Some r => [r] | None => [] end) ++ List.concat (map mention_list args)
  | Pre a b _ _ => mention_list a ++ mention_list b
  | _ => []
  end.
Lemma mention_listed o r : mentions o r -> In r (mention_list o).
Proof.
  intros (n & ia & mac & args & H). remember (Ref n (Some r) ia mac args) as x eqn:E.
  induction H as [o|o p x Hp H IH]; [subst o; left; reflexivity|]. specialize (IH E). clear -Hp IH.
  assert (Hc : forall l, In p l -> In r (List.concat (map mention_list l))) by (intros l Hl; apply in_concat; exists (mention_list p); split; [now apply in_map|exact IH]).
  destruct o; cbn [parts mention_list] in *; try contradiction; try (destruct Hp as [<- | []]; exact IH); auto.
  - apply in_or_app. right. apply Hc. destruct (in_dec _ _ _); [destruct Hp|exact Hp].
  - destruct Hp as [<- | [<- | []]]; apply in_or_app; auto.
Qed.

Ltac is_ordinary := intros ? HIn Hm; repeat (destruct HIn as [<- |HIn]; [first [discriminate Hm|vm_compute; reflexivity]|]); destruct HIn.
Ltac is_plain := intros ? HIn; vm_compute in HIn; injection HIn as <-; reflexivity.

(** S <- 'a' (T / 'c')*; T <- 'b'+ 'd'. *)
Lemma reaches_last g a b : reaches g a b -> a = b \/ exists r, calls g r b.
Proof. induction 1 as [r|r r1 r2 Hc Hr [->|IH]]; eauto. Qed.
Definition c32_src : grammar :=
  [recover_rule; plain "S" (seqs [lit "a"; many (alts [rf "T"; lit "c"])]); plain "T" (seqs [Rep (lit "b") 1 None None; lit "d"])].
Example C32_meets :
  source_grammar c32_src /\ (exists l, load 50 no_keys true [] (bs "S") c32_src = Some (Accepted l))
  /\ ordinary_grammar (link_all c32_src)
  /\ (exists d b e, nth_error (link_all c32_src) 1 = Some d /\ r_body d = Some b /\ plain_rule (link_all c32_src) 1
       /\ unlooped b (Rep e 0 None None) /\ ~ run_in_loop (link_all c32_src) 1 1)
  /\ load 50 no_keys true [] (bs "S") [plain "S" (seqs [lit "a"; many (alts [rf "T"; lit "c"])]); plain "T" (many (lit "b"))] = Some Rejected.
Proof.
  split; [is_source|]. split; [vm_compute; eauto|]. split; [is_ordinary|]. split; [|vm_compute; reflexivity].
  eexists _, _, _. split; [reflexivity|]. split; [reflexivity|]. split; [is_plain|]. split.
  - eapply unlooped_part; [discriminate|right; left; reflexivity|constructor].
  - assert (Hno : forall r0, ~ calls (link_all c32_src) r0 1).
    { intros r0 (d & b & Hd & Hb & Hm). apply mention_listed in Hm. destruct r0 as [|[|[|[|]]]]; try discriminate; injection Hd as <-; injection Hb as <-; vm_compute in Hm; repeat (destruct Hm as [Hm|Hm]; [discriminate|]); destruct Hm. }
    intros (r0 & d & b & e & mn & sp & r1 & _ & Hd & Hb & Hi & (n & ia & mac & args & Hm) & Hr).
    destruct (reaches_last _ _ _ Hr) as [->|[r2 Hc]]; [|exact (Hno r2 Hc)].
    apply (Hno r0). exists d, b. split; [exact Hd|]. split; [exact Hb|]. exists n, ia, mac, args. eapply inside_trans; [exact Hi|]. eapply inside_part; [left; reflexivity|exact Hm].
Qed.

(** What lies inside the operand of another repetition is not looked at in the same
    way:  S <- (''* 'a')*  is accepted, and parsing does not end on any text. *)
Definition c32_nested : grammar := [plain "S" (many (seqs [many (lit ""); lit "a"]))].
Theorem C32_nested_loop_refuted :
  source_grammar c32_nested
  /\ exists l, load 50 no_keys true [] (bs "S") c32_nested = Some (Accepted l)
  /\ forall input fuel, parser_parse fuel (sample (ld_g l) None None true false) input tt = OutOfFuel.
Proof.
  split; [is_source|]. eexists. split; [vm_compute; reflexivity|]. cbn [ld_g]. intros input fuel.
  match goal with |- parser_parse _ ?p _ _ = _ => set (P := p) end.
  set (E := mk_env P input). set (o := Lit [] false).
  assert (Hone : forall f q vs (c : ctx bytes unit), parse (S f) E o q vs c = Ok (Some 0, vs, c)).
  { intros f q vs c. cbn [parse]. unfold traced, is_traceable. change (e_tracer E) with false. cbn [andb]. cbn [parse_core o]. unfold parse_literal.
    replace (lit_loop (e_input E) q (left E q) [] false) with (Ok true) by now destruct (left E q). reflexivity. }
  assert (Hrep : forall f g q i vs (c : ctx bytes unit), rep_more f E (parse g) o None q i vs c = OutOfFuel).
  { induction f as [|f IH]; intros g q i vs c; [reflexivity|]. cbn [rep_more]. destruct g as [|g]; [reflexivity|].
    rewrite Hone. cbn [bind option_map]. apply IH. }
  assert (Hin : forall f q vs (c : ctx bytes unit), parse f E (many o) q vs c = OutOfFuel).
  { intros [|f] q vs c; [reflexivity|]. cbn [parse]. unfold traced, is_traceable. change (e_tracer E) with false. cbn [andb].
    cbn [parse_core many]. unfold parse_rep. cbn [rep_min bind]. apply Hrep. }
  assert (Hseq : forall f q vs (c : ctx bytes unit), parse f E (Seq None [many o; lit "a"]) q vs c = OutOfFuel).
  { intros [|f] q vs c; [reflexivity|]. cbn [parse]. unfold traced, is_traceable. change (e_tracer E) with false. cbn [andb].
    cbn [parse_core]. unfold parse_seq. cbn [seq_loop]. rewrite Hin. reflexivity. }
  assert (Hbody : forall f q vs (c : ctx bytes unit), parse f E (many (Seq None [many o; lit "a"])) q vs c = OutOfFuel).
  { intros [|f] q vs c; [reflexivity|]. cbn [parse]. unfold traced, is_traceable. change (e_tracer E) with false. cbn [andb].
    cbn [parse_core many]. unfold parse_rep. cbn [rep_min bind]. destruct f as [|f]; [reflexivity|]. cbn [rep_more]. fold (many o). rewrite Hseq. reflexivity. }
  unfold parser_parse, def_parse. cbv zeta. cbn [p_ws P sample]. fold P. fold E. cbn [bind].
  destruct fuel as [|fuel]; [reflexivity|]. cbn [parse]. unfold traced, is_traceable. change (e_tracer E) with false. cbn [andb].
  cbn [parse_core]. unfold parse_hld. change (e_g E) with (p_g P). unfold get_rule. cbn.
  unfold guard. cbn. unfold do_parse. cbn. unfold parse_ope_body. cbn.
  rewrite Hbody. reflexivity.
Qed.
Print Assumptions C32_nested_loop_refuted.

(** A rule run inside a repetition of which it is itself a part is not covered
    either:  S <- ('(' S* ')')?  is accepted, and on the text "(" the textbook meaning
    gives neither success nor failure, since S* repeats the empty match. *)
Lemma star_never {NT} (G : NT -> PegSpec.pexp NT) a s : PegSpec.peg G a s (Some s) -> forall r, ~ PegSpec.peg G (PegSpec.PStar a) s r.
Proof.
  intros Ha r H. remember (PegSpec.PStar a) as e eqn:E. remember s as s' eqn:Es in H. revert E Es.
  induction H as [| | | | | | | | | | |a' s0 H _|a' s0 t r H _ H' IH| |]; intros E Es; try discriminate; injection E as ->; subst s0.
  - discriminate (PegFacts.peg_det _ _ _ _ Ha _ H).
  - pose proof (PegFacts.peg_det _ _ _ _ Ha _ H) as X. injection X as <-. auto.
Qed.
Section NoResult.
  Import PegSpec PegFacts.
  Context {NT : Type} (G : NT -> pexp NT).
  Lemma no_nt n s : (forall r, ~ peg G (G n) s r) -> forall r, ~ peg G (PNT n) s r.
  Proof. intros H r X. inversion X; subst. eapply H; eauto. Qed.
  Lemma no_seq a b s t : peg G a s (Some t) -> (forall r, ~ peg G b t r) -> forall r, ~ peg G (PSeq a b) s r.
  Proof.
    intros Ha H r X. inversion X as [| | | | | | |a' b' s' t' r' X1 X2|a' b' s' X1| | | | | |]; subst; pose proof (peg_det _ _ _ _ Ha _ X1) as E; [|discriminate].
    injection E as <-. eapply H; eauto.
  Qed.
  Lemma no_seq_l a b s : (forall r, ~ peg G a s r) -> forall r, ~ peg G (PSeq a b) s r.
  Proof. intros H r X. inversion X; subst; eapply H; eauto. Qed.
  Lemma no_alt a b s : (forall r, ~ peg G a s r) -> forall r, ~ peg G (PAlt a b) s r.
  Proof. intros H r X. inversion X; subst; eapply H; eauto. Qed.
End NoResult.
Definition c32_self : grammar := [plain "S" (Rep (seqs [lit "("; many (rf "S"); lit ")"]) 0 (Some 1) None)].
Theorem C32_self_loop_refuted :
  source_grammar c32_self
  /\ exists l, load 50 no_keys true [] (bs "S") c32_self = Some (Accepted l)
  /\ forall m r, ~ PegSpec.peg (peg_of (ld_g l) None) (PegSpec.PNT (NRule (ld_start l) m)) (bs "(") r.
Proof.
  split; [is_source|]. eexists. split; [vm_compute; reflexivity|]. cbn [ld_g ld_start].
  match goal with |- context[peg_of ?g _] => set (G := peg_of g None) end.
  assert (He : forall m, PegSpec.peg G (PegSpec.PNT (NRule 0 m)) [] (Some [])).
  { intros m. apply PegSpec.peg_nt. cbn. eapply PegSpec.peg_seq; [constructor|]. apply PegSpec.peg_alt2; [|constructor].
    do 3 apply PegSpec.peg_seq_no. apply PegSpec.peg_lit_no. intros x t H. destruct x; [discriminate|discriminate]. }
  intros m. apply no_nt. cbn. eapply no_seq; [constructor|]. apply no_alt. apply no_seq_l.
  eapply no_seq. { eapply PegSpec.peg_seq; [apply (PegSpec.peg_lit G false (bs "(") (bs "(") []); reflexivity|]. apply PegSpec.peg_nt. constructor. }
  apply no_seq_l. eapply no_seq; [constructor|]. apply star_never, He.
Qed.
Print Assumptions C32_self_loop_refuted.

(** ** C33 *)

(** In an accepted grammar a rule that can call itself before anything is consumed,
    directly or through other rules, is marked as left-recursive, and left recursion is
    enabled.  "Can" is meant as in the textbook PEG the grammar denotes. *)
Theorem C33_left_recursion_is_recognised_partial fuel keq lrec instrs start src l : source_grammar src ->
  load fuel keq lrec instrs start src = Some (Accepted l) ->
  let g := link_all src in
  ordinary_grammar g -> (forall d b, In d g -> r_is_macro d = false -> r_body d = Some b -> regular g b) ->
  forall r m wr, plain_rule g r -> (forall w, wr = Some w -> plain_rule g w) -> calls_left (peg_of g (ws_expr g wr)) (NRule r m) (NRule r m) ->
    lrec = true /\ exists d, nth_error (ld_g l) r = Some d /\ r_lr d = true.
Proof.
  intros Hsrc Hload g Hord Hreg r m wr Hpr Hpw H. apply (recursion_flagged fuel keq lrec instrs start src l Hsrc Hload Hord Hreg); [exact Hpr|].
  refine (left_cycle g wr Hord (g_named fuel keq lrec instrs start src l Hsrc Hload Hord) Hpw _ r m Hpr H).
  intros d Hd. unfold g, link_all in Hd. apply in_map_iff in Hd as (d0 & <- & Hd0). cbn. now apply (sg_flags _ Hsrc).
Qed.
Print Assumptions C33_left_recursion_is_recognised_partial.

(** The same with emptiness and first calls read off the operators: also through
    predicates, and through elements that only look as if they could be empty. *)
Theorem C33_static_left_recursion_is_recognised_partial fuel keq lrec instrs start src l : source_grammar src ->
  load fuel keq lrec instrs start src = Some (Accepted l) ->
  let g := link_all src in
  ordinary_grammar g -> (forall d b, In d g -> r_is_macro d = false -> r_body d = Some b -> regular g b) ->
  forall r, plain_rule g r -> left_reaches g r r -> lrec = true /\ exists d, nth_error (ld_g l) r = Some d /\ r_lr d = true.
Proof. intros Hsrc Hload g Hord Hreg r. now apply (recursion_flagged fuel keq lrec instrs start src l Hsrc Hload Hord Hreg). Qed.
Print Assumptions C33_static_left_recursion_is_recognised_partial.

(** A <- 'b'? B / 'w'; B <- A 'z' / 'y': indirect, behind an optional element. *)
Definition opt (e : ope) : ope := Rep e 0 (Some 1) None.
Definition c33_src : grammar :=
  [recover_rule; plain "A" (alts [seqs [opt (lit "b"); rf "B"]; lit "w"]); plain "B" (alts [seqs [rf "A"; lit "z"]; lit "y"])].
Ltac is_regular k :=
  match goal with |- forall d b, In d ?g -> _ => intros d b Hd _ Hb; apply (regular_checked g k ltac:(vm_compute; reflexivity) b);
    revert d b Hd Hb; apply (body_sat_spec g (fun b => forallb (regular_at g k) (insides b))); vm_compute; reflexivity end.
Example C33_meets :
  source_grammar c33_src
  /\ (exists l, load 50 no_keys true [] (bs "A") c33_src = Some (Accepted l))
  /\ load 50 no_keys false [] (bs "A") c33_src = Some Rejected
  /\ ordinary_grammar (link_all c33_src)
  /\ (forall d b, In d (link_all c33_src) -> r_is_macro d = false -> r_body d = Some b -> regular (link_all c33_src) b)
  /\ calls_left (peg_of (link_all c33_src) (ws_expr (link_all c33_src) None)) (NRule 1 m_top) (NRule 1 m_top)
  /\ plain_rule (link_all c33_src) 1.
Proof.
  split; [is_source|]. split; [vm_compute; eauto|]. split; [vm_compute; reflexivity|].
  split; [is_ordinary|]. split; [is_regular 5|]. split; [|is_plain].
  - eapply cl_more; [apply cl_one|].
    + cbn. left. right. split; [|left; reflexivity]. exists []. eapply PegSpec.peg_seq; [constructor|]. apply PegSpec.peg_alt2; [|constructor].
      do 2 apply PegSpec.peg_seq_no. apply PegSpec.peg_lit_no. intros x t H. destruct x; discriminate.
    + cbn. left. left. reflexivity.
Qed.

(** The conditions are needed.  Accepted with left recursion disabled although the
    rule calls itself first: behind a choice whose last alternative consumes
    (A <- ('x'? / 'y') A 'z' / 'w') and behind a repetition of something that may be
    empty (A <- ('b'?){2} A 'x' / 'y'). *)
Definition c33_choice : grammar := [plain "A" (alts [seqs [alts [opt (lit "x"); lit "y"]; rf "A"; lit "z"]; lit "w"])].
Definition c33_repeat : grammar := [plain "A" (alts [seqs [Rep (opt (lit "b")) 2 (Some 2) None; rf "A"; lit "x"]; lit "y"])].
Theorem C33_undetected_refuted : forall src, In src [c33_choice; c33_repeat] ->
  source_grammar src /\ ordinary_grammar (link_all src)
  /\ (exists l, load 50 no_keys false [] (bs "A") src = Some (Accepted l))
  /\ forall m, calls_left (peg_of (link_all src) None) (NRule 0 m) (NRule 0 m).
Proof.
  intros src [<- | [<- | []]]; (split; [is_source|]; split; [is_ordinary|]; split; [vm_compute; eauto|]); intros m; apply cl_one; cbn.
  - left. right. split; [|left; reflexivity]. exists []. apply PegSpec.peg_alt1. eapply PegSpec.peg_seq; [constructor|]. apply PegSpec.peg_alt2; [|constructor].
    do 2 apply PegSpec.peg_seq_no. apply PegSpec.peg_lit_no. intros x t H. destruct x; discriminate.
  - assert (Ho : forall G : nt -> PegSpec.pexp nt, PegSpec.peg G (PegSpec.PRepeat 0 (Some 1) (skips m (PegSpec.PLit false (bs "b")))) [] (Some [])).
    { intros G. eapply PegSpec.peg_seq; [constructor|]. apply PegSpec.peg_alt2; [|constructor].
      do 2 apply PegSpec.peg_seq_no. apply PegSpec.peg_lit_no. intros x t H. destruct x; discriminate. }
    left. right. split; [|left; reflexivity]. exists []. eapply PegSpec.peg_seq; [apply Ho|]. eapply PegSpec.peg_seq; [apply Ho|constructor].
Qed.
Print Assumptions C33_undetected_refuted.
