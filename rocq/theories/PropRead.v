(** * C50, C51: what a grammar text is read as.

    NotationSpec says which texts the notation allows and what they stand for, ReadSpec
    what the definitions of a text amount to; neither uses the reader.  [g] is the
    library's own grammar of grammar texts with the annotations SetupFirstSets computes
    for it, whatever the order of its hash map; [log] says whether a log is given. *)
From Verif Require Import Base BaseLemmas Utf8 Utf8Spec Escape EscapeSpec TrieM LineInfo Ope Ctx ErrLog Engine EngineLemmas Top Scope FirstSetM FirstSpec PrecSpec PrecM
  LoadM MetaM MetaSource NotationSpec ReadSpec MetaJudge MetaLex MetaExpr MetaText PropMeta.

(** A text that is a list of definitions [ds] in the notation is read as exactly those
    definitions: their rules, in order, behind the built-in macro; the first one whose
    name does not begin with a percent sign is the start rule; the instructions are kept
    under the names of their rules; packrat parsing stays allowed iff every back reference
    follows a capture of its name in the same definition. *)
Theorem C50_text_means_its_definitions g log text ds : meta_annotated g -> grammar_text text ds -> consistent ds ->
  exists F d, (forall fuel, F <= fuel -> read_text fuel g log text = Ok (Rules d))
    /\ d_rules d = rule_of recover_def :: map rule_of ds
    /\ d_start d = start_name ds
    /\ d_instrs d = instr_table ds
    /\ d_packrat d = forallb (fun x => local_refs (events (df_body x)) []) ds.
Proof. exact (text_read g log text ds). Qed.
Print Assumptions C50_text_means_its_definitions.

(** So the notation is unambiguous: no text has two meanings. *)
Lemma rule_of_inj x y : rule_of x = rule_of y -> df_ignored x = df_ignored y /\ df_name x = df_name y /\ df_params x = df_params y /\ df_body x = df_body y.
Proof.
  intros H. assert (H1 := f_equal r_ignore H). assert (H2 := f_equal r_name H). assert (H3 := f_equal r_is_macro H). assert (H4 := f_equal r_params H). assert (H5 := f_equal r_body H).
  cbn [rule_of r_ignore r_name r_is_macro r_params r_body] in *. injection H5 as H5. split; [exact H1|]. split; [exact H2|]. split; [|exact H5].
  destruct (df_params x), (df_params y); congruence.
Qed.
Lemma table_names n is ds : In (n, is) (instr_table ds) -> In n (map df_name ds).
Proof.
  unfold instr_table. rewrite in_flat_map. intros (x & Hx & H). destruct (df_instrs x); [destruct H|]. destruct H as [H|[]]. injection H as <- _. now apply in_map.
Qed.
Lemma defs_eq : forall a b, NoDup (map df_name a) -> map rule_of a = map rule_of b -> instr_table a = instr_table b -> a = b.
Proof.
  induction a as [|x a IH]; intros [|y b] Hn Hr Ht; try discriminate Hr; [reflexivity|]. cbn [map] in *. assert (Hxy : rule_of x = rule_of y) by exact (f_equal (hd (rule_of x)) Hr). assert (Hr' : map rule_of a = map rule_of b) by exact (f_equal (@tl rule) Hr).
  apply NoDup_cons_iff in Hn as [Hn Hn'].
  destruct (rule_of_inj x y Hxy) as (E1 & E2 & E3 & E4).
  assert (Hab : map df_name a = map df_name b).
  { transitivity (map r_name (map rule_of a)); [rewrite map_map; reflexivity|]. rewrite Hr', map_map. reflexivity. }
  cbn [instr_table flat_map] in Ht. fold (instr_table a) (instr_table b) in Ht.
  assert (Hi : df_instrs x = df_instrs y /\ instr_table a = instr_table b).
  { destruct (df_instrs x) as [|i is] eqn:Ex, (df_instrs y) as [|j js] eqn:Ey; cbn [app] in Ht.
    - auto.
    - destruct Hn. rewrite E2. apply (table_names _ (j :: js)). rewrite Ht. now left.
    - destruct Hn. rewrite Hab. apply (table_names _ (i :: is)). rewrite <- Ht. now left.
    - injection Ht as _ -> -> ->. auto. }
  destruct Hi as [E5 E6]. rewrite (IH b Hn' Hr' E6). destruct x, y; cbn in *. congruence.
Qed.
Theorem C50_one_meaning text ds ds' : grammar_text text ds -> grammar_text text ds' -> consistent ds -> consistent ds' -> ds = ds'.
Proof.
  intros H H' HC HC'. destruct (text_read meta_g true text ds meta_g_ok H HC) as (F & d & A & A1 & _ & A3 & _).
  destruct (text_read meta_g true text ds' meta_g_ok H' HC') as (F' & d' & B & B1 & _ & B3 & _).
  pose proof (A (F + F') ltac:(lia)) as X. rewrite (B (F + F') ltac:(lia)) in X. injection X as ->.
  destruct HC as (N & _). apply NoDup_cons_iff in N as [_ N]. apply defs_eq; [exact N| |congruence]. rewrite A1 in B1. exact (f_equal (@tl rule) B1).
Qed.
Print Assumptions C50_one_meaning.

(** A text in the notation whose definitions are not consistent is refused. *)
Theorem C51_inconsistent_text_refused g log text ds : meta_annotated g -> grammar_text text ds -> ~ consistent ds ->
  exists F, forall fuel, F <= fuel -> read_text fuel g log text = Ok Refused.
Proof. exact (text_refused g log text ds). Qed.
Print Assumptions C51_inconsistent_text_refused.

(** A text of two rules, with its meaning. *)
Definition text2 : bytes := bs "S <- 'a' A*
A <- [b-d] / ~S $x<.>{2} $x { no_ast_opt }".
Definition defs2 : list def :=
  [ {| df_ignored := false; df_name := bs "S"; df_params := None; df_body := Seq None [Lit (bs "a") false; Rep (Ref (bs "A") None 0 false []) 0 None None]; df_instrs := [] |};
    {| df_ignored := false; df_name := bs "A"; df_params := None;
       df_body := Cho false [] [Cls [(98, 100)%N] false false; Seq None [Ign (Ref (bs "S") None 0 false []); Rep (Cap (bs "x") Dot) 2 (Some 2) None; Bkr (bs "x")]];
       df_instrs := [INoAstOpt] |} ].
Lemma name_letter b : (bN b <? 128)%N = true -> name_start (bN b) = true -> name [b].
Proof.
  intros H1 H2. exists (bN b), []. apply N.ltb_lt in H1. split; [destruct b; try reflexivity; discriminate H1|]. split; [constructor; [left; lia|constructor]|]. split; [exact H2|reflexivity].
Qed.
Local Ltac sp0 := apply sp_end; intros ? X; first [discriminate X | injection X as <-; split; [reflexivity|discriminate]].
Local Ltac sp1 := apply sp_blank; [reflexivity|]; sp0.
Local Ltac nm := apply name_letter; reflexivity.
Local Ltac ends := apply ends_byte; reflexivity.
Local Ltac noarrow := intros [(? & ? & [-> | ->] & X)|(? & ? & ? & ? & (? & ? & -> & _) & _ & X)]; discriminate X.
Local Ltac nl := split; [discriminate|]; split; [discriminate|]; split; [discriminate|]; intros ? ? ? X; discriminate X.
Local Ltac nlb := split; [discriminate|intros ? X; discriminate X].
Lemma head_A r : head (bs "A ") false (bs "A") None (bs "<-" ++ r).
Proof. exists [], (bs " "). split; [reflexivity|]. split; [nm|]. split; [ends|]. split; [reflexivity|]. split; [sp1|]. exists (bs "<-"), r. split; [left; reflexivity|reflexivity]. Qed.
Lemma head_S r : head (bs "S ") false (bs "S") None (bs "<-" ++ r).
Proof. exists [], (bs " "). split; [reflexivity|]. split; [nm|]. split; [ends|]. split; [reflexivity|]. split; [sp1|]. exists (bs "<-"), r. split; [left; reflexivity|reflexivity]. Qed.
Lemma text2_means : grammar_text text2 defs2.
Proof.
  exists [], text2. split; [reflexivity|]. split; [sp0|].
  refine (ds_more (bs "S <- 'a' A*
") _ (bs "A <- [b-d] / ~S $x<.>{2} $x { no_ast_opt }") _ _ (ds_last _ _ _)).
  - refine (definition_ (bs "S ") false (bs "S") None (bs "<-") (bs " ") (bs "'a' A*
") [Seq None [_; _]] [] [] _ (head_S _) (or_introl eq_refl) _ (ex_last _ [_; _] _ _ _) (is_none _ _)); [sp1| |discriminate|discriminate].
    refine (sq_item (bs "'a' ") _ (bs "A*
") _ _ (el [] _ (bs "'a' ") (Lit (bs "a") false) [] _ [] _ _ (mk_none _) _ (lp_none _ _) (lb_none _ _)) (sq_item (bs "A*
") _ [] _ _ (el [] _ (bs "A") (Ref (bs "A") None 0 false []) (bs "*
") _ [] _ _ (mk_none _) _ (lp_zom (bs "
") _ _) (lb_none _ _)) (sq_end _ _))).
    + apply pr_literal; [|discriminate]. refine (quoted_ false x27 [Letter 97] (bs " ") _ _ _ _); [|discriminate|sp1].
      split; [now left|]. split; [|intros [X|[]]; discriminate X]. split; [|reflexivity]. constructor; [split; [left; reflexivity|discriminate]|constructor].
    + nl.
    + nlb.
    + refine (pr_ref false (bs "A") [] _ _ _ _ _ _); [nm|ends|discriminate|sp0|noarrow].
    + sp1.
    + nlb.
    + right. right. exists (bs "A "), false, (bs "A"), None. eexists. split; [apply head_A|reflexivity].
  - refine (definition_ (bs "A ") false (bs "A") None (bs "<-") (bs " ") (bs "[b-d] / ~S $x<.>{2} $x ") [_; Seq None [_; _; _]] (bs "{ no_ast_opt }") [INoAstOpt] _ (head_A _) (or_introl eq_refl) _
      (ex_more (bs "[b-d] ") [_] (bs " ") (bs "~S $x<.>{2} $x ") [Seq None [_; _; _]] _ _ _ (ex_last _ [_; _; _] _ _ _)) (is_some (bs " ") (bs "no_ast_opt ") [_] [] _ _ (il_last _ _ _ (in_no_ast (bs " ") _ _) _) _)); [sp1| |sp1| |discriminate|sp1| |discriminate|sp0].
    + refine (sq_item (bs "[b-d] ") _ [] _ _ (el [] _ (bs "[b-d] ") _ [] _ [] _ _ (mk_none _) _ (lp_none _ _) (lb_none _ _)) (sq_end _ _)).
      * apply pr_class. refine (class_c false false (bs "b-d") [(98, 100)%N] (bs " ") _ _ _ _ _ _); [|discriminate|discriminate|discriminate|sp1].
        refine (me_range (Letter 98) (Letter 100) [] [] _ _ _ _ _ (me_end _ _)); [..|discriminate|exact I|reflexivity];
          (split; [split; [left; reflexivity|discriminate]|]; split; [left; reflexivity|split; discriminate]).
      * nl.
      * nlb.
      * right. left. exists x2f. split; [reflexivity|]. right. right. now left.
    + refine (sq_item (bs "~S ") _ (bs "$x<.>{2} $x ") _ _ (el [] _ (bs "~S ") _ [] _ [] _ _ (mk_none _) (pr_ref true (bs "S") (bs " ") _ _ _ _ _ _) (lp_none _ _) (lb_none _ _))
        (sq_item (bs "$x<.>{2} ") _ (bs "$x ") _ _ (el [] _ (bs "$x<.>") _ (bs "{2} ") _ [] _ _ (mk_none _)
          (pr_capture (bs "x") [] (bs ".") [_] [] _ _ _ (ex_last _ [_] _ (sq_item (bs ".") _ [] _ _ (el [] _ (bs ".") _ [] _ [] _ _ (mk_none _) (pr_any [] _ _) (lp_none _ _) (lb_none _ _)) (sq_end _ _)) _) _)
          (lp_rep [] (bs "2") 2 (Some 2) (bs " ") _ _ (bo_exact (bs "2") 2 _ (number_ (bs "2") [] _ _ _ _ _ _) _) _) (lb_none _ _))
        (sq_item (bs "$x ") _ [] _ _ (el [] _ (bs "$x ") _ [] _ [] _ _ (mk_none _) (pr_back (bs "x") (bs " ") _ _ _ _ _) (lp_none _ _) (lb_none _ _)) (sq_end _ _)))).
      all: try nm; try ends; try discriminate; try sp1; try sp0; try noarrow; try nlb; try nl; try reflexivity.
      * right. left. exists x3e. split; [reflexivity|]. right. now left.
      * intros b X. injection X as <-. reflexivity.
      * split; [discriminate|]. split; [discriminate|]. split; [discriminate|]. intros s t b X Hs Hb. injection X as X. destruct s as [|c s]; [cbn in X; subst t|].
        -- inversion Hs as [? K| |]. destruct (K x20 eq_refl) as [K' _]. discriminate K'.
        -- cbn in X. injection X as <- X. inversion Hs as [|? ? ? _ K|]; subst. destruct s as [|c s]; [cbn in X; subst t; injection Hb as <-; split; [reflexivity|discriminate]|]. cbn in X. injection X as <- X. inversion K; discriminate.
      * right. left. exists x7b. split; [reflexivity|]. do 4 right. now left.
    + split; [reflexivity|]. intros b X. injection X as <-. reflexivity.
Qed.
Example C50_meets : grammar_text text2 defs2 /\ consistent defs2 /\ start_name defs2 = bs "S" /\ instr_table defs2 = [(bs "A", [INoAstOpt])].
Proof.
  split; [exact text2_means|]. split; [|split; reflexivity]. split; [|split].
  - repeat constructor; cbn; intuition discriminate.
  - reflexivity.
  - repeat constructor; cbn; intuition.
Qed.
Definition text3 : bytes := bs "A <- .
A <- .".
Definition def3 : def := {| df_ignored := false; df_name := bs "A"; df_params := None; df_body := Dot; df_instrs := [] |}.
Example C51_meets : grammar_text text3 [def3; def3] /\ ~ consistent [def3; def3].
Proof.
  split; [|intros (H & _); apply NoDup_cons_iff in H as [_ H]; apply NoDup_cons_iff in H as [H _]; apply H; now left].
  exists [], text3. split; [reflexivity|]. split; [sp0|].
  refine (ds_more (bs "A <- .
") _ (bs "A <- .") _ _ (ds_last _ _ _)).
  - refine (definition_ (bs "A ") false (bs "A") None (bs "<-") (bs " ") (bs ".
") [_] [] [] _ (head_A _) (or_introl eq_refl) _ (ex_last _ [_] _ (sq_item _ _ [] _ _ (el [] _ (bs ".
") _ [] _ [] _ _ (mk_none _) (pr_any (bs "
") _ _) (lp_none _ _) (lb_none _ _)) (sq_end _ _)) _) (is_none _ _)); [sp1|sp1|nl|nlb| |discriminate|discriminate].
    right. right. exists (bs "A "), false, (bs "A"), None. eexists. split; [apply head_A|reflexivity].
  - refine (definition_ (bs "A ") false (bs "A") None (bs "<-") (bs " ") (bs ".") [_] [] [] _ (head_A _) (or_introl eq_refl) _ (ex_last _ [_] _ (sq_item _ _ [] _ _ (el [] _ (bs ".") _ [] _ [] _ _ (mk_none _) (pr_any [] _ _) (lp_none _ _) (lb_none _ _)) (sq_end _ _)) _) (is_none _ _)); [sp1|sp0|nl|nlb|now left|discriminate|discriminate].
Qed.

(** What the notation of NotationSpec leaves out, because the reader disagrees with the
    documentation there:  an arrow written ← directly after the name is read as part of
    the name (identifiers may contain any code point above 127, 5497-5499), so the text
    is refused; a count {3,1} that nothing satisfies is accepted; and counts
    that do not fit 64 bits are read as 0 (token_to_number_, 422-436). *)
Definition left_arrow : bytes := [xe2; x86; x90].
Definition read_bodies (t : bytes) : option (list (bytes * option ope)) :=
  match read_text 400 meta_g true t with Ok (Rules d) => Some (map (fun r => (r_name r, r_body r)) (skipn 1 (d_rules d))) | _ => None end.
Theorem C50_other_texts_refuted :
  read_text 400 meta_g true (bs "S" ++ left_arrow ++ bs " 'a'") = Ok Refused
  /\ read_bodies (bs "S " ++ left_arrow ++ bs " 'a'") = Some [(bs "S", Some (Lit (bs "a") false))]
  /\ read_bodies (bs "S <- 'a'{3,1}") = Some [(bs "S", Some (Rep (Lit (bs "a") false) 3 (Some 1) None))]
  /\ read_bodies (bs "S <- 'a'{18446744073709551617,18446744073709551618}") = Some [(bs "S", Some (Rep (Lit (bs "a") false) 0 (Some 0) None))].
Proof. repeat split; vm_compute; reflexivity. Qed.
Print Assumptions C50_other_texts_refuted.
