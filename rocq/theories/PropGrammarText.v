(** * C57: a parser made from a grammar text accepts the language of the text.

    NotationSpec says which definitions a text consists of, TextPeg which textbook PEG
    these definitions are; neither uses the reader, the loader or the engine. *)
From Coq Require Import Permutation.
From Verif Require Import Base BaseLemmas Utf8 Utf8Spec Escape EscapeSpec TrieM LineInfo Ope Ctx ErrLog Engine EngineLemmas Top Scope TopFacts Mono
  RefSem Refine TopRef GrammarCond PegDen PegEngine FirstSetM FirstSpec FirstSetup FirstTop FirstCheck
  PackratFilter PrecSpec PrecM LoadM LoadSpec LoadRefs DicDen LoadPeg LoadLoop LoadLR LrWf LoadMain LoadWf LoadCheck LoadTop MetaM MetaSource NotationSpec ReadSpec MetaText MetaJudge MetaLex MetaExpr
  TextPeg TextPegProofs Samples PropLoad PropTerm PropFirst PropMeta PropRead.
From Verif Require PegSpec PegFacts.

(** [text] is a list of consistent definitions [ds] from which a parser is obtained;
    [order] is the order of the library's hash map of rules.  [Q] is that parser with any
    settings: actions, callbacks, packrat parsing, logging.  Then it accepts the text
    [input] iff white space and the start rule, read as a textbook PEG, match it, and
    consumes as much; every parse ends with that answer.  The conditions are those of
    C45 and C16: left recursion only of the form text_peg reads as an iteration, repetitions inside others consume, nothing that
    [odd] first-byte sets mistake. *)
Theorem C57_grammar_text_language_partial :
  forall (V U : Type) fuel keq lrec order G log start text ds L packrat (Q : pobj V U) (input : bytes) (dt : U) md mm odd,
  meta_annotated G -> (forall x : grammar, Permutation x (order x)) ->
  grammar_text text ds -> consistent ds ->
  load_text fuel keq lrec order G log start text = Ok (Some (Accepted L), packrat) ->
  let st := match start with [] => start_name ds | _ => start end in
  covered_text ds -> (forall x, In x ds -> df_name x = white \/ df_name x = st -> df_params x = None) ->
  (forall x ls, In x ds -> ~ In (IPrecedence ls) (df_instrs x)) ->
  let src := order (rule_of recover_def :: map rule_of ds) in
  let g := link_all src in
  let wr := rule_named src ws_name in
  (forall d b, In d g -> r_is_macro d = false -> r_body d = Some b -> regular g b) ->
  recursions_direct (strip_grammar (ld_g L)) wr ->
  (forall r d b e mn sp, run g (ld_start L) wr r -> nth_error g r = Some d -> r_body d = Some b ->
     inside [] b (Rep e mn None sp) -> looped g (ld_start L) wr r b (Rep e mn None sp) -> ~ may_be_empty g e) ->
  (forall r d b x w, run g (ld_start L) wr r -> nth_error g r = Some d -> r_body d = Some b -> inside [] b x -> word_of x w -> valid_utf8 w) ->
  p_g Q = ld_g L -> p_ws Q = ld_ws L -> p_start Q = ld_start L -> p_word Q = None -> (forall q, p_pred Q q = None) ->
  let P := unannotated Q in
  core_parser md mm P -> pure (mk_env P input) ->
  no_empty_recursion (p_g P) -> regular_alternatives (p_g P) (Top.is_some (p_ws P)) odd -> regular_spans (p_g P) odd -> no_keyword_guard (p_g P) ->
  valid_utf8 input -> (odd = false -> ascii_text input) ->
  exists r, PegSpec.peg (text_peg ds) (text_start st) input r
  /\ (forall r', PegSpec.peg (text_peg ds) (text_start st) input r' -> r' = r)
  /\ (exists F, forall f, F <= f -> exists reps res, parser_parse f Q input dt = Ok (accepts Q r, reps, res))
  /\ (forall f b reps res, parser_parse f Q input dt = Ok (b, reps, res) ->
        b = accepts Q r /\ (b = true -> forall t, r = Some t -> rs_len res + List.length t = List.length input)).
Proof.
  intros V U fuel keq lrec order G log start text ds L packrat Q input dt md mm odd HG Hord Ht Hcon Hl st Hcov Hpw Hnp src g wr Hreg Hlr Hin Hlit HQ HQw HQs Hwn Hp P Hc Hpure Hne Hra Hrs Hk Hu Ha.
  destruct (text_read G log text ds HG Ht Hcon) as (F & d & HF & E1 & E2 & E3 & _).
  unfold load_text in Hl. destruct (read_text fuel G log text) as [x| | |] eqn:Hr; try discriminate Hl. cbn [bind] in Hl.
  assert (Hx : x = Rules d).
  { specialize (HF (F + fuel) ltac:(lia)). unfold read_text in Hr, HF. destruct (def_parse_below fuel (F + fuel) (meta_parser G log) text data0 ltac:(lia)) as [Hb|Hb]; [rewrite Hb in Hr; discriminate Hr|]. rewrite <- Hb in HF. congruence. }
  subst x. cbv zeta in Hl. rewrite E1, E2, E3 in Hl. match type of Hl with (if ?b then _ else _) = _ => destruct b; [discriminate Hl|] end. injection Hl as Hl _.
  assert (Hs : source_grammar src).
  { pose proof (sd_source _ (read_source fuel G log text d HG Hr)) as [H1 H2 H3]. rewrite E1 in *. pose proof (Hord (rule_of recover_def :: map rule_of ds)) as Hpm. constructor.
    - eapply Permutation_NoDup; [apply Permutation_map; exact Hpm|exact H1].
    - intros r Hi. apply H2. eapply Permutation_in; [apply Permutation_sym; exact Hpm|exact Hi].
    - intros r Hi. apply H3. eapply Permutation_in; [apply Permutation_sym; exact Hpm|exact Hi]. }
  destruct Hcon as (Hnd & _).
  destruct (text_language ds order Hord Hnd Hs Hcov fuel keq lrec st L Hpw Hnp Hl Hreg Hlr Hin Hlit Q input dt md mm odd HQ HQw HQs Hc Hwn Hp Hu Hne Hra Hrs Hk (utf8_plain _ Hu) Ha Hpure) as (r & A & B & C).
  exists r. split; [exact A|]. split; [|split; [exact B|exact C]]. intros r' A'. symmetry. exact (PegFacts.peg_det _ _ _ _ A r' A').
Qed.
Print Assumptions C57_grammar_text_language_partial.

(** A text of three rules; T is a token because it consists of literals only. *)
Definition text4 : bytes := bs "S <- 'a' T*
T <- 'b' / 'c'
%whitespace <- ' '*".
Definition df (n : string) (b : ope) : def := {| df_ignored := false; df_name := bs n; df_params := None; df_body := b; df_instrs := [] |}.
Definition defs4 : list def :=
  [ df "S" (Seq None [Lit (bs "a") false; Rep (Ref (bs "T") None 0 false []) 0 None None]);
    df "T" (Cho false [] [Lit (bs "b") false; Lit (bs "c") false]);
    df "%whitespace" (Rep (Lit (bs " ") false) 0 None None) ].
Local Ltac sp0 := apply sp_end; intros ? X; first [discriminate X | injection X as <-; split; [reflexivity|discriminate]].
Local Ltac sp1 := apply sp_blank; [reflexivity|]; sp0.
Local Ltac nm := apply name_letter; reflexivity.
Local Ltac ends := apply ends_byte; reflexivity.
Local Ltac noarrow := intros [(? & ? & [-> | ->] & X)|(? & ? & ? & ? & (? & ? & -> & _) & _ & X)]; discriminate X.
Local Ltac nl := split; [discriminate|]; split; [discriminate|]; split; [discriminate|]; intros ? ? ? X; discriminate X.
Local Ltac nlb := split; [discriminate|intros ? X; discriminate X].
Lemma white_name : name (bs "%whitespace").
Proof.
  exists 37%N, (map bN (bs "whitespace")). split; [reflexivity|]. split; [|split; reflexivity].
  cbn. repeat (apply Forall_cons; [left; lia|]). apply Forall_nil.
Qed.
Lemma head_of n r : name n -> head (n ++ bs " ") false n None (bs "<-" ++ r).
Proof. intros H. exists [], (bs " "). split; [reflexivity|]. split; [exact H|]. split; [ends|]. split; [reflexivity|]. split; [sp1|]. exists (bs "<-"), r. split; [left; reflexivity|reflexivity]. Qed.
Lemma letter_lit b s r : (bN b <? 128)%N = true -> b <> x27 -> b <> x5c -> spacing s r -> ~ next_is x69 (s ++ r) -> ~ next_is bar r ->
  primary (x27 :: [b] ++ x27 :: s) (Lit [b] false) r.
Proof.
  intros Hb Hq Hs Hsp Hi Hbar. apply N.ltb_lt in Hb. apply pr_literal; [|exact Hbar]. pose proof (quoted_ false x27 [Letter (bN b)] s r) as X.
  assert (Ht : chars_text [Letter (bN b)] = [b]) by (destruct b; try reflexivity; cbn in Hb; lia).
  assert (Hm : chars_mean [Letter (bN b)] = [b]) by (destruct b; try reflexivity; cbn in Hb; lia).
  rewrite Ht, Hm in X. apply X; [|intros _; exact Hi|exact Hsp].
  split; [now left|]. split; [|intros [E|[]]; apply Hq; injection E as E; destruct b; try discriminate E; reflexivity].
  split; [|destruct b; reflexivity]. constructor; [|constructor]. split; [left; lia|]. intros E. apply Hs. destruct b; try discriminate E; reflexivity.
Qed.
Lemma text4_means : grammar_text text4 defs4.
Proof.
  exists [], text4. split; [reflexivity|]. split; [sp0|].
  refine (ds_more (bs "S <- 'a' T*
") _ (bs "T <- 'b' / 'c'
%whitespace <- ' '*") _ _ (ds_more (bs "T <- 'b' / 'c'
") _ (bs "%whitespace <- ' '*") _ _ (ds_last _ _ _))).
  - refine (definition_ (bs "S ") false (bs "S") None (bs "<-") (bs " ") (bs "'a' T*
") [Seq None [_; _]] [] [] _ (head_of (bs "S") _ _) (or_introl eq_refl) _ (ex_last _ [_; _] _ _ _) (is_none _ _)); [nm|sp1| |discriminate|discriminate].
    refine (sq_item (bs "'a' ") _ (bs "T*
") _ _ (el [] _ (bs "'a' ") (Lit (bs "a") false) [] _ [] _ _ (mk_none _) (letter_lit x61 (bs " ") _ _ _ _ _ _ _) (lp_none _ _) (lb_none _ _)) (sq_item (bs "T*
") _ [] _ _ (el [] _ (bs "T") (Ref (bs "T") None 0 false []) (bs "*
") _ [] _ _ (mk_none _) _ (lp_zom (bs "
") _ _) (lb_none _ _)) (sq_end _ _))); try discriminate; try reflexivity; try sp1; try nlb; try nl.
    + refine (pr_ref false (bs "T") [] _ _ _ _ _ _); [nm|ends|discriminate|sp0|noarrow].
    + right. right. exists (bs "T "), false, (bs "T"), None. eexists. split; [apply (head_of (bs "T")); nm|reflexivity].
  - refine (definition_ (bs "T ") false (bs "T") None (bs "<-") (bs " ") (bs "'b' / 'c'
") [Lit _ false; Lit _ false] [] [] _ (head_of (bs "T") _ _) (or_introl eq_refl) _
      (ex_more (bs "'b' ") [_] (bs " ") (bs "'c'
") [_] _ _ _ (ex_last _ [_] _ _ _)) (is_none _ _)); [nm|sp1| |sp1| |discriminate|discriminate].
    + refine (sq_item (bs "'b' ") _ [] _ _ (el [] _ (bs "'b' ") (Lit (bs "b") false) [] _ [] _ _ (mk_none _) (letter_lit x62 (bs " ") _ _ _ _ _ _ _) (lp_none _ _) (lb_none _ _)) (sq_end _ _)); try discriminate; try reflexivity; try sp1; try nlb; try nl.
      right. left. exists x2f. split; [reflexivity|]. right. right. now left.
    + refine (sq_item (bs "'c'
") _ [] _ _ (el [] _ (bs "'c'
") (Lit (bs "c") false) [] _ [] _ _ (mk_none _) (letter_lit x63 (bs "
") _ _ _ _ _ _ _) (lp_none _ _) (lb_none _ _)) (sq_end _ _)); try discriminate; try reflexivity; try sp1; try nlb; try nl.
      right. right. exists (bs "%whitespace "), false, (bs "%whitespace"), None. eexists. split; [exact (head_of (bs "%whitespace") (bs " ' '*") white_name)|reflexivity].
  - refine (definition_ (bs "%whitespace ") false (bs "%whitespace") None (bs "<-") (bs " ") (bs "' '*") [Rep _ 0 None None] [] [] _ (head_of (bs "%whitespace") _ white_name) (or_introl eq_refl) _ (ex_last _ [_] _ _ _) (is_none _ _)); [sp1| |discriminate|discriminate].
    refine (sq_item (bs "' '*") _ [] _ _ (el [] _ (bs "' '") (Lit (bs " ") false) (bs "*") _ [] _ _ (mk_none _) (letter_lit x20 [] _ _ _ _ _ _ _) (lp_zom [] _ _) (lb_none _ _)) (sq_end _ _)); try discriminate; try reflexivity; try sp0; try nlb; try nl.
    left. reflexivity.
Qed.

Definition nul4 (r : rid) : bool := Nat.eqb r 3.
Definition src4 : grammar := rule_of recover_def :: map rule_of defs4.
Example C57_meets : exists L (Q : pobj bytes unit),
  grammar_text text4 defs4 /\ consistent defs4 /\ covered_text defs4
  /\ load_text 400 no_keys true (fun x => x) meta_g true [] text4 = Ok (Some (Accepted L), true)
  /\ p_g Q = ld_g L /\ p_ws Q = ld_ws L /\ p_start Q = ld_start L
  /\ (exists reps res, parser_parse 60 Q (bs " a bc b") Datatypes.tt = Ok (true, reps, res))
  /\ forall input dt, valid_utf8 input -> exists r, PegSpec.peg (text_peg defs4) (text_start (bs "S")) input r
       /\ exists F, forall f, F <= f -> exists reps res, parser_parse f Q input dt = Ok (accepts Q r, reps, res).
Proof.
  destruct (load_text 400 no_keys true (fun x => x) meta_g true [] text4) as [[[[|L]|] pk]| | |] eqn:El; try (exfalso; vm_compute in El; discriminate El).
  assert (Epk : pk = true) by (vm_compute in El; injection El as _ <-; reflexivity). subst pk.
  pose (Q := sample_at (ld_start L) (ld_g L) (ld_ws L)). exists L, Q.
  assert (HC : consistent defs4).
  { split; [|split].
    - repeat constructor; cbn; intuition discriminate.
    - reflexivity.
    - repeat constructor; cbn; intuition. }
  assert (Hcov : covered_text defs4).
  { intros x Hx _. repeat (destruct Hx as [<-|Hx]; [reflexivity|]). destruct Hx. }
  split; [exact text4_means|]. split; [exact HC|]. split; [exact Hcov|]. split; [reflexivity|].
  split; [reflexivity|]. split; [reflexivity|]. split; [reflexivity|]. split.
  { unfold Q. vm_compute in El. injection El as <-. eexists _, _. vm_compute. reflexivity. }
  intros input dt Hu.
  assert (H3 : forall d b, In d (link_all src4) -> r_is_macro d = false -> r_body d = Some b -> regular (link_all src4) b) by is_regular 5.
  assert (H4 : forall d, In d (ld_g L) -> r_lr d = false).
  { vm_compute in El. injection El as <-. intros d [<- | [<- | [<- | [<- | []]]]]; reflexivity. }
  assert (H4' : recursions_direct (strip_grammar (ld_g L)) (rule_named src4 ws_name)) by (apply no_recursion_direct; intros d Hd; apply in_map_iff in Hd as (d0 & <- & Hd0); exact (H4 d0 Hd0)).
  assert (H5 : core_parser (fun _ => m_top) [m_top] (unannotated Q)).
  { unfold Q. vm_compute in El. injection El as <-. constructor; try reflexivity; [split; [reflexivity|]; eexists; split; reflexivity|discriminate]. }
  assert (Hcert : certified (strip_grammar (ld_g L)) nul4 (fun _ _ => false) (fun _ _ => false) true true true = true).
  { vm_compute in El. injection El as <-. vm_compute. reflexivity. }
  assert (Hg : p_g (unannotated Q) = strip_grammar (ld_g L)) by reflexivity.
  destruct (consumes_checked (link_all src4) 5) as [C1 C2]; [vm_compute; reflexivity|vm_compute; reflexivity|].
  destruct (C57_grammar_text_language_partial bytes unit 400 no_keys true (fun x => x) meta_g true [] text4 defs4 L true Q input dt (fun _ => m_top) [m_top] true meta_g_ok (fun x => Permutation_refl x) text4_means HC El Hcov)
    as (r & A & _ & B & _); auto.
  - intros x Hx _. repeat (destruct Hx as [<-|Hx]; [reflexivity|]). destruct Hx.
  - intros x ls Hx Hi. repeat (destruct Hx as [<-|Hx]; [destruct Hi|]). destruct Hx.
  - intros r d b e mn sp _ Hd Hb Hi _. eapply C1; eauto. eapply nth_error_In; eauto.
  - intros r d b x w _ Hd Hb Hi Hw. eapply C2; eauto. eapply nth_error_In; eauto.
  - constructor; cbn; [|discriminate|discriminate]. intros r f inp vs u u' pd Hq. inv Hq. reflexivity.
  - rewrite Hg. exact (certified_no_empty_recursion _ _ _ _ _ _ _ Hcert).
  - rewrite Hg. assert (Ew : Top.is_some (p_ws (unannotated Q)) = true) by (unfold Q; vm_compute in El; injection El as <-; reflexivity). rewrite Ew. exact (certified_alternatives _ _ _ _ _ _ _ Hcert).
  - rewrite Hg. exact (certified_spans _ _ _ _ _ _ _ Hcert).
  - rewrite Hg. exact (certified_guards _ _ _ _ _ _ _ Hcert eq_refl).
  - discriminate.
  - exists r. auto.
Qed.

(** A left-recursive text: b, then any number of a. *)
Definition text5 : bytes := bs "S <- S 'a' / 'b'".
Definition defs5 : list def := [ df "S" (Cho false [] [Seq None [Ref (bs "S") None 0 false []; Lit (bs "a") false]; Lit (bs "b") false]) ].
Lemma text5_means : grammar_text text5 defs5.
Proof.
  exists [], text5. split; [reflexivity|]. split; [sp0|].
  refine (ds_last _ _ _).
  refine (definition_ (bs "S ") false (bs "S") None (bs "<-") (bs " ") (bs "S 'a' / 'b'") [Seq None [_; _]; Lit _ false] [] [] _ (head_of (bs "S") _ _) (or_introl eq_refl) _
      (ex_more (bs "S 'a' ") [_; _] (bs " ") (bs "'b'") [_] _ _ _ (ex_last _ [_] _ _ _)) (is_none _ _)); [nm|sp1| |sp1| |discriminate|discriminate].
  - refine (sq_item (bs "S ") _ (bs "'a' ") _ _ (el [] _ (bs "S ") (Ref (bs "S") None 0 false []) [] _ [] _ _ (mk_none _) _ (lp_none _ _) (lb_none _ _))
      (sq_item (bs "'a' ") _ [] _ _ (el [] _ (bs "'a' ") (Lit (bs "a") false) [] _ [] _ _ (mk_none _) (letter_lit x61 (bs " ") _ _ _ _ _ _ _) (lp_none _ _) (lb_none _ _)) (sq_end _ _))); try discriminate; try reflexivity; try sp1; try nlb; try nl.
    + refine (pr_ref false (bs "S") (bs " ") _ _ _ _ _ _); [nm|ends|discriminate|sp1|noarrow].
    + right. left. exists x2f. split; [reflexivity|]. right. right. now left.
  - refine (sq_item (bs "'b'") _ [] _ _ (el [] _ (bs "'b'") (Lit (bs "b") false) [] _ [] _ _ (mk_none _) (letter_lit x62 [] _ _ _ _ _ _ _) (lp_none _ _) (lb_none _ _)) (sq_end _ _)); try discriminate; try reflexivity; try sp0; try nlb; try nl.
    left. reflexivity.
Qed.

Definition src5 : grammar := rule_of recover_def :: map rule_of defs5.
Definition load5 : option verdict * bool := Eval vm_compute in match load_text 400 no_keys true (fun x => x) meta_g true [] text5 with Ok (v, k) => (v, k) | _ => (None, false) end.
Definition L5 : loaded := Eval vm_compute in match fst load5 with Some (Accepted l) => l | _ => {| ld_g := []; ld_start := 0; ld_ws := None; ld_word := None |} end.
Definition calls5 (r r' : rid) : bool := (r =? 1) && (r' =? 1).
Lemma load5_ok : load_text 400 no_keys true (fun x => x) meta_g true [] text5 = Ok (Some (Accepted L5), true).
Proof. vm_compute. reflexivity. Qed.
Definition sample5 : pobj bytes unit := sample_at (ld_start L5) (ld_g L5) (ld_ws L5).
Lemma direct5 : recursions_direct (strip_grammar (ld_g L5)) (rule_named src5 ws_name).
Proof.
  match goal with |- recursions_direct ?g ?w => let g' := eval vm_compute in g in let w' := eval vm_compute in w in replace g with g' by (vm_compute; reflexivity); replace w with w' by (vm_compute; reflexivity) end. constructor.
  - intros [|[|r]] d Hd Hm Hl; cbn in Hd; try (injection Hd as <-); try discriminate; try (destruct r; discriminate).
    do 5 eexists. split; [reflexivity|]. split; [reflexivity|]. split; [reflexivity|]. split; [discriminate|]. split; [discriminate|]. split.
    + intros t [<- |[]]; refine (nonempty_checked _ 5 _ _ _); vm_compute; reflexivity.
    + match goal with |- ~ left_reaches ?g _ _ => apply (not_left g 5 ltac:(vm_compute; reflexivity) []) end; vm_compute; reflexivity.
  - intros w d Hw Hd. discriminate Hw.
Qed.
Example C57_left_recursion_meets :
  grammar_text text5 defs5 /\ consistent defs5 /\ covered_text defs5
  /\ load_text 400 no_keys true (fun x => x) meta_g true [] text5 = Ok (Some (Accepted L5), true)
  /\ map r_lr (ld_g L5) = [false; true]
  /\ p_g sample5 = ld_g L5 /\ p_ws sample5 = ld_ws L5 /\ p_start sample5 = ld_start L5
  /\ (exists reps res, parser_parse 60 sample5 (bs "baa") Datatypes.tt = Ok (true, reps, res))
  /\ forall input dt, valid_utf8 input -> exists r, PegSpec.peg (text_peg defs5) (text_start (bs "S")) input r
       /\ exists F, forall f, F <= f -> exists reps res, parser_parse f sample5 input dt = Ok (accepts sample5 r, reps, res).
Proof.
  assert (HC : consistent defs5).
  { split; [|split].
    - repeat constructor; cbn; intuition discriminate.
    - reflexivity.
    - repeat constructor; cbn; intuition. }
  assert (Hcov : covered_text defs5).
  { intros x Hx _. repeat (destruct Hx as [<-|Hx]; [reflexivity|]). destruct Hx. }
  split; [exact text5_means|]. split; [exact HC|]. split; [exact Hcov|]. split; [exact load5_ok|]. split; [reflexivity|].
  split; [reflexivity|]. split; [reflexivity|]. split; [reflexivity|]. split.
  { eexists _, _. vm_compute. reflexivity. }
  intros input dt Hu.
  assert (H3 : forall d b, In d (link_all src5) -> r_is_macro d = false -> r_body d = Some b -> regular (link_all src5) b) by is_regular 5.
  assert (H5 : core_parser (fun _ => m_top) [m_top] (unannotated sample5)).
  { constructor; try reflexivity; [split; [reflexivity|]; eexists; split; reflexivity|discriminate]. }
  assert (Hcert : certified (strip_grammar (ld_g L5)) (fun _ => false) calls5 (fun _ _ => false) false true true = true) by (vm_compute; reflexivity).
  assert (Hg : p_g (unannotated sample5) = strip_grammar (ld_g L5)) by reflexivity.
  destruct (consumes_checked (link_all src5) 5) as [C1 C2]; [vm_compute; reflexivity|vm_compute; reflexivity|].
  destruct (C57_grammar_text_language_partial bytes unit 400 no_keys true (fun x => x) meta_g true [] text5 defs5 L5 true sample5 input dt (fun _ => m_top) [m_top] true meta_g_ok (fun x => Permutation_refl x) text5_means HC load5_ok Hcov)
    as (r & A & _ & B & _); auto.
  - intros x Hx _. repeat (destruct Hx as [<-|Hx]; [reflexivity|]). destruct Hx.
  - intros x ls Hx Hi. repeat (destruct Hx as [<-|Hx]; [destruct Hi|]). destruct Hx.
  - exact direct5.
  - intros r d b e mn sp _ Hd Hb Hi _. eapply C1; eauto. eapply nth_error_In; eauto.
  - intros r d b x w _ Hd Hb Hi Hw. eapply C2; eauto. eapply nth_error_In; eauto.
  - constructor; cbn; [|discriminate|discriminate]. intros r f inp vs u u' pd Hq. inv Hq. reflexivity.
  - rewrite Hg. exact (certified_no_empty_recursion _ _ _ _ _ _ _ Hcert).
  - rewrite Hg. exact (certified_alternatives _ _ _ _ _ _ _ Hcert).
  - rewrite Hg. exact (certified_spans _ _ _ _ _ _ _ Hcert).
  - rewrite Hg. exact (certified_guards _ _ _ _ _ _ _ Hcert eq_refl).
  - discriminate.
  - exists r. auto.
Qed.
