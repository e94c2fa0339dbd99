(** * The parser of an accepted text reads the language of its definitions (C57). *)
From Coq Require Import Permutation.
From Verif Require Import Base BaseLemmas Utf8 Utf8Spec Escape TrieM LineInfo Ope Ctx ErrLog Engine EngineLemmas Top Frame Scope Bounds Mono TopFacts
  RefSem RefMono Refine RefineOps RefineMain TopRef GrammarCond LrSpec LrRef DicDen PegDen PegRef PegEngine FirstSetM FirstSpec FirstSetup FirstTop
  PackratFilter PrecSpec PrecM LoadM LoadSpec LoadRefs LoadPeg LoadLoop LoadLR LrWf LoadMain LoadWf LoadTop MetaM MetaSource NotationSpec ReadSpec MetaText TextPeg.
From Verif Require PegSpec PegFacts.

(** ** Renaming nonterminals *)
Section Rename.
  Import PegSpec.
  Context {A B : Type}.
  Variable f : A -> B.
  Fixpoint pmap (e : pexp A) : pexp B :=
    match e with
    | PEps => PEps | PLit ic w => PLit ic w | PChr ok => PChr ok | PNT n => PNT (f n)
    | PSeq a b => PSeq (pmap a) (pmap b) | PAlt a b => PAlt (pmap a) (pmap b)
    | PStar a => PStar (pmap a) | PNot a => PNot (pmap a)
    end.
  Lemma pmap_seqs l : pmap (PSeqs l) = PSeqs (map pmap l).
  Proof. unfold PSeqs. induction l as [|x l IH]; cbn; [reflexivity|]. now rewrite IH. Qed.
  Lemma pmap_alts l : pmap (PAlts l) = PAlts (map pmap l).
  Proof. unfold PAlts. induction l as [|x l IH]; cbn; [reflexivity|]. now rewrite IH. Qed.
  Lemma pmap_repeat mn mx a : pmap (PRepeat mn mx a) = PRepeat mn mx (pmap a).
  Proof.
    assert (H1 : forall n, pmap (PTimes n a) = PTimes n (pmap a)) by (induction n as [|n IH]; cbn; [reflexivity|now rewrite IH]).
    assert (H2 : forall n, pmap (PUpTo n a) = PUpTo n (pmap a)) by (induction n as [|n IH]; cbn; [reflexivity|now rewrite IH]).
    unfold PRepeat. destruct mx as [x|]; [destruct (mn <? x)|]; cbn; now rewrite ?H1, ?H2.
  Qed.
  Variable G1 : A -> pexp A.
  Variable G2 : B -> pexp B.
  Variable R : A -> Prop.
  Fixpoint within (e : pexp A) : Prop :=
    match e with
    | PEps | PChr _ | PLit _ _ => True | PNT n => R n
    | PSeq a b | PAlt a b => within a /\ within b | PStar a | PNot a => within a
    end.
  Hypothesis HG : forall n, R n -> G2 (f n) = pmap (G1 n) /\ within (G1 n).
  Lemma rename_to e s r : within e -> peg G1 e s r -> peg G2 (pmap e) s r.
  Proof.
    intros Hw H. revert Hw. induction H; cbn [within pmap]; intros Hw; try (econstructor; eassumption); try (destruct Hw as [Hw1 Hw2]).
    - destruct (HG n Hw) as [E Hn]. constructor. rewrite E. auto.
    - econstructor; [apply IHpeg1|apply IHpeg2]; assumption.
    - apply peg_seq_no. auto.
    - apply peg_alt1. auto.
    - apply peg_alt2; auto.
    - apply peg_star_end. auto.
    - eapply peg_star; [apply IHpeg1, Hw|]. now apply IHpeg2.
    - eapply peg_not. apply IHpeg, Hw.
    - eapply peg_not_no. apply IHpeg, Hw.
  Qed.
  Lemma rename_from e s r : within e -> peg G2 (pmap e) s r -> peg G1 e s r.
  Proof.
    intros Hw H. remember (pmap e) as e' eqn:E. revert e Hw E. induction H; intros e0 Hw E; destruct e0; try discriminate E; cbn [pmap] in E; try (injection E; intros); subst; cbn [within] in Hw;
      try (econstructor; eassumption); try (destruct Hw as [Hw1 Hw2]).
    - destruct (HG _ Hw) as [E' Hn]. constructor. eauto.
    - econstructor; [apply IHpeg1|apply IHpeg2]; auto.
    - apply peg_seq_no. auto.
    - apply peg_alt1. auto.
    - apply peg_alt2; auto.
    - apply peg_star_end. auto.
    - eapply peg_star; [now apply IHpeg1|]. now apply IHpeg2.
    - eapply peg_not. now apply IHpeg.
    - eapply peg_not_no. now apply IHpeg.
  Qed.
  Lemma wf_within G e : well_formed_exp G R e -> within e.
  Proof. induction e; cbn; intuition. Qed.
End Rename.

(** ** The rules of the parser, one by one *)
Definition view (d : rule) := (r_name d, r_is_macro d, r_params d, r_body d, r_no_whitespace d).
Lemma view_pass n : forall i g, map view (fst (empty_pass n i g)) = map view g.
Proof.
  induction n as [|n IH]; intros i g; [reflexivity|]. cbn [empty_pass]. destruct (nth_error g i) as [d|] eqn:Hd; [|reflexivity]. cbv zeta.
  destruct (Bool.eqb _ _); [auto|]. cbn [fst]. rewrite IH. eapply set_nth_same; [exact Hd|reflexivity].
Qed.
Lemma view_fix fuel : forall g g', empty_fix fuel g = Some g' -> map view g' = map view g.
Proof.
  induction fuel as [|fuel IH]; intros g g' E; [discriminate|]. cbn [empty_fix] in E. pose proof (view_pass (List.length g) 0 g) as Hp.
  destruct (empty_pass (List.length g) 0 g) as [g1 ch]. cbn [fst] in Hp. destruct ch; [rewrite (IH _ _ E); exact Hp|]. injection E as <-. exact Hp.
Qed.
Lemma view_lrs : forall fl g, map view (set_lrs fl g) = map view g.
Proof. induction fl as [|b fl IH]; intros [|d g]; cbn [set_lrs map]; try reflexivity. rewrite IH. reflexivity. Qed.
Definition tok_body (sp : bool) (b : option ope) : option ope := match b with Some b => Some (if sp && is_literal_token b then Tok b else b) | None => None end.
Definition view_tok (sp : bool) (v : bytes * bool * list bytes * option ope * bool) :=
  let '(n, m, ps, b, w) := v in (n, m, ps, tok_body sp b, w).
Lemma view_tok_rule d : view (tok_rule d) = view_tok true (view d).
Proof. unfold tok_rule, view, view_tok, tok_body. destruct (r_body d) as [b|] eqn:E; [|rewrite E; reflexivity]. cbn [andb]. destruct (is_literal_token b) eqn:E'; cbn; rewrite ?E; reflexivity. Qed.
Lemma view_tok_off v : view_tok false v = v.
Proof. destruct v as [[[[n m] ps] b] w]. cbn. destruct b; reflexivity. Qed.
Definition no_white (r : rid) (l : list (rid * instr)) : bool :=
  existsb (fun p => (fst p =? r) && match snd p with INoWhitespace => true | _ => false end) l.
Definition view_white (w : bool) (v : bytes * bool * list bytes * option ope * bool) :=
  let '(n, m, ps, b, w0) := v in (n, m, ps, b, w0 || w).
Lemma nth_set_nth {A} (l : list A) i x j y : nth_error l i = Some y -> nth_error (set_nth l i x) j = if i =? j then Some x else nth_error l j.
Proof. revert i j. induction l as [|z l IH]; intros [|i] [|j] H; cbn in *; try discriminate; auto. Qed.
Lemma view_instruct l : no_precedence l -> forall g g', instruct_all l g = Some g' ->
  forall i, nth_error (map view g') i = option_map (view_white (no_white i l)) (nth_error (map view g) i).
Proof.
  induction l as [|[r k] l IH]; intros Hn g g' H i; cbn [instruct_all] in H.
  { injection H as <-. destruct (nth_error (map view g) i) as [[[[[n m] ps] b] w]|]; cbn; [|reflexivity]. now rewrite orb_false_r. }
  destruct (nth_error g r) as [d|] eqn:Hd; [|discriminate]. destruct (instruct r k d) as [d'|] eqn:Hi; [|discriminate].
  assert (Hv : view d' = view_white (match k with INoWhitespace => true | _ => false end) (view d)).
  { unfold view, view_white. destruct k; cbn in Hi; try (injection Hi as <-; cbn; rewrite ?orb_false_r, ?orb_true_r; reflexivity). exfalso. apply (Hn r ls). now left. }
  rewrite (IH (fun r0 ls0 H0 => Hn r0 ls0 (or_intror H0)) _ _ H i). rewrite !nth_error_map, (nth_set_nth _ _ _ _ _ Hd). cbn [no_white existsb fst snd].
  destruct (r =? i) eqn:E.
  - apply Nat.eqb_eq in E. subst i. rewrite Hd. cbn [option_map andb]. rewrite Hv. destruct (view d) as [[[[n m] ps] b] w]. cbn. now rewrite orb_assoc.
  - reflexivity.
Qed.

Section Final.
  Variables (fuel : nat) (keq : rid * list ope -> rid * list ope -> bool) (lrec : bool) (instrs : list (rid * instr)) (start : bytes) (src : grammar) (l : loaded).
  Hypothesis Hload : load fuel keq lrec instrs start src = Some (Accepted l).
  Hypothesis Hnp : no_precedence instrs.
  Lemma final_view i : nth_error (map view (strip_grammar (ld_g l))) i =
    option_map (fun v => let '(n, m, ps, b, w) := view_white (no_white i instrs) (view_tok (MetaM.is_some (rule_named src ws_name)) v) in (n, m, ps, option_map strip b, w))
      (nth_error (map view (link_all src)) i).
  Proof.
    pose proof Hload as H. unfold load in H. destruct (rule_named src start) as [s|] eqn:Hs; [|discriminate]. destruct (nth_error src s) as [sd|]; [|discriminate].
    destruct (negb (forallb _ src)) eqn:Hbod; [discriminate|]. destruct (r_ignore sd); [discriminate|].
    destruct (all_refs_ok src) eqn:Hall; cbn [negb] in H; [|discriminate].
    destruct (empty_fix fuel (link_all src)) as [g1|] eqn:Hg1; [|discriminate]. cbn [RefSem.obind] in H.
    destruct (lr_flags fuel g1 keq) as [fl|] eqn:Hfl; [|discriminate]. cbn [RefSem.obind] in H.
    destruct (negb lrec && existsb (fun b => b) fl) eqn:Hoff; [discriminate|]. cbv zeta in H.
    set (g2 := if lrec then set_lrs fl g1 else g1) in *.
    destruct (loop_detect fuel g2 s) as [[]|] eqn:Hl1; try discriminate. cbn [RefSem.obind] in H.
    set (g3 := match rule_named g2 ws_name return list rule with Some _ => map tok_rule g2 | None => g2 end) in *.
    match type of H with RefSem.obind ?x _ = _ => destruct x as [[]|] eqn:Hl2; try discriminate end. cbn [RefSem.obind] in H.
    match type of H with RefSem.obind ?x _ = _ => destruct x as [[]|] eqn:Hl3; try discriminate end. cbn [RefSem.obind] in H.
    destruct (instruct_all instrs g3) as [g4|] eqn:Hg4; [|discriminate].
    destruct (setup_first_sets fuel fuel (List.seq 0 (List.length g4)) g4) as [g5| | |] eqn:Hg5; try discriminate. injection H as <-. cbn [ld_g].
    assert (V2 : map view g2 = map view (link_all src)).
    { rewrite <- (view_fix _ _ _ Hg1). unfold g2. destruct lrec; [apply view_lrs|reflexivity]. }
    assert (Hrn : rule_named g2 ws_name = rule_named src ws_name).
    { unfold rule_named. f_equal. transitivity (map (fun v => let '(n, _, _, _, _) := v in n) (map view g2)); [rewrite map_map; reflexivity|]. rewrite V2. unfold link_all. rewrite !map_map. reflexivity. }
    assert (V3 : map view g3 = map (view_tok (MetaM.is_some (rule_named src ws_name))) (map view (link_all src))).
    { unfold g3. rewrite Hrn, <- V2. destruct (rule_named src ws_name); cbn [MetaM.is_some]; rewrite !map_map; [apply map_ext; exact view_tok_rule|].
      apply map_ext. intros d. symmetry. apply view_tok_off. }
    rewrite (setup_strip _ _ _ _ _ Hg5). unfold strip_grammar. rewrite map_map.
    transitivity (option_map (fun v => let '(n, m, ps, b, w) := v in (n, m, ps, option_map strip b, w)) (nth_error (map view g4) i)).
    { rewrite !nth_error_map. destruct (nth_error g4 i) as [d|]; [|reflexivity]. reflexivity. }
    rewrite (view_instruct _ Hnp _ _ Hg4 i), V3, nth_error_map. destruct (nth_error (map view (link_all src)) i); reflexivity.
  Qed.
End Final.

(** ** The definitions and the rules *)
Section Means.
  Variable ds : list def.
  Variable order : grammar -> grammar.
  Hypothesis Horder : forall x, Permutation x (order x).
  Notation base := (rule_of recover_def :: map rule_of ds).
  Notation src := (order base).
  Hypothesis Hnd : NoDup (bs "%recover" :: map df_name ds).
  Hypothesis Hsrc : source_grammar src.
  Hypothesis Hcov : covered_text ds.
  Notation g := (link_all src).

  Lemma def_named_in n x : def_named ds n = Some x -> In x ds /\ df_name x = n.
  Proof. intros H. apply find_some in H as [A B]. split; [exact A|]. now apply bytes_eqb_eq in B. Qed.
  Lemma def_named_of x : In x ds -> def_named ds (df_name x) = Some x.
  Proof.
    intros Hx. inversion Hnd as [|? ? _ Hnd']; subst. unfold def_named. clear -Hx Hnd'. induction ds as [|y l IH]; [destruct Hx|].
    cbn [find]. inversion Hnd' as [|? ? H1 H2]; subst. destruct (bytes_eqb (df_name y) (df_name x)) eqn:E.
    - destruct Hx as [->|Hx]; [reflexivity|]. apply bytes_eqb_eq in E. destruct H1. rewrite E. now apply in_map.
    - destruct Hx as [->|Hx]; [|auto]. rewrite (proj2 (bytes_eqb_eq _ _) eq_refl) in E. discriminate.
  Qed.
  Lemma src_in d : In d src -> d = rule_of recover_def \/ exists x, In x ds /\ d = rule_of x.
  Proof.
    intros H. eapply Permutation_in in H; [|apply Permutation_sym, Horder]. destruct H as [<-|H]; [now left|right].
    apply in_map_iff in H as (x & <- & Hx). eauto.
  Qed.
  Lemma in_src x : In x ds -> In (rule_of x) src.
  Proof. intros H. eapply Permutation_in; [apply Horder|]. right. now apply in_map. Qed.
  Lemma src_nth r d : nth_error src r = Some d -> rule_named src (r_name d) = Some r.
  Proof.
    intros H. destruct (rule_named src (r_name d)) as [r'|] eqn:E.
    - pose proof (rule_named_unique src _ r' d (sg_names _ Hsrc) E (nth_error_In _ _ H) eq_refl) as H'. f_equal.
      assert (A : nth_error (map r_name src) r = nth_error (map r_name src) r') by (rewrite !nth_error_map, H, H'; reflexivity).
      symmetry. apply (proj1 (NoDup_nth_error _) (sg_names _ Hsrc)); [|exact A]. apply nth_error_Some. rewrite nth_error_map, H. discriminate.
    - exfalso. apply (proj1 (rule_named_None _ _) E d); [eapply nth_error_In; eauto|reflexivity].
  Qed.
  Lemma named_def n x : def_named ds n = Some x -> exists r, rule_named src n = Some r /\ nth_error src r = Some (rule_of x).
  Proof.
    intros H. apply def_named_in in H as [H1 <-]. pose proof (in_src x H1) as Hi. apply In_nth_error in Hi as [r Hr]. exists r. split; [|exact Hr].
    exact (src_nth _ _ Hr).
  Qed.
  Lemma def_named_rule n x r : def_named ds n = Some x -> rule_named src n = Some r -> nth_error src r = Some (rule_of x).
  Proof. intros H Hr. destruct (named_def n x H) as (r' & A & B). congruence. Qed.
  Lemma undef_named n : def_named ds n = None -> n <> bs "%recover" -> rule_named src n = None.
  Proof.
    intros H Hn. apply rule_named_None. intros d Hd. apply src_in in Hd as [->|(x & Hx & ->)]; [intros E; now apply Hn|].
    cbn. intros E. pose proof (def_named_of x Hx) as H'. rewrite E in H'. congruence.
  Qed.

  Lemma forallb_map_in {A B} (f : A -> bool) (h : B -> bool) (k : A -> B) l : Forall (fun x => f x = true -> h (k x) = true) l -> forallb f l = true -> forallb h (map k l) = true.
  Proof. induction 1 as [|x l Hx _ IH]; cbn; [auto|]. rewrite !andb_true_iff. intuition. Qed.
  Lemma covered_ordinary o : from_text o = true -> covered ds o = true -> ordinary g (link src [] o) = true.
  Proof.
    assert (Hl : forall l, Forall (fun o => from_text o = true -> covered ds o = true -> ordinary g (link src [] o) = true) l ->
      forallb from_text l = true -> negb (match l with [] => true | _ => false end) && forallb (covered ds) l = true ->
      negb (match map (link src []) l with [] => true | _ => false end) && forallb (ordinary g) (map (link src []) l) = true).
    { intros l HF H1 H2. apply andb_prop in H2 as [H2 H3]. apply andb_true_iff. split; [destruct l; [discriminate|reflexivity]|].
      clear H2. induction HF as [|x l Hx _ IH]; [reflexivity|]. cbn [map forallb] in *. rewrite !andb_true_iff in *. intuition. }
    induction o using ope_ind'; cbn [from_text covered link ordinary]; intros Hf Hc; try discriminate; auto.
    - destruct kg; [discriminate|]. auto.
    - destruct fs; [|discriminate]. auto.
    - destruct sp; [discriminate|]. auto.
    - destruct rl; [discriminate|]. cbn [bindex].
      destruct m; [discriminate|]. destruct args as [|? ?]; [|discriminate]. cbn [map]. match type of Hc with match def_named ds ?n with _ => _ end = _ => rename n into nm end. destruct (def_named ds nm) as [x|] eqn:Ex; [|discriminate].
      destruct (df_params x) eqn:Ep; [discriminate|]. destruct (named_def nm x Ex) as (r & -> & Hr).
      cbn [ordinary]. unfold link_all. rewrite nth_error_map, Hr. cbn. now rewrite Ep.
  Qed.
  Lemma text_ordinary : ordinary_grammar g.
  Proof.
    intros d Hd Hm. unfold link_all in Hd. apply in_map_iff in Hd as (d0 & <- & Hd0). destruct (sg_bodies _ Hsrc _ Hd0) as (b & Hb & Hf).
    cbn in Hm |- *. rewrite Hb. cbn [option_map]. apply src_in in Hd0 as [->|(x & Hx & ->)]; [discriminate Hm|]. cbn in Hm, Hb |- *. injection Hb as <-.
    destruct (df_params x) eqn:Ep; [discriminate|]. apply covered_ordinary; auto.
  Qed.
End Means.

(** ** The grammar of the parser, renamed *)
Lemma self_alt_inv n o rest : self_alt n o = Some rest -> exists kg rl ia, o = Seq kg (Ref n rl ia false [] :: rest).
Proof.
  intros H. destruct o as [kg l| | | | | | | | | | | | | | | | | | | | | | |]; try discriminate. destruct l as [|h l]; [discriminate|].
  destruct h as [| | | | | | | | | | | | | | | | |n' rl ia mac args| | | | | |]; try discriminate. cbn in H. destruct mac; [discriminate|]. destruct args; [|discriminate].
  destruct (bytes_eqb n' n) eqn:E; [|discriminate]. apply bytes_eqb_eq in E as ->. injection H as ->. eauto.
Qed.
Section Text.
  Variable ds : list def.
  Variable order : grammar -> grammar.
  Hypothesis Horder : forall x, Permutation x (order x).
  Notation src := (order (rule_of recover_def :: map rule_of ds)).
  Hypothesis Hnd : NoDup (bs "%recover" :: map df_name ds).
  Hypothesis Hsrc : source_grammar src.
  Hypothesis Hcov : covered_text ds.
  Hypothesis Hpw : forall x, def_named ds white = Some x -> df_params x = None.
  Notation g := (link_all src).
  Definition text_instrs : list (rid * instr) :=
    flat_map (fun p => match rule_named src (fst p) with Some r => map (fun i => (r, i)) (snd p) | None => [] end) (instr_table ds).
  Variables (fuel : nat) (keq : rid * list ope -> rid * list ope -> bool) (lrec : bool) (start : bytes) (L : loaded).
  Hypothesis Hload : load fuel keq lrec text_instrs start src = Some (Accepted L).
  Hypothesis Hnp : forall x ls, In x ds -> ~ In (IPrecedence ls) (df_instrs x).
  Notation bg := (strip_grammar (ld_g L)).
  Notation wr := (rule_named src ws_name).
  Hypothesis Hreg : forall d b, In d g -> r_is_macro d = false -> r_body d = Some b -> regular g b.
  Hypothesis Hlr : recursions_direct bg wr.
  Notation ws := (ws_expr bg wr).

  Definition back (n : PegDen.nt) : tnt :=
    match n with
    | NRule r m => match nth_error src r with Some d => TRule (r_name d) m | None => TBad end
    | NSkip m => TSkip m
    | NDic t => TDic t
    | _ => TBad
    end.
  Lemma instrs_in r i : In (r, i) text_instrs <-> exists x, In x ds /\ rule_named src (df_name x) = Some r /\ In i (df_instrs x).
  Proof.
    unfold text_instrs, instr_table. rewrite in_flat_map. split.
    - intros ((n & is) & A & B). apply in_flat_map in A as (x & Hx & A). destruct (df_instrs x) as [|i0 is0] eqn:E; [destruct A|]. destruct A as [A|[]]. injection A as <- <-.
      cbn [fst snd] in B. destruct (rule_named src (df_name x)) as [r'|] eqn:Er; [|destruct B]. apply in_map_iff in B as (i' & B & Hi). injection B as <- <-.
      exists x. rewrite E. auto.
    - intros (x & Hx & Hr & Hi). exists (df_name x, df_instrs x). split.
      + apply in_flat_map. exists x. split; [exact Hx|]. destruct (df_instrs x); [destruct Hi|]. now left.
      + cbn [fst snd]. rewrite Hr. now apply in_map.
  Qed.
  Lemma text_np : no_precedence text_instrs.
  Proof. intros r ls H. apply instrs_in in H as (x & Hx & _ & Hi). exact (Hnp x ls Hx Hi). Qed.
  Lemma no_white_def r x : nth_error src r = Some (rule_of x) -> In x ds -> no_white r text_instrs = unspacedb x.
  Proof.
    intros Hr Hx. apply eq_iff_eq_true. unfold no_white, unspacedb. rewrite !existsb_exists. split.
    - intros ((r' & i) & A & B). cbn [fst snd] in B. apply andb_prop in B as [B1 B2]. apply Nat.eqb_eq in B1 as ->. apply instrs_in in A as (x' & Hx' & Hn & Hi).
      exists i. split; [|exact B2]. enough (x' = x) by congruence. pose proof (def_named_of ds Hnd x' Hx') as E'.
      pose proof (def_named_rule ds order Horder Hsrc _ _ _ E' Hn) as E. rewrite Hr in E. injection E as E _ _ _ _. rewrite <- E in E'.
      pose proof (def_named_of ds Hnd x Hx). congruence.
    - intros (i & Hi & Hk). exists (r, i). split; [|cbn [fst snd]; now rewrite Nat.eqb_refl].
      apply instrs_in. exists x. split; [exact Hx|]. split; [|exact Hi]. change (df_name x) with (r_name (rule_of x)). exact (src_nth ds order Hsrc _ _ Hr).
  Qed.
  Lemma wr_spaced : MetaM.is_some wr = spaced ds.
  Proof.
    unfold spaced. change white with ws_name. destruct (def_named ds ws_name) as [x|] eqn:E.
    - destruct (named_def ds order Horder Hsrc _ _ E) as (r & -> & _). reflexivity.
    - rewrite (undef_named ds order Horder Hnd _ E) by discriminate. reflexivity.
  Qed.
  (** A rule that is not a macro. *)
  Lemma bg_rule r d : nth_error bg r = Some d -> r_is_macro d = false ->
    exists x, In x ds /\ nth_error src r = Some (rule_of x) /\ df_params x = None /\ from_text (df_body x) = true /\ covered ds (df_body x) = true
      /\ r_body d = Some (if spaced ds && is_literal_token (link src [] (df_body x)) then Tok (link src [] (df_body x)) else link src [] (df_body x))
      /\ r_params d = [] /\ r_no_whitespace d = unspacedb x.
  Proof.
    intros Hd Hm. pose proof (final_view _ _ _ _ _ _ _ Hload text_np r) as Hv. rewrite !nth_error_map, Hd in Hv. cbn [option_map] in Hv.
    unfold link_all in Hv. rewrite nth_error_map in Hv. destruct (nth_error src r) as [d0|] eqn:Hd0; [|discriminate]. cbn [option_map] in Hv.
    pose proof (src_in ds order Horder _ (nth_error_In _ _ Hd0)) as Hor. unfold view in Hv. cbn [view_tok view_white link_rule with_body r_name r_is_macro r_params r_body r_no_whitespace] in Hv.
    rewrite wr_spaced in Hv. injection Hv as Hn Hmm Hp Hb Hw.
    destruct Hor as [->|(x & Hx & ->)]; [rewrite Hmm in Hm; discriminate Hm|]. exists x. cbn [rule_of r_is_macro r_params r_body r_no_whitespace] in *.
    rewrite Hm in Hmm. destruct (df_params x) eqn:Ep; [discriminate|]. split; [exact Hx|]. split; [reflexivity|]. split; [reflexivity|].
    destruct (sg_bodies _ Hsrc _ (nth_error_In _ _ Hd0)) as (b & Hbd & Hf). cbn in Hbd. injection Hbd as <-. split; [exact Hf|]. split; [now apply Hcov|].
    split.
    - rewrite Hb. cbn [option_map tok_body]. f_equal.
      pose proof (bare_strip _ (link_bare src [] (df_body x) Hf)) as Hs. destruct (_ && _); [|exact Hs]. cbn [strip]. now rewrite Hs.
    - split; [exact Hp|]. rewrite Hw; cbn [orb]; now apply no_white_def.
  Qed.
  Lemma bg_named r : nth_error bg r = None <-> nth_error src r = None.
  Proof.
    pose proof (final_view _ _ _ _ _ _ _ Hload text_np r) as Hv. rewrite !nth_error_map in Hv. unfold link_all in Hv. rewrite nth_error_map in Hv.
    destruct (nth_error bg r), (nth_error src r); cbn in Hv; split; intros; congruence.
  Qed.
  Lemma bg_macro r d d0 : nth_error bg r = Some d -> nth_error src r = Some d0 -> r_is_macro d = r_is_macro d0.
  Proof.
    intros H H0. pose proof (final_view _ _ _ _ _ _ _ Hload text_np r) as Hv. rewrite !nth_error_map in Hv. unfold link_all in Hv. rewrite nth_error_map, H, H0 in Hv.
    cbn [option_map] in Hv. unfold view in Hv. cbn [view_tok view_white link_rule with_body r_name r_is_macro r_params r_body r_no_whitespace] in Hv. now injection Hv.
  Qed.
  Lemma ws_there : (match ws with Some _ => true | None => false end) = spaced ds.
  Proof.
    rewrite <- wr_spaced. unfold ws_expr. destruct wr as [r|] eqn:E; [|reflexivity]. cbn [MetaM.is_some].
    apply rule_named_Some in E as (d0 & H0 & Hn0). destruct (nth_error bg r) as [d|] eqn:Hd; [|exfalso; apply bg_named in Hd; congruence].
    destruct (src_in ds order Horder _ (nth_error_In _ _ H0)) as [->|(x & Hx & ->)]; [discriminate Hn0|]. cbn in Hn0.
    assert (Hm : r_is_macro d = false).
    { rewrite (bg_macro _ _ _ Hd H0). cbn. rewrite (Hpw x); [reflexivity|]. pose proof (def_named_of ds Hnd x Hx) as E. rewrite Hn0 in E. exact E. }
    destruct (bg_rule r d Hd Hm) as (x' & _ & _ & _ & _ & _ & -> & _). reflexivity.
  Qed.
  Lemma inside_token_is m : inside_token ws m = token ds m.
  Proof. unfold inside_token, token. rewrite <- ws_there. destruct ws; reflexivity. Qed.

  Lemma map_same {A B C} (f : A -> C) (h : B -> C) (k : A -> B) l : Forall (fun x => f x = h (k x)) l -> map f l = map h (map k l).
  Proof. induction 1 as [|x xs Hx _ IH]; cbn; [reflexivity|]. now rewrite Hx, IH. Qed.
  Lemma den_means o : from_text o = true -> covered ds o = true -> forall fr m, pmap back (den bg ws fr m (link src [] o)) = means ds m o.
  Proof.
    assert (HL : forall l0, Forall (fun o => from_text o = true -> covered ds o = true -> forall fr m, pmap back (den bg ws fr m (link src [] o)) = means ds m o) l0 ->
      forallb from_text l0 = true -> forallb (covered ds) l0 = true -> forall fr m, map (pmap back) (map (den bg ws fr m) (map (link src []) l0)) = map (means ds m) l0).
    { intros l0 HF H1 H2 fr m. induction HF as [|x xs Hx _ IH]; [reflexivity|]. cbn [map forallb] in *. rewrite !andb_true_iff in *. rewrite Hx, IH by tauto. reflexivity. }
    induction o using ope_ind'; cbn [from_text covered link den means pmap]; intros Hf Hc fr mo; try discriminate; auto.
    - destruct kg; [discriminate|]. apply andb_prop in Hc as [_ Hc]. rewrite pmap_seqs. f_equal. auto.
    - destruct fs; [|discriminate]. apply andb_prop in Hc as [_ Hc]. rewrite pmap_alts. f_equal. auto.
    - destruct sp; [discriminate|]. rewrite pmap_repeat. f_equal. auto.
    - unfold PegSpec.PAnd. cbn [pmap]. rewrite IHo by auto. reflexivity.
    - rewrite IHo by auto. reflexivity.
    - destruct ic; [discriminate|]. reflexivity.
    - unfold skips, then_skip. cbn [pmap]. rewrite inside_token_is, IHo by auto. reflexivity.
    - destruct rl; [discriminate|]. cbn [bindex].
      destruct m; [discriminate|]. destruct args as [|? ?]; [|discriminate]. cbn [map]. match type of Hc with match def_named ds ?n with _ => _ end = _ => rename n into nm end.
      destruct (def_named ds nm) as [x|] eqn:Ex; [|discriminate].
      destruct (df_params x) eqn:Ep; [discriminate|]. destruct (named_def ds order Horder Hsrc nm x Ex) as (r & -> & Hr). cbn [den].
      destruct (nth_error bg r) as [d|] eqn:Hd; [|exfalso; apply bg_named in Hd; congruence].
      rewrite (bg_macro _ _ _ Hd Hr). cbn [rule_of r_is_macro]. rewrite Ep. cbn [pmap back]. rewrite Hr. cbn [rule_of r_name]. f_equal. f_equal.
      exact (proj2 (def_named_in _ _ _ Ex)).
  Qed.
  Lemma lit_link o : is_literal_token (link src [] o) = literals_only o.
  Proof.
    induction o using ope_ind'; try reflexivity.
    - cbn [link is_literal_token literals_only]. induction H as [|x xs Hx _ IH]; cbn; [reflexivity|]. now rewrite Hx, IH.
  Qed.
  (** ** Left recursion *)
  Lemma text_ord0 : ordinary_grammar g.
  Proof. now apply text_ordinary. Qed.
  Lemma self_first x r rest : In x ds -> nth_error src r = Some (rule_of x) -> df_params x = None -> from_text (df_body x) = true ->
    (exists fl fs o l, df_body x = Cho fl fs (o :: l) /\ self_alt (df_name x) o = Some rest) -> exists d, nth_error bg r = Some d /\ r_lr d = true.
  Proof.
    intros Hx Hr Hp Hf (fl & fs & o & l & Hb & Ho).
    assert (Hpr : LoadPeg.plain_rule g r).
    { intros d Hd. unfold link_all in Hd. rewrite nth_error_map, Hr in Hd. injection Hd as <-. cbn. now rewrite Hp. }
    enough (Hl : left_reaches g r r).
    { destruct (recursion_flagged fuel keq lrec text_instrs start src L Hsrc Hload text_ord0 Hreg r Hpr Hl) as (_ & d & Hd & Hfl).
      unfold strip_grammar. rewrite nth_error_map, Hd. exists (strip_rule d). split; [reflexivity|]. exact Hfl. }
    apply (lr_one g r r (link_rule src (rule_of x)) (link src [] (df_body x))).
    - unfold link_all. now rewrite nth_error_map, Hr.
    - unfold link_rule. cbn. now rewrite Hp.
    - apply self_alt_inv in Ho as (kg & rl & ia & ->). rewrite Hb in Hf |- *. cbn [link map bindex]. eapply cf_cho; [left; reflexivity|].
      assert (Hrn : rule_named src (df_name x) = Some r) by (apply (src_nth ds order Hsrc r (rule_of x) Hr)). rewrite Hrn. apply (cf_seq g kg []); constructor.
  Qed.
  Lemma split_link n r : rule_named src n = Some r -> (forall n', rule_named src n' = Some r -> n' = n) -> forall l, forallb from_text l = true -> forallb (covered ds) l = true ->
    split_lr r (map (link src []) l) = (map (map (link src [])) (fst (split_self n l)), map (link src []) (snd (split_self n l))).
  Proof.
    intros Hn Hu l. induction l as [|o l IH]; intros Hf Hc; [reflexivity|]. cbn [map split_lr split_self forallb] in *. apply andb_prop in Hf as [Hf Hf']. apply andb_prop in Hc as [Hc Hc'].
    assert (E : lr_alt r (link src [] o) = option_map (map (link src [])) (self_alt n o)).
    { destruct o as [kg l0| | | | | | | | | | | | | | | | | | | | | | |]; try reflexivity.
      destruct l0 as [|h rest]; [reflexivity|]. destruct h; try reflexivity. cbn [covered forallb] in Hc.
      match type of Hc with _ && ((match ?m with true => _ | false => _ end) && _) = _ => destruct m; [discriminate Hc|] end.
      match type of Hc with _ && ((match ?m with [] => _ | _ => _ end) && _) = _ => destruct m; [|discriminate Hc] end.
      cbn [link map bindex lr_alt self_alt].
      match type of Hc with context [def_named ds ?q] => destruct (def_named ds q) as [x'|] eqn:Ex; [|discriminate Hc]; destruct (named_def ds order Horder Hsrc q x' Ex) as (r' & Hr' & _); rewrite Hr'; destruct (bytes_eqb q n) eqn:En end.
      - apply bytes_eqb_eq in En as ->. rewrite Hn in Hr'. injection Hr' as ->. now rewrite Nat.eqb_refl.
      - destruct (Nat.eqb_spec r' r) as [->|_]; [|reflexivity]. apply Hu in Hr'. apply bytes_eqb_eq in Hr'. congruence. }
    rewrite E. destruct (self_alt n o) as [rest|]; cbn [option_map]; [|reflexivity]. rewrite (IH Hf' Hc'). destruct (split_self n l) as [a c]. reflexivity.
  Qed.
  Lemma split_self_all (p : ope -> bool) n : (forall kg h rest, p (Seq kg (h :: rest)) = true -> forallb p rest = true) ->
    forall l, forallb p l = true -> forallb (forallb p) (fst (split_self n l)) = true /\ forallb p (snd (split_self n l)) = true.
  Proof.
    intros Hp l. induction l as [|o l IH]; intros H; [auto|]. cbn [split_self forallb] in *. apply andb_prop in H as [H H']. destruct (self_alt n o) as [rest|] eqn:Ho; [|cbn; now rewrite H, H'].
    apply self_alt_inv in Ho as (kg & rl & ia & ->). apply Hp in H. specialize (IH H'). destruct (split_self n l) as [a c]. cbn [fst snd forallb] in *. rewrite H. cbn. exact IH.
  Qed.
  Lemma unflagged_reading x r d : In x ds -> nth_error src r = Some (rule_of x) -> df_params x = None -> from_text (df_body x) = true ->
    nth_error bg r = Some d -> r_lr d = false -> reading (df_name x) (df_body x) = df_body x.
  Proof.
    intros Hx Hr Hp Hf Hd Hl. unfold reading. destruct (df_body x) as [|fl fs l| | | | | | | | | | | | | | | | | | | | | |] eqn:Hb; try reflexivity.
    destruct (split_self (df_name x) l) as [[|rest a] c] eqn:Es; [reflexivity|]. exfalso. destruct l as [|o l]; [discriminate|]. cbn [split_self] in Es.
    destruct (self_alt (df_name x) o) as [rest'|] eqn:Ho; [|discriminate].
    destruct (self_first x r rest' Hx Hr Hp) as (d' & Hd' & Hfl); [now rewrite Hb|exists fl, fs, o, l; auto|congruence].
  Qed.
  Lemma flagged_reading x r d : In x ds -> nth_error src r = Some (rule_of x) -> from_text (df_body x) = true -> covered ds (df_body x) = true ->
    r_body d = Some (if spaced ds && is_literal_token (link src [] (df_body x)) then Tok (link src [] (df_body x)) else link src [] (df_body x)) ->
    recursion_direct bg r d -> r_is_macro d = false -> r_lr d = true ->
    spaced ds && literals_only (df_body x) = false /\ r_no_whitespace d = false
    /\ r_body (iterate_rule r d) = Some (link src [] (reading (df_name x) (df_body x))) /\ from_text (reading (df_name x) (df_body x)) = true /\ covered ds (reading (df_name x) (df_body x)) = true.
  Proof.
    intros Hx Hr Hf Hc Hb (fl & fs & l & a & c & Hb' & Hnw & Es & Ha & Hcc & Ht & _) Hm Hl. rewrite <- lit_link. rewrite Hb in Hb'.
    destruct (spaced ds && is_literal_token (link src [] (df_body x))); [discriminate|]. split; [reflexivity|]. split; [exact Hnw|].
    injection Hb' as Hb'. unfold iterate_rule. rewrite Hl. cbn [set_body r_body]. rewrite Hb, Hb', Hm, Hnw, Es. cbn [orb].
    destruct (df_body x) as [|fl0 fs0 l0| | | | | | | | | | | | | | | | | | | | | |] eqn:Hd; try discriminate.
    cbn [from_text covered link] in Hf, Hc, Hb'. injection Hb' as _ _ <-. destruct fs0; [|discriminate]. apply andb_prop in Hc as [_ Hc].
    assert (Hn : rule_named src (df_name x) = Some r) by (apply (src_nth ds order Hsrc r (rule_of x) Hr)).
    rewrite (split_link (df_name x) r Hn) in Es; [|intros n' Hn'; apply rule_named_Some in Hn' as (d' & Hd' & <-); rewrite Hr in Hd'; injection Hd' as <-; reflexivity|exact Hf|exact Hc].
    destruct (split_self_all from_text (df_name x)) with (l := l0) as [F1 F2]; [|exact Hf|].
    { intros [k|] h rest H; [discriminate|]. cbn [from_text forallb] in H. now apply andb_prop in H. }
    destruct (split_self_all (covered ds) (df_name x)) with (l := l0) as [C1 C2]; [|exact Hc|].
    { intros k h rest H. cbn [covered forallb] in H. apply andb_prop in H as [_ H]. now apply andb_prop in H. }
    unfold reading. destruct (split_self (df_name x) l0) as [a0 c0]. cbn [fst snd] in *. injection Es as <- <-.
    destruct a0 as [|t0 a0]; [now destruct Ha|]. split; [|split].
    - unfold iteration. cbn [link map]. rewrite !map_map. reflexivity.
    - unfold iteration. cbn [from_text forallb]. rewrite F2, !andb_true_r. cbn [andb]. clear -F1. rewrite forallb_forall in *. intros o Ho. apply in_map_iff in Ho as (t & <- & Hi). exact (F1 t Hi).
    - unfold iteration. cbn [covered forallb negb]. rewrite C2, !andb_true_r. destruct c0; [now destruct Hcc|]. cbn [andb negb map]. rewrite forallb_forall in *.
      intros oo Ho. change (In oo (map (Seq None) (t0 :: a0))) in Ho. apply in_map_iff in Ho as (t & <- & Hi). cbn [covered]. rewrite (C1 t Hi), andb_true_r.
      destruct t; [|reflexivity]. exfalso. apply (Ht []); [|constructor; constructor]. apply (in_map (map (link src []))) in Hi. exact Hi.
  Qed.
  Lemma den_iter o : forall fr m, den (iterate bg) ws fr m o = den bg ws fr m o.
  Proof.
    induction o using ope_ind'; cbn [den]; intros fr mo; try reflexivity; try (now rewrite ?IHo, ?IHo1, ?IHo2).
    - rewrite Forall_forall in H. f_equal. apply map_ext_in. intros y Hy. now apply H.
    - rewrite Forall_forall in H. f_equal. apply map_ext_in. intros y Hy. now apply H.
    - destruct rl as [r|]; [|reflexivity]. rewrite iterate_nth. destruct (nth_error bg r) as [d|]; [|reflexivity]. cbn [option_map]. now rewrite (proj1 (iterate_kind r d)).
  Qed.
  Lemma den_body x : from_text (df_body x) = true -> covered ds (df_body x) = true -> reading (df_name x) (df_body x) = df_body x -> forall fr m,
    pmap back (den bg ws fr m (if spaced ds && is_literal_token (link src [] (df_body x)) then Tok (link src [] (df_body x)) else link src [] (df_body x))) = body_means ds m x.
  Proof.
    intros Hf Hc Hrd fr m. unfold body_means. rewrite Hrd, lit_link. destruct (_ && _); [|now apply den_means].
    cbn [den]. unfold skips, then_skip. cbn [pmap back]. rewrite inside_token_is. f_equal. now apply den_means.
  Qed.
  Lemma pmap_dic t : pmap back (dic_exp t) = dic_exp t.
  Proof. unfold dic_exp. rewrite pmap_alts, map_map. reflexivity. Qed.

  Lemma back_rule r m d : nth_error bg r = Some d -> r_is_macro d = false -> text_peg ds (back (NRule r m)) = pmap back (peg_of (iterate bg) ws (NRule r m)).
  Proof.
    intros Hd Hm. destruct (bg_rule r d Hd Hm) as (x0 & Hx & Hr & Hp & Hf & Hc & Hb & Hps & Hw).
    cbn [back]. rewrite Hr. cbn [rule_of r_name text_peg peg_of]. rewrite (def_named_of ds Hnd _ Hx), iterate_nth, Hd. cbn [option_map].
    destruct (iterate_kind r d) as (K1 & _ & K2). rewrite K1, K2, Hm. cbn [orb]. destruct (r_lr d) eqn:Hl.
    - destruct (flagged_reading x0 r d Hx Hr Hf Hc Hb (rd_rules _ _ Hlr r d Hd Hm Hl) Hm Hl) as (A & B & -> & C & D). rewrite <- Hw, B.
      assert (E : r_no_whitespace (iterate_rule r d) = false) by (unfold iterate_rule; now rewrite Hl). rewrite E, den_iter. unfold body_means. rewrite A. symmetry. now apply den_means.
    - assert (E : iterate_rule r d = d) by (unfold iterate_rule; now rewrite Hl). pose proof (unflagged_reading x0 r d Hx Hr Hp Hf Hd Hl) as Hrd. rewrite E, Hb, Hps, Hw, !den_iter.
      destruct (unspacedb x0); [|symmetry; now apply den_body]. unfold skips, then_skip. cbn [pmap back]. rewrite inside_token_is. f_equal. symmetry. now apply den_body.
  Qed.
  Lemma ws_none : wr = None -> ws = None.
  Proof. unfold ws_expr. now intros ->. Qed.
  Lemma back_skip m : text_peg ds (back (NSkip m)) = pmap back (peg_of (iterate bg) ws (NSkip m)).
  Proof.
    cbn [back text_peg]. change white with ws_name. destruct (def_named ds ws_name) as [x|] eqn:Ex.
    - destruct (named_def ds order Horder Hsrc _ _ Ex) as (r & Hwr & Hr). destruct (nth_error bg r) as [d|] eqn:Hd; [|exfalso; apply bg_named in Hd; congruence].
      assert (Hm : r_is_macro d = false). { rewrite (bg_macro _ _ _ Hd Hr). cbn. now rewrite (Hpw x Ex). }
      destruct (bg_rule r d Hd Hm) as (x0 & Hx & Hr0 & Hp & Hf & Hc & Hb & Hps & Hw).
      assert (x0 = x).
      { rewrite Hr in Hr0. injection Hr0 as E _ _ _ _. pose proof (def_named_of ds Hnd _ Hx) as E0. rewrite <- E in E0. rewrite (proj2 (def_named_in _ _ _ Ex)) in E0.
        rewrite Ex in E0. now injection E0. }
      subst x0. pose proof (den_body x Hf Hc (unflagged_reading x r d Hx Hr Hp Hf Hd (rd_ws _ _ Hlr r d Hwr Hd)) ([], []) {| m_tok := false; m_ws := true |}) as HB.
      assert (Hws : ws = Some (Wsp (Ign (if spaced ds && is_literal_token (link src [] (df_body x)) then Tok (link src [] (df_body x)) else link src [] (df_body x))))).
      { unfold ws_expr. rewrite Hwr, Hd, Hb. reflexivity. }
      rewrite Hws in HB |- *. cbn [peg_of]. destruct m as [mt mw]. cbn [m_tok m_ws] in *. destruct mt; [reflexivity|]. cbn [orb]. cbn [den m_ws m_tok]. destruct mw; [reflexivity|].
      rewrite <- Hws, den_iter, Hws. symmetry. exact HB.
    - rewrite ws_none; [reflexivity|exact (undef_named ds order Horder Hnd _ Ex ltac:(discriminate))].
  Qed.
  Definition Rok (run : rid -> Prop) (n : PegDen.nt) : Prop := match n with NRule r _ => run r | NSkip _ => True | NDic _ => True | _ => False end.
End Text.

(** ** The parser of an accepted text *)
Definition unannotated {V U} (Q : pobj V U) : pobj V U := with_grammar Q (strip_grammar (p_g Q)) (option_map strip (p_ws Q)).
Lemma strip_ws g wr : option_map strip (ws_expr g wr) = ws_expr (strip_grammar g) wr.
Proof.
  unfold ws_expr. destruct wr as [r|]; [|reflexivity]. unfold strip_grammar. rewrite nth_error_map. destruct (nth_error g r) as [d|]; [|reflexivity].
  cbn. destruct (r_body d); reflexivity.
Qed.
Lemma parser_parse_below {V U} f f' (P : pobj V U) input dt x : f <= f' -> parser_parse f P input dt = Ok x -> parser_parse f' P input dt = Ok x.
Proof.
  intros Hf H. unfold parser_parse in *. destruct (def_parse_below f f' P input dt Hf) as [Hb|Hb]; [rewrite Hb in H; discriminate H|]. now rewrite <- Hb.
Qed.

Section Language.
  Context {V U : Type}.
  Variable ds : list def.
  Variable order : grammar -> grammar.
  Hypothesis Horder : forall x, Permutation x (order x).
  Notation src := (order (rule_of recover_def :: map rule_of ds)).
  Hypothesis Hnd : NoDup (bs "%recover" :: map df_name ds).
  Hypothesis Hsrc : source_grammar src.
  Hypothesis Hcov : covered_text ds.
  Variables (fuel : nat) (keq : rid * list ope -> rid * list ope -> bool) (lrec : bool) (start : bytes) (L : loaded).
  Hypothesis Hpw : forall x, In x ds -> df_name x = white \/ df_name x = start -> df_params x = None.
  Hypothesis Hnp : forall x ls, In x ds -> ~ In (IPrecedence ls) (df_instrs x).
  Hypothesis Hload : load fuel keq lrec (text_instrs ds order) start src = Some (Accepted L).
  Notation g := (link_all src).
  Notation wr := (rule_named src ws_name).
  Hypothesis Hreg : forall d b, In d g -> r_is_macro d = false -> r_body d = Some b -> regular g b.
  Hypothesis Hlr : recursions_direct (strip_grammar (ld_g L)) wr.
  Hypothesis Hinner : forall r d b e mn sp, run g (ld_start L) wr r -> nth_error g r = Some d -> r_body d = Some b ->
     inside [] b (Rep e mn None sp) -> looped g (ld_start L) wr r b (Rep e mn None sp) -> ~ may_be_empty g e.
  Hypothesis Hlit : forall r d b x w, run g (ld_start L) wr r -> nth_error g r = Some d -> r_body d = Some b -> inside [] b x -> word_of x w -> valid_utf8 w.
  Variables (Q : pobj V U) (input : bytes) (dt : U) (md : rid -> mode) (mm : list mode) (odd : bool).
  Notation P := (unannotated Q).
  Hypothesis HQ : p_g Q = ld_g L.
  Hypothesis HQw : p_ws Q = ld_ws L.
  Hypothesis HQs : p_start Q = ld_start L.
  Hypothesis Hc : core_parser md mm P.
  Hypothesis Hwn : p_word Q = None.
  Hypothesis Hp : forall q, p_pred Q q = None.
  Hypothesis Hu : valid_utf8 input.
  Hypotheses (Hne : no_empty_recursion (p_g P)) (Hra : regular_alternatives (p_g P) (Top.is_some (p_ws P)) odd) (Hrs : regular_spans (p_g P) odd) (Hk : no_keyword_guard (p_g P)).
  Hypotheses (Hpl : plain_text input) (Ha : odd = false -> ascii_text input) (Hpure : pure (mk_env P input)).
  Notation bg := (strip_grammar (ld_g L)).

  Lemma white_plain x : def_named ds white = Some x -> df_params x = None.
  Proof. intros H. apply def_named_in in H as [H1 H2]. auto. Qed.
  Lemma text_ord : ordinary_grammar g.
  Proof. now apply text_ordinary. Qed.
  Lemma Hstart : start <> bs "%recover".
  Proof.
    intros ->. pose proof Hload as H. unfold load in H. destruct (rule_named src (bs "%recover")) as [r|] eqn:Hr; [|discriminate].
    pose proof (rule_named_Some _ _ _ Hr) as (d & Hd & Hn). rewrite Hd in H. destruct (src_in ds order Horder _ (nth_error_In _ _ Hd)) as [->|(x & Hx & ->)].
    - cbn [rule_of recover_def df_ignored r_ignore] in H. destruct (negb _); discriminate.
    - destruct (proj1 (NoDup_cons_iff _ _) Hnd) as [H1 _]. apply H1. change (df_name x = bs "%recover") in Hn. rewrite <- Hn. now apply in_map.
  Qed.
  Lemma named_plain n r : rule_named src n = Some r -> n = white \/ n = start -> LoadPeg.plain_rule g r.
  Proof.
    intros Hr Hn d Hd. unfold link_all in Hd. rewrite nth_error_map in Hd. apply rule_named_Some in Hr as (d0 & H0 & Hn0). rewrite H0 in Hd. injection Hd as <-.
    cbn. destruct (src_in ds order Horder _ (nth_error_In _ _ H0)) as [->|(x & Hx & ->)].
    - exfalso. cbn in Hn0. subst n. destruct Hn as [Hn|Hn]; [discriminate Hn|apply Hstart; symmetry; exact Hn].
    - cbn in Hn0 |- *. subst n. now rewrite (Hpw x Hx Hn).
  Qed.
  Lemma st_named : rule_named src start = Some (ld_start L).
  Proof. now destruct (load_final _ _ _ _ _ _ _ Hload) as (g3 & g4 & _ & _ & _ & _ & _ & E). Qed.
  Lemma wr_same : rule_named (ld_g L) ws_name = wr.
  Proof.
    rewrite <- (wr_bg fuel keq lrec (text_instrs ds order) start src L Hsrc Hload (text_np ds order Hnp)). unfold rule_named. f_equal.
    unfold strip_grammar. rewrite map_map. reflexivity.
  Qed.
  Lemma ws_same : ld_ws L = ws_expr (ld_g L) wr.
  Proof. rewrite <- wr_same. now destruct (load_final _ _ _ _ _ _ _ Hload) as (_ & _ & _ & _ & _ & _ & E & _). Qed.
  Lemma P_ws : p_ws P = ws_expr bg wr.
  Proof. cbn. rewrite HQw, ws_same. apply strip_ws. Qed.
  Lemma P_g : p_g P = bg.
  Proof. cbn. now rewrite HQ. Qed.
  Lemma Q_eta : with_grammar P (ld_g L) (ld_ws L) = Q.
  Proof. rewrite <- HQ, <- HQw. destruct Q; reflexivity. Qed.
  Notation back := (back ds order).
  Lemma renamed n : Rn (run g (ld_start L) wr) n ->
    text_peg ds (back n) = pmap back (peg_grammar P n) /\ within (Rn (run g (ld_start L) wr)) (peg_grammar P n).
  Proof.
    intros Hn. unfold peg_grammar. rewrite P_ws, P_g.
    pose proof (accepted_well_formed fuel keq lrec (text_instrs ds order) start src L Hsrc Hload (text_np ds order Hnp) text_ord Hreg Hlr) as Hwf.
    specialize (Hwf (named_plain _ _ st_named (or_intror eq_refl)) (fun w Hw => named_plain _ _ Hw (or_introl eq_refl)) Hinner Hlit).
    split; [|apply (wf_within (Rn (run g (ld_start L) wr)) (peg_of (iterate bg) (ws_expr bg wr))); exact (proj1 (Hwf n Hn))].
    destruct n as [r m|r m args|fr m a|m|t|]; cbn [Rn] in Hn; try contradiction.
    - destruct (nth_error bg r) as [d|] eqn:Hd.
      2:{ exfalso. assert (Hr : r < List.length g).
          { eapply run_range; eauto; [exact text_ord|exact (named_plain _ _ st_named (or_intror eq_refl))|exact (fun w Hw => named_plain _ _ Hw (or_introl eq_refl))]. }
          apply (bg_named ds order fuel keq lrec start L Hload Hnp) in Hd. apply nth_error_None in Hd. unfold link_all in Hr. rewrite map_length in Hr. lia. }
      assert (Hm : r_is_macro d = false).
      { assert (Hpr : LoadPeg.plain_rule g r).
        { eapply run_plain; eauto; [exact text_ord|exact (named_plain _ _ st_named (or_intror eq_refl))|exact (fun w Hw => named_plain _ _ Hw (or_introl eq_refl))]. }
        destruct (nth_error src r) as [d0|] eqn:Hd0.
        - rewrite (bg_macro ds order fuel keq lrec start L Hload Hnp _ _ _ Hd Hd0). apply (Hpr (link_rule src d0)). unfold link_all. now rewrite nth_error_map, Hd0.
        - apply (bg_named ds order fuel keq lrec start L Hload Hnp) in Hd0. congruence. }
      eapply back_rule; eauto. exact white_plain.
    - eapply back_skip; eauto. exact white_plain.
    - symmetry. apply pmap_dic.
  Qed.
  Theorem text_language : exists r,
    PegSpec.peg (text_peg ds) (text_start start) input r
    /\ (exists F, forall f, F <= f -> exists reps res, parser_parse f Q input dt = Ok (accepts Q r, reps, res))
    /\ (forall f b reps res, parser_parse f Q input dt = Ok (b, reps, res) ->
         b = accepts Q r /\ (b = true -> forall t, r = Some t -> rs_len res + List.length t = List.length input)).
  Proof.
    pose proof (accepted_well_formed fuel keq lrec (text_instrs ds order) start src L Hsrc Hload (text_np ds order Hnp) text_ord Hreg Hlr
      (named_plain _ _ st_named (or_intror eq_refl)) (fun w Hw => named_plain _ _ Hw (or_introl eq_refl)) Hinner Hlit) as Hwf.
    assert (Hwf' : PegSpec.well_formed (peg_grammar P) (Rn (run g (ld_start L) wr))) by (unfold peg_grammar; rewrite P_g, P_ws; exact Hwf).
    clear Hwf. rename Hwf' into Hwf.
    destruct (PegFacts.peg_total (peg_grammar P) _ Hwf (start_of P) input Hu) as [r Hr].
    { split; [exact I|]. cbn. rewrite HQs. left. constructor. }
    assert (HP : bare_parser P).
    { destruct (final_same fuel keq lrec (text_instrs ds order) start src L Hsrc Hload (text_np ds order Hnp)) as (g4 & _ & Hb & E & _).
      split; [now rewrite P_g, E|]. change (p_word P) with (p_word Q). rewrite Hwn. split; [|exact I]. rewrite P_ws, E. unfold ws_expr.
      destruct wr as [w|]; [|exact I]. destruct (nth_error g4 w) as [d|] eqn:Hd; [|exact I]. destruct (r_body d) as [b|] eqn:Hbo; [|exact I]. cbn.
      unfold bare_grammar in Hb. rewrite forallb_forall in Hb. specialize (Hb d (nth_error_In _ _ Hd)). now rewrite Hbo in Hb. }
    destruct (engine_follows_peg P input dt md mm r Hwn Hc (bare_parser_anns P input HP) Hp Hr) as (reps1 & res1 & F1 & H1 & H2).
    pose proof (accepted_tables fuel keq lrec (text_instrs ds order) start src L Hsrc Hload (text_np ds order Hnp) text_ord Hreg Hlr
      (named_plain _ _ st_named (or_intror eq_refl)) (fun w Hw => named_plain _ _ Hw (or_introl eq_refl)) Hinner Hlit P input dt md mm odd P_g P_ws HQs Hc Hwn Hp Hu) as Hs.
    rewrite Q_eta in Hs. rewrite <- P_g in Hs. specialize (Hs Hne Hra Hrs Hk Hpl Ha Hpure). destruct Hs as (b & rp2 & rs2 & rp3 & rs3 & F2 & Hs).
    assert (Hst : nth_error src (ld_start L) <> None /\ forall d, nth_error src (ld_start L) = Some d -> r_name d = start).
    { pose proof st_named as Hn. apply rule_named_Some in Hn as (d & Hd & Hn). split; [congruence|]. intros d' Hd'. congruence. }
    exists r. split; [|].
    - apply (rename_to back (peg_grammar P) (text_peg ds) (Rn (run g (ld_start L) wr)) renamed) in Hr.
      + unfold start_of in Hr. cbn [pmap TextPegProofs.back] in Hr. change (p_start P) with (p_start Q) in Hr. rewrite HQs in Hr.
        destruct Hst as [Hst1 Hst2]. destruct (nth_error src (ld_start L)) as [d|]; [|contradiction]. rewrite (Hst2 d eq_refl) in Hr. exact Hr.
      + split; [exact I|]. cbn. rewrite HQs. left. constructor.
    - assert (Hb : b = accepts Q r /\ (b = true -> rs_len rs2 = rs_len res1)).
      { pose proof (H1 (F1 + F2) ltac:(lia)) as A. destruct (Hs (F1 + F2) ltac:(lia)) as (B1 & B2 & B3 & B4). rewrite B2 in A. injection A as Eb _ E3. subst rs3. split; [exact Eb|].
        intros Hbt. apply B4. rewrite B3. subst b. unfold parser_parse in B2. destruct (def_parse _ _ _ _) as [x| | |]; try discriminate. cbn [bind] in B2.
        match type of B2 with bind ?y _ = _ => destruct y; try discriminate end. cbn [bind] in B2. injection B2 as X _ Y. subst x. rewrite Hbt in X. now apply andb_prop in X. }
      destruct Hb as [Hb1 Hb2]. split.
      + exists (F1 + F2). intros f Hf. destruct (Hs f ltac:(lia)) as (B1 & _). rewrite <- Hb1. eauto.
      + intros f b' reps res Hrun. pose proof (parser_parse_below f (F1 + F2 + f) _ _ _ _ ltac:(lia) Hrun) as A. destruct (Hs (F1 + F2 + f) ltac:(lia)) as (B1 & _).
        rewrite B1 in A. injection A as <- <- <-. split; [exact Hb1|]. intros Hbt t ->. rewrite (Hb2 Hbt). exact H2.
  Qed.
End Language.
