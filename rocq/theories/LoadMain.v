(** * What an accepted grammar is known to satisfy (C32, C33). *)
From Verif Require Import Base BaseLemmas Utf8 Escape TrieM LineInfo Ope Ctx ErrLog Engine EngineLemmas Top Scope RefSem FirstSetM FirstSpec FirstSetup
  PackratFilter PrecSpec PrecM LoadM LoadSpec LoadRefs PegDen LoadPeg LoadLoop LoadLR.

(** ** Grammars with the same rules, up to flags and token boundaries around bodies *)
Definition same_rule (d d' : rule) : Prop :=
  r_name d = r_name d' /\ r_is_macro d = r_is_macro d' /\ r_params d = r_params d'
  /\ match r_body d, r_body d' with Some b, Some b' => b' = b \/ b' = Tok b | None, None => True | _, _ => False end.
Definition same_rules (g g' : grammar) : Prop := Forall2 same_rule g g'.
Lemma f2_nth {A B} (R : A -> B -> Prop) l l' i x : Forall2 R l l' -> nth_error l i = Some x -> exists y, nth_error l' i = Some y /\ R x y.
Proof. intros H. revert i. induction H as [|a b l l' Hab H IH]; intros [|i] E; try discriminate; [injection E as <-; exists b; auto|]. now apply IH. Qed.
Lemma f2_nth' {A B} (R : A -> B -> Prop) l l' i y : Forall2 R l l' -> nth_error l' i = Some y -> exists x, nth_error l i = Some x /\ R x y.
Proof. intros H. revert i. induction H as [|a b l l' Hab H IH]; intros [|i] E; try discriminate; [injection E as <-; exists a; auto|]. now apply IH. Qed.
Lemma f2_map {A B} (f : A -> B) (R : A -> A -> Prop) l l' : (forall x y, R x y -> f x = f y) -> Forall2 R l l' -> map f l = map f l'.
Proof. intros H. induction 1 as [|a b l l' Hab _ IH]; cbn; [reflexivity|]. f_equal; auto. Qed.

Section Transport.
  Variables g g' : grammar.
  Hypothesis HR : same_rules g g'.
  Lemma body_to r d b : nth_error g r = Some d -> r_body d = Some b -> exists d' b', nth_error g' r = Some d' /\ r_body d' = Some b' /\ (b' = b \/ b' = Tok b).
  Proof.
    intros Hd Hb. destruct (f2_nth _ _ _ _ _ HR Hd) as (d' & Hd' & _ & _ & _ & H). rewrite Hb in H. destruct (r_body d') as [b'|] eqn:Hb'; [|destruct H]. eauto 10.
  Qed.
  Lemma body_from r d' b' : nth_error g' r = Some d' -> r_body d' = Some b' -> exists d b, nth_error g r = Some d /\ r_body d = Some b /\ (b' = b \/ b' = Tok b).
  Proof.
    intros Hd Hb. destruct (f2_nth' _ _ _ _ _ HR Hd) as (d & Hd' & _ & _ & _ & H). rewrite Hb in H. destruct (r_body d) as [b|] eqn:Hb'; [|destruct H]. eauto 10.
  Qed.
  Lemma macro_from r d d' : nth_error g' r = Some d' -> nth_error g r = Some d -> r_is_macro d' = r_is_macro d.
  Proof. intros Hd' Hd. destruct (f2_nth _ _ _ _ _ HR Hd) as (d1 & H1 & _ & Hm & _). congruence. Qed.
  Lemma plain_to r : plain_rule g r -> plain_rule g' r.
  Proof. intros H d' Hd'. destruct (f2_nth' _ _ _ _ _ HR Hd') as (d & Hd & _ & Hm & _). rewrite <- Hm. now apply H. Qed.
  Lemma me_to o : may_be_empty g o -> may_be_empty g' o.
  Proof.
    intros H. induction H using me_ind'; try (econstructor; eassumption).
    all: destruct H as [H1 H2]; destruct (body_to _ _ _ H1 H2) as (d' & b' & A & B & C); econstructor; [split; eassumption|destruct C as [-> | ->]; [assumption|now constructor]].
  Qed.
  Lemma me_from o : may_be_empty g' o -> may_be_empty g o.
  Proof.
    intros H. induction H using me_ind'; try (econstructor; eassumption).
    all: destruct H as [H1 H2]; destruct (body_from _ _ _ H1 H2) as (d' & b' & A & B & C); econstructor; [split; eassumption|].
    all: destruct C as [-> | ->]; [assumption|]. all: match goal with H : may_be_empty g (Tok _) |- _ => inversion H; assumption end.
  Qed.
  Lemma cf_to o r : calls_first g o r -> calls_first g' o r.
  Proof. induction 1; try (econstructor; eassumption). constructor; [|assumption]. eapply Forall_impl; [|exact H]. exact me_to. Qed.
  Lemma cf_from o r : calls_first g' o r -> calls_first g o r.
  Proof. induction 1; try (econstructor; eassumption). constructor; [|assumption]. eapply Forall_impl; [|exact H]. exact me_from. Qed.
  Lemma left_to r r' : left_reaches g r r' -> left_reaches g' r r'.
  Proof.
    induction 1 as [r r' d b A B C|r r1 r2 _ IH1 _ IH2]; [|econstructor 2; eauto].
    destruct (body_to _ _ _ A B) as (d' & b' & A' & B' & [-> | ->]); econstructor 1; eauto; [now apply cf_to|]. constructor. now apply cf_to.
  Qed.
  Lemma regular_to b : regular g b -> regular g' b.
  Proof.
    intros H x Hx. specialize (H x Hx). destruct x; auto.
    - intros E. destruct H as (l' & y & -> & Hy); [apply Exists_exists in E as (z & A & B); apply Exists_exists; exists z; split; [exact A|now apply me_from]|].
      exists l', y. split; [reflexivity|now apply me_to].
    - intros Hm Hme. apply (H Hm). now apply me_from.
  Qed.
  Lemma regular_tok b : regular g b -> regular g (Tok b).
  Proof. intros H x Hx. inversion Hx; subst; [exact I|]. match goal with Hp : In _ (parts [] _) |- _ => destruct Hp as [<- | []] end. now apply H. Qed.
  Lemma regular_all : (forall d b, In d g -> r_is_macro d = false -> r_body d = Some b -> regular g b) -> forall d b, In d g' -> r_is_macro d = false -> r_body d = Some b -> regular g' b.
  Proof.
    intros H d b Hd Hpl Hb. apply In_nth_error in Hd as [i Hi]. destruct (body_from _ _ _ Hi Hb) as (d0 & b0 & A & B & C). pose proof (macro_from _ _ _ Hi A) as Hmm. apply regular_to.
    destruct C as [-> | ->]; [|apply regular_tok]; (eapply H; [eapply nth_error_In; exact A|congruence|exact B]).
  Qed.
  Lemma names_eq : map r_name g = map r_name g'.
  Proof. apply (f2_map r_name same_rule); [|exact HR]. intros x y H. apply H. Qed.
  Lemma named_to b : named_refs g b -> named_refs g' b.
  Proof.
    intros H n r ia mac args Hi. destruct (H n r ia mac args Hi) as (d & Hd & Hn). destruct (f2_nth _ _ _ _ _ HR Hd) as (d' & Hd' & E & _). exists d'. split; congruence.
  Qed.
  Lemma named_tok b : named_refs g b -> named_refs g (Tok b).
  Proof. intros H n r ia mac args Hi. inversion Hi; subst. match goal with Hp : In _ (parts [] _) |- _ => destruct Hp as [<- | []] end. eapply H; eauto. Qed.
  Lemma named_all : (forall d b, In d g -> r_is_macro d = false -> r_body d = Some b -> named_refs g b) -> forall d b, In d g' -> r_is_macro d = false -> r_body d = Some b -> named_refs g' b.
  Proof.
    intros H d b Hd Hpl Hb. apply In_nth_error in Hd as [i Hi]. destruct (body_from _ _ _ Hi Hb) as (d0 & b0 & A & B & C). pose proof (macro_from _ _ _ Hi A) as Hmm. apply named_to.
    destruct C as [-> | ->]; [|apply named_tok]; (eapply H; [eapply nth_error_In; exact A|congruence|exact B]).
  Qed.
  Lemma ordinary_ope_to o : ordinary g o = true -> ordinary g' o = true.
  Proof.
    induction o using ope_ind'; cbn [ordinary]; intros Ho; auto.
    - apply andb_prop in Ho as [A B]. rewrite A. cbn [andb]. rewrite forallb_forall in *. rewrite Forall_forall in H. auto.
    - apply andb_prop in Ho as [A B]. rewrite A. cbn [andb]. rewrite forallb_forall in *. rewrite Forall_forall in H. auto.
    - destruct rl as [r|]; [|discriminate]. destruct m; [discriminate|]. destruct args; [|discriminate].
      destruct (nth_error g' r) as [d'|] eqn:Hd'; [|destruct (nth_error g r) as [d|] eqn:Hd; [destruct (f2_nth _ _ _ _ _ HR Hd) as (d1 & H1 & _); congruence|exact Ho]].
      destruct (f2_nth' _ _ _ _ _ HR Hd') as (d & Hd & _ & Hm & _). rewrite Hd in Ho. now rewrite <- Hm.
  Qed.
  Lemma ordinary_to : ordinary_grammar g -> ordinary_grammar g'.
  Proof.
    intros H d' Hd' Hpl. apply In_nth_error in Hd' as [i Hi]. destruct (f2_nth' _ _ _ _ _ HR Hi) as (d & Hd & _ & Hm & _ & Hb).
    pose proof (H d (nth_error_In _ _ Hd) ltac:(congruence)) as B. destruct (r_body d) as [b|]; [|destruct B]. destruct (r_body d') as [b'|]; [|destruct Hb].
    destruct Hb as [-> | ->]; cbn [ordinary]; now apply ordinary_ope_to.
  Qed.
  Lemma mentions_tok b r : mentions (Tok b) r <-> mentions b r.
  Proof.
    split; intros (n & ia & mac & args & Hi); exists n, ia, mac, args.
    - inversion Hi; subst. match goal with Hp : In _ (parts [] _) |- _ => destruct Hp as [<- | []] end. assumption.
    - eapply inside_part; [left; reflexivity|exact Hi].
  Qed.
  Lemma calls_to r r' : calls g r r' <-> calls g' r r'.
  Proof.
    split; intros (d & b & A & B & C).
    - destruct (body_to _ _ _ A B) as (d' & b' & A' & B' & [-> | ->]); exists d'; eexists; repeat split; eauto. now apply mentions_tok.
    - destruct (body_from _ _ _ A B) as (d' & b' & A' & B' & [-> | ->]); exists d', b'; repeat split; auto. now apply mentions_tok.
  Qed.
  Lemma reaches_to r r' : reaches g r r' <-> reaches g' r r'.
  Proof. split; induction 1 as [|r r1 r2 H _ IH]; try constructor; econstructor; eauto; now apply calls_to. Qed.
  Lemma loop_from s r : run_in_loop g' s r -> run_in_loop g s r.
  Proof.
    intros (r0 & d & b & e & mn & sp & r1 & A & B & C & D & F & K). destruct (body_from _ _ _ B C) as (d' & b' & B' & C' & E).
    exists r0, d', b', e, mn, sp, r1. split; [now apply reaches_to|]. split; [exact B'|]. split; [exact C'|]. split; [|split; [exact F|now apply reaches_to]].
    destruct E as [-> | ->]; [exact D|]. inversion D; subst. match goal with Hp : In _ (parts [] _) |- _ => destruct Hp as [<- | []] end. assumption.
  Qed.
End Transport.

(** ** The stages of loading *)
Lemma same_refl g : same_rules g g.
Proof. induction g as [|d g IH]; constructor; [|exact IH]. repeat split. destruct (r_body d); auto. Qed.
Lemma same_tok g0 g : Forall2 (fun d d' => same_rule d d' /\ r_body d' = r_body d) g0 g -> same_rules g0 (map tok_rule g).
Proof.
  induction 1 as [|a b l l' [Hab Hb] H IH]; cbn; constructor; auto. destruct Hab as (A & B & C & D). unfold tok_rule.
  destruct (r_body b) as [x|] eqn:E; [|repeat split; auto; rewrite E; exact D]. destruct (is_literal_token x); [|repeat split; auto; rewrite E; exact D].
  repeat split; auto. cbn. rewrite <- Hb. auto.
Qed.
Definition same_exact (g0 g : grammar) : Prop := Forall2 (fun d d' => same_rule d d' /\ r_body d' = r_body d) g0 g.
Lemma exact_refl g : same_exact g g.
Proof. induction g as [|d g IH]; constructor; [|exact IH]. repeat split. destruct (r_body d); auto. Qed.
Lemma exact_same g g' : same_exact g g' -> same_rules g g'.
Proof. induction 1 as [|a b l l' [Hab _] H IH]; constructor; assumption. Qed.
Lemma exact_set_nth g0 g i d d' : same_exact g0 g -> nth_error g i = Some d -> same_rule d d' -> r_body d' = r_body d -> (forall x, same_rule x d -> same_rule x d') -> same_exact g0 (set_nth g i d').
Proof.
  intros H. revert i. induction H as [|a b l l' [Hab Hb] H IH]; intros [|i] Hd H1 H2 Hx; cbn in *; try discriminate.
  - injection Hd as ->. constructor; [|exact H]. split; [auto|congruence].
  - constructor; [split; auto|]. apply IH; auto.
Qed.
Lemma exact_pass g0 n : forall i g, same_exact g0 g -> same_exact g0 (fst (empty_pass n i g)).
Proof.
  induction n as [|n IH]; intros i g H; [exact H|]. cbn [empty_pass]. destruct (nth_error g i) as [d|] eqn:Hd; [|exact H]. cbv zeta.
  destruct (Bool.eqb _ _); [auto|]. cbn [fst]. apply IH. eapply exact_set_nth; eauto; [repeat split; cbn; destruct (r_body d); auto].
Qed.
Lemma exact_fix g0 fuel : forall g g', same_exact g0 g -> empty_fix fuel g = Some g' -> same_exact g0 g'.
Proof.
  induction fuel as [|fuel IH]; intros g g' H E; [discriminate|]. cbn [empty_fix] in E. pose proof (exact_pass g0 (List.length g) 0 g H) as Hp.
  destruct (empty_pass (List.length g) 0 g) as [g1 ch]. destruct ch; [eauto|]. injection E as <-. exact Hp.
Qed.
Lemma exact_set_lrs g0 g : same_exact g0 g -> forall fl, same_exact g0 (set_lrs fl g).
Proof. induction 1 as [|a b l l' [Hab Hb] H IH]; intros [|x fl]; cbn; constructor; auto; apply IH. Qed.

(** Everything known after a successful load. *)
Record load_facts fuel keq (lrec : bool) start src (l : loaded) := {
  lf_s : rid; lf_g1 : grammar; lf_fl : list bool; lf_g2 : grammar; lf_g3 : grammar;
  lf_start : rule_named src start = Some lf_s;
  lf_refs : all_refs_ok src = true;
  lf_fix : empty_fix fuel (link_all src) = Some lf_g1;
  lf_lr : lr_flags fuel lf_g1 keq = Some lf_fl;
  lf_off : lrec = false -> forallb negb lf_fl = true;
  lf_2 : lf_g2 = if lrec then set_lrs lf_fl lf_g1 else lf_g1;
  lf_loop : loop_detect fuel lf_g2 lf_s = Some false;
  lf_3 : lf_g3 = lf_g2 \/ lf_g3 = map tok_rule lf_g2;
  lf_ws : forall r, rule_named lf_g3 ws_name = Some r -> loop_detect fuel lf_g3 r = Some false;
  lf_word : forall r, rule_named lf_g3 word_name = Some r -> loop_detect fuel lf_g3 r = Some false;
  lf_flags : map r_lr (ld_g l) = map r_lr lf_g2;
  lf_st : ld_start l = lf_s
}.
Lemma set_nth_same {A B} (f : A -> B) l i x y : nth_error l i = Some y -> f x = f y -> map f (set_nth l i x) = map f l.
Proof. revert i. induction l as [|z l IH]; intros [|i] H E; cbn in *; try discriminate; [inv H; congruence|]. f_equal. eapply IH; eauto. Qed.
Lemma instruct_lr l : forall g g', instruct_all l g = Some g' -> map r_lr g' = map r_lr g.
Proof.
  induction l as [|[r i] l IH]; intros g g' H; cbn [instruct_all] in H; [injection H as <-; reflexivity|].
  destruct (nth_error g r) as [d|] eqn:Hd; [|discriminate]. destruct (instruct r i d) as [d'|] eqn:Hi; [|discriminate].
  rewrite (IH _ _ H). eapply set_nth_same; [exact Hd|]. destruct i; cbn in Hi; try (injection Hi as <-; reflexivity).
  destruct (r_body d) as [b|]; [|discriminate]. destruct (apply_precedence r (prec_table ls) b); [|discriminate]. injection Hi as <-. reflexivity.
Qed.
Lemma load_known fuel keq lrec instrs start src l : load fuel keq lrec instrs start src = Some (Accepted l) -> load_facts fuel keq lrec start src l.
Proof.
  intros H. unfold load in H. destruct (rule_named src start) as [s|] eqn:Hs; [|discriminate]. destruct (nth_error src s) as [sd|]; [|discriminate].
  destruct (negb (forallb _ src)); [discriminate|]. destruct (r_ignore sd); [discriminate|].
  destruct (all_refs_ok src) eqn:Hall; cbn [negb] in H; [|discriminate].
  destruct (empty_fix fuel (link_all src)) as [g1|] eqn:Hg1; [|discriminate]. cbn [obind] in H.
  destruct (lr_flags fuel g1 keq) as [fl|] eqn:Hfl; [|discriminate]. cbn [obind] in H.
  destruct (negb lrec && existsb (fun b => b) fl) eqn:Hoff; [discriminate|]. cbv zeta in H.
  set (g2 := if lrec then set_lrs fl g1 else g1) in *.
  destruct (loop_detect fuel g2 s) as [[]|] eqn:Hl1; try discriminate. cbn [obind] in H.
  set (g3 := match rule_named g2 ws_name return list rule with Some _ => map tok_rule g2 | None => g2 end) in *.
  match type of H with obind ?x _ = _ => destruct x as [[]|] eqn:Hl2; try discriminate end. cbn [obind] in H.
  match type of H with obind ?x _ = _ => destruct x as [[]|] eqn:Hl3; try discriminate end. cbn [obind] in H.
  destruct (instruct_all instrs g3) as [g4|] eqn:Hg4; [|discriminate].
  destruct (setup_first_sets fuel fuel (seq 0 (List.length g4)) g4) as [g5| | |] eqn:Hg5; try discriminate. injection H as <-.
  refine {| lf_s := s; lf_g1 := g1; lf_fl := fl; lf_g2 := g2; lf_g3 := g3 |}; auto.
  - intros ->. cbn in Hoff. clear -Hoff. induction fl as [|[] fl IH]; [reflexivity|discriminate|]. cbn in *. auto.
  - unfold g3. destruct (rule_named g2 ws_name); auto.
  - intros r Hr. rewrite Hr in Hl2. exact Hl2.
  - intros r Hr. rewrite Hr in Hl3. exact Hl3.
  - cbn [ld_g]. transitivity (map r_lr g4).
    + pose proof (f_equal (map r_lr) (setup_strip _ _ _ _ _ Hg5)) as E. unfold strip_grammar in E. rewrite !map_map in E. exact E.
    + rewrite (instruct_lr _ _ _ Hg4). unfold g3. destruct (rule_named g2 ws_name); [|reflexivity]. rewrite map_map. apply map_ext. intros d. unfold tok_rule.
      destruct (r_body d) as [b|]; [|reflexivity]. destruct (is_literal_token b); reflexivity.
Qed.

Section Accepted.
  Variables (fuel : nat) (keq : rid * list ope -> rid * list ope -> bool) (lrec : bool) (instrs : list (rid * instr)) (start : bytes) (src : grammar) (l : loaded).
  Hypothesis Hsrc : source_grammar src.
  Hypothesis Hload : load fuel keq lrec instrs start src = Some (Accepted l).
  Notation g := (link_all src).
  Hypothesis Hord : ordinary_grammar g.

  Lemma inside_ps ps o x : ordinary g o = true -> inside [] o x -> inside ps o x.
  Proof.
    intros Ho Hi. revert Ho. induction Hi as [o|o p x Hp Hi IH]; intros Ho; [constructor|]. econstructor; [|apply IH; eapply ordinary_part; eauto].
    destruct o; try exact Hp. cbn [ordinary] in Ho. cbn [parts] in Hp. destruct rule as [r|]; [|discriminate]. destruct is_macro; [discriminate|]. destruct args; [|discriminate]. destruct (in_dec _ _ _) in Hp; destruct Hp.
  Qed.
  Lemma g_names : map r_name g = map r_name src.
  Proof. unfold link_all. rewrite map_map. apply map_ext. reflexivity. Qed.
  Lemma g_nodup : NoDup (map r_name g).
  Proof. rewrite g_names. apply Hsrc. Qed.
  Lemma g_named d b : In d g -> r_is_macro d = false -> r_body d = Some b -> named_refs g b.
  Proof.
    intros Hd Hpl Hb n r ia mac args Hi. destruct (load_known _ _ _ _ _ _ _ Hload) as [s g1 fl g2 g3 _ Hall _ _ _ _ _ _ _ _ _ _].
    pose proof (Hord d Hd Hpl) as Ho. rewrite Hb in Ho. unfold link_all in Hd. apply in_map_iff in Hd as (d0 & <- & Hd0).
    destruct Hsrc as [_ Hbd _]. destruct (Hbd d0 Hd0) as (b0 & Hb0 & Hf). cbn in Hb. rewrite Hb0 in Hb. cbn in Hb. injection Hb as <-.
    unfold all_refs_ok in Hall. rewrite forallb_forall in Hall. specialize (Hall d0 Hd0). unfold body_ok in Hall. rewrite Hb0 in Hall.
    pose proof (link_res src (r_params d0) b0 Hf Hall) as Hres. apply (inside_ps (r_params d0) _ _ Ho) in Hi.
    pose proof (res_ok_inside _ _ _ _ Hi Hres) as Hx.
    replace (map rsig src) with (map rsig g) in Hx by (unfold link_all; rewrite map_map; apply map_ext; reflexivity).
    apply res_ok_resolved in Hx as [[X _]|(r' & d' & X & Y & Z & _)]; [discriminate|]. injection X as <-. eauto.
  Qed.

  (** Unbounded repetitions that are not run inside another one consume. *)
  Theorem loops_consume s r d b e mn sp :
    rule_named src start = Some s \/ rule_named src ws_name = Some s \/ rule_named src word_name = Some s ->
    plain_rule g s -> reaches g s r -> ~ run_in_loop g s r -> nth_error g r = Some d -> r_body d = Some b -> unlooped b (Rep e mn None sp) -> ~ may_be_empty g e.
  Proof.
    intros Hs Hps Hr Hq Hd Hb Hu Hme. destruct (load_known _ _ _ _ _ _ _ Hload) as [s0 g1 fl g2 g3 Hst _ Hfix Hlr Hoff Hg2 Hl1 Hg3 Hl2 Hl3 _ _].
    assert (X1 : same_exact g g1) by (eapply exact_fix; [apply exact_refl|exact Hfix]).
    assert (X2 : same_exact g g2) by (subst g2; destruct lrec; [now apply exact_set_lrs|exact X1]).
    assert (X3 : same_rules g g3) by (destruct Hg3 as [-> | ->]; [now apply exact_same|now apply same_tok]).
    apply exact_same in X2.
    assert (Hgen : forall g', same_rules g g' -> loop_detect fuel g' s = Some false -> False).
    { intros g' HR Hdet. destruct (body_to _ _ HR _ _ _ Hd Hb) as (d' & b' & Hd' & Hb' & Hbb).
      refine (detected g' (ordinary_to _ _ HR Hord) _ (named_all _ _ HR g_named) s fuel (plain_to _ _ HR _ Hps) Hdet r d' b' e mn sp _ _ Hd' Hb' _ (me_to _ _ HR _ Hme)).
      - rewrite <- (names_eq _ _ HR). exact g_nodup.
      - now apply (reaches_to _ _ HR).
      - intros H. apply Hq. now apply (loop_from _ _ HR).
      - destruct Hbb as [-> | ->]; [exact Hu|]. econstructor; [intros; discriminate|left; reflexivity|exact Hu]. }
    assert (Hrn : forall n g', same_rules g g' -> rule_named g' n = rule_named src n).
    { intros n g' HR. unfold rule_named. rewrite <- (names_eq _ _ HR), g_names. reflexivity. }
    destruct Hs as [Hs|[Hs|Hs]].
    - rewrite Hst in Hs. injection Hs as <-. exact (Hgen g2 X2 Hl1).
    - apply (Hgen g3 X3). apply Hl2. now rewrite (Hrn _ _ X3).
    - apply (Hgen g3 X3). apply Hl3. now rewrite (Hrn _ _ X3).
  Qed.

  (** Rules that can call themselves at the same position are flagged. *)
  Lemma option_all_nth {A B} (f : A -> option B) (la : list A) lb i a : option_all f la = Some lb -> nth_error la i = Some a -> exists b, nth_error lb i = Some b /\ f a = Some b.
  Proof.
    revert lb i. induction la as [|x la IH]; intros lb i H Hi; [destruct i; discriminate|]. cbn in H. destruct (f x) as [y|] eqn:E; [|discriminate].
    destruct (option_all f la) as [ys|]; [|discriminate]. injection H as <-. destruct i as [|i]; cbn in *; [injection Hi as <-; eauto|eauto].
  Qed.
  Lemma set_lrs_nth : forall fl g0 r b d, nth_error fl r = Some b -> nth_error g0 r = Some d -> nth_error (map r_lr (set_lrs fl g0)) r = Some (b || r_lr d).
  Proof.
    induction fl as [|x fl IH]; intros [|d0 g0] [|r] b d H1 H2; cbn in *; try discriminate; [injection H1 as <-; injection H2 as <-; reflexivity|eauto].
  Qed.
  Hypothesis Hreg : forall d b, In d g -> r_is_macro d = false -> r_body d = Some b -> regular g b.
  Theorem recursion_flagged r : plain_rule g r -> left_reaches g r r -> lrec = true /\ exists d, nth_error (ld_g l) r = Some d /\ r_lr d = true.
  Proof.
    intros Hps Hl. destruct (load_known _ _ _ _ _ _ _ Hload) as [s0 g1 fl g2 g3 Hst _ Hfix Hlr Hoff Hg2 _ _ _ _ Hflags _].
    assert (X1 : same_rules g g1) by (apply exact_same; eapply exact_fix; [apply exact_refl|exact Hfix]).
    assert (Hrd : exists d, nth_error g1 r = Some d).
    { apply (LoadMain.left_to _ _ X1) in Hl. clear -Hl. remember r as r' eqn:E in Hl at 2. clear E. induction Hl; eauto. }
    destruct Hrd as [d1 Hd1]. destruct (option_all_nth _ _ _ _ _ Hlr Hd1) as (b & Hb & Hdet).
    assert (b = true) as ->.
    { destruct b; [reflexivity|]. exfalso. revert Hdet. apply (recursion_found g1 (ordinary_to _ _ X1 Hord) (named_all _ _ X1 g_named) (regular_all _ _ X1 Hreg) (fix_fixed _ _ _ Hfix) keq fuel r d1 Hd1 (plain_to _ _ X1 _ Hps _ Hd1)).
      now apply (LoadMain.left_to _ _ X1). }
    destruct lrec.
    - split; [reflexivity|]. pose proof (set_lrs_nth _ _ _ _ _ Hb Hd1) as Hset. subst g2. rewrite <- Hflags in Hset. rewrite nth_error_map in Hset.
      destruct (nth_error (ld_g l) r) as [d|]; [|discriminate]. cbn in Hset. injection Hset as Hset. eauto.
    - exfalso. specialize (Hoff eq_refl). rewrite forallb_forall in Hoff. specialize (Hoff true (nth_error_In _ _ Hb)). discriminate.
  Qed.
End Accepted.
