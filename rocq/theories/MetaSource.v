(** * Every grammar read from a text is a source grammar: one of the operators a text
    can write, every rule with a body, no two rules with the same name (C48). *)
From Coq Require Import Permutation.
From Verif Require Import Base BaseLemmas Utf8 Escape TrieM LineInfo Ope Ctx ErrLog Engine EngineLemmas Top Frame Scope Bounds Choice TopFacts Loc
  FirstSetM FirstSpec FirstSem FirstSetup FirstAnn FirstTop FirstCheck GrammarCond PackratFilter PrecSpec PrecM LoadM LoadSpec LoadRefs MetaM.

(** ** The annotated meta-grammar *)
Definition meta_nul (r : rid) : bool := existsb (Nat.eqb r) [2; 3; 44; 48; 57; 64].
Lemma meta_certified : certified meta_grammar meta_nul (fun _ _ => false) (fun _ _ => false) false true true = true.
Proof. vm_compute. reflexivity. Qed.
Lemma meta_no_empty_recursion : no_empty_recursion meta_grammar.
Proof. exact (certified_no_empty_recursion _ _ _ _ _ _ _ meta_certified). Qed.
(** SetupFirstSets over the rules in any order, with any fuel. *)
Definition meta_annotated (g : grammar) : Prop := exists k n order, setup_first_sets k n order meta_grammar = Ok g.
Lemma meta_strip g : meta_annotated g -> strip_grammar g = meta_grammar.
Proof.
  intros (k & n & order & H).
  assert (Hb : bare_grammar meta_grammar = true) by (vm_compute; reflexivity).
  exact (proj1 (setup_good meta_grammar meta_no_empty_recursion Hb k n order g H)).
Qed.
Lemma strip_nth g r d : nth_error g r = Some d ->
  exists d0, nth_error (strip_grammar g) r = Some d0 /\ r_body d0 = option_map strip (r_body d).
Proof. intros H. unfold strip_grammar. rewrite nth_error_map, H. eexists. split; reflexivity. Qed.
Lemma meta_nopre g r d b : meta_annotated g -> nth_error g r = Some d -> r_body d = Some b -> nopre b = true.
Proof.
  intros Hg Hd Hb. destruct (strip_nth _ _ _ Hd) as (d0 & Hd0 & Hb0). rewrite (meta_strip g Hg) in Hd0. rewrite Hb in Hb0. cbn in Hb0.
  assert (X : forallb (fun d => match r_body d with Some b => nopre b | None => true end) meta_grammar = true) by (vm_compute; reflexivity).
  rewrite forallb_forall in X. specialize (X d0 (nth_error_In _ _ Hd0)). rewrite Hb0, strip_nopre in X. exact X.
Qed.

(** ** What holds of the values and of the data throughout *)
Definition src_val (v : mval) : Prop :=
  match v with VOpe o => from_text o = true | VOpes l => forallb from_text l = true | _ => True end.
Definition src_loc (a b : nat) (v : mval) : Prop := src_val v.
(** The first rule whose name does not begin with % (and is not empty). *)
Definition plain_name (n : bytes) : bool := match n with [] | x25 :: _ => false | _ => true end.
Definition first_plain (g : grammar) : bytes :=
  match find (fun r => plain_name (r_name r)) g with Some r => r_name r | None => [] end.
Record src_data (d : data) : Prop := {
  sd_source : source_grammar (d_rules d);
  sd_recover : exists rest, d_rules d = recover_rule :: rest;
  sd_params : forall r, In r (d_rules d) -> r_is_macro r = false -> r_params r = [];
  sd_start : d_start d = first_plain (d_rules d)
}.
Lemma src_wide a b a' b' v : src_loc a b v -> a' <= a -> b <= b' -> src_loc a' b' v.
Proof. auto. Qed.

Lemma src_same d d' : src_data d -> d_rules d' = d_rules d -> d_start d' = d_start d -> src_data d'.
Proof. intros [] H1 H2. constructor; rewrite ?H1, ?H2; assumption. Qed.

Lemma chain_vals l lo hi : chain src_loc lo hi l -> Forall (fun x => match x with Some v => src_val v | None => True end) l.
Proof.
  revert lo. induction l as [|x l IH]; intros lo H; [constructor|]. destruct H as (m & _ & Hx & Hl). constructor; [exact Hx|]. eapply IH; eauto.
Qed.
Notation src_opt := (fun x : option mval => match x with Some v => src_val v | None => True end).

Lemma src_at (l : vals) i : Forall src_opt l -> src_opt (val_at l i).
Proof.
  intros H. unfold val_at. destruct (nth_error l i) as [x|] eqn:E; [|exact I]. rewrite Forall_forall in H. exact (H x (nth_error_In _ _ E)).
Qed.
Lemma src_as_ope x o : src_opt x -> as_ope x = Some o -> from_text o = true.
Proof. destruct x as [[]|]; cbn; intros H E; inv E; exact H. Qed.
Lemma src_as_opes x o : src_opt x -> as_opes x = Some o -> forallb from_text o = true.
Proof. destruct x as [[]|]; cbn; intros H E; inv E; exact H. Qed.
Lemma src_all_ope : forall (l : vals) os, Forall src_opt l -> all_as as_ope l = Some os -> forallb from_text os = true.
Proof.
  induction l as [|x l IH]; intros os H E; cbn [all_as] in E; [inv E; reflexivity|]. inversion H as [|? ? Hx Hl]; subst.
  destruct (as_ope x) as [o|] eqn:Eo; [|discriminate]. destruct (all_as as_ope l) as [r|] eqn:Er; [|discriminate]. inv E.
  cbn. rewrite (src_as_ope x o Hx Eo), (IH r Hl eq_refl). reflexivity.
Qed.

Ltac src_step :=
  match goal with
  | H : obind ?m _ = Some _ |- _ => let E := fresh "E" in destruct m eqn:E; cbn [obind] in H; [|discriminate H]
  | H : Some _ = Some _ |- _ => injection H as <-
  | H : (if ?b then _ else _) = Some _ |- _ => let E := fresh "B" in destruct b eqn:E
  | H : (match ?x with _ => _ end) = Some _ |- _ => destruct x; try discriminate H
  end.
Ltac src_facts Hv :=
  repeat match goal with
  | E : as_ope (val_at ?l ?i) = Some ?o |- _ => apply (src_as_ope _ _ (src_at l i Hv)) in E
  | E : as_opes (val_at ?l ?i) = Some ?o |- _ => apply (src_as_opes _ _ (src_at l i Hv)) in E
  | E : all_as as_ope ?l = Some ?os |- _ => apply (src_all_ope l _ Hv) in E
  end.

Lemma src_value s input vs v : Forall src_opt (v_vals vs) -> value_of s input vs = Some (Made v) -> src_val v.
Proof.
  intros Hv H. unfold value_of in H. cbv zeta in H.
  destruct s; cbn [obind] in H; try discriminate H; try (injection H as <-; exact I); try reflexivity;
    repeat src_step; src_facts Hv; cbn [src_val from_text forallb] in *;
    repeat match goal with H : Some _ = Some _ |- _ => injection H as H; subst | H : _ && _ = true |- _ => apply andb_prop in H as [? ?] end;
    rewrite ?andb_true_r; subst; cbn [src_val from_text forallb npd lit] in *;
    try assumption; try exact I; try reflexivity.
  all: try (match goal with H : from_text _ = true |- _ => rewrite ?H; cbn end; auto).
  all: try (rewrite ?andb_true_iff; tauto).
  all: repeat match goal with |- context [if ?b then _ else _] => destruct b | |- context [match ?k with LOpt => _ | _ => _ end] => destruct k end;
    cbn [from_text ref_ orb andb forallb opt zom oom rep]; assumption || reflexivity.
Qed.
Lemma src_range vs v : Forall src_opt (v_vals vs) -> range_value vs = Some (Made v) -> src_val v.
Proof.
  intros Hv H. unfold range_value in H. cbv zeta in H. destruct (v_ch vs) as [|[|[|[|n]]]].
  - repeat src_step. destruct (_ <? _)%N; [discriminate H|]. injection H as <-. exact I.
  - pose proof (src_at _ 0 Hv) as X. destruct (val_at (v_vals vs) 0) as [x|]; [|discriminate H]. injection H as <-. exact X.
  - pose proof (src_at _ 0 Hv) as X. destruct (val_at (v_vals vs) 0) as [x|]; [|discriminate H]. injection H as <-. exact X.
  - repeat src_step. exact I.
  - injection H as <-. exact I.
Qed.
Lemma src_posix s v : posix_class s = Some (Made v) -> src_val v.
Proof.
  intros H. unfold posix_class in H. destruct (nth_error s 2); [|discriminate H]. cbn [obind] in H. destruct (_ <? _); [discriminate H|].
  destruct (predefined_character_class _); [injection H as <-; exact I|discriminate H].
Qed.

Lemma first_plain_app g r : first_plain (g ++ [r]) =
  match first_plain g with [] => if plain_name (r_name r) then r_name r else [] | n => n end.
Proof.
  unfold first_plain. induction g as [|x g IH].
  - cbn [app find]. destruct (plain_name (r_name r)); reflexivity.
  - cbn [app find]. destruct (plain_name (r_name x)) eqn:Hp; [|exact IH]. destruct (r_name x); [discriminate|reflexivity].
Qed.
Lemma src_definition f d : src_data d -> from_text (f_ope f) = true -> src_data (add_definition f d).
Proof.
  intros Hd Hf. unfold add_definition. destruct (add_instrs _ _ _ _ _) as [ins di]. destruct (bmem _ _) eqn:Hm.
  - eapply src_same; [exact Hd|reflexivity..].
  - destruct Hd as [[H1 H2 H3] (rest & H4) H5 H6]. cbv zeta. constructor; cbn [with_defs d_rules d_start].
    + constructor.
      * rewrite map_app. cbn [map new_rule r_name]. apply (Permutation_NoDup (Permutation_app_comm [f_name f] _)). constructor; [|exact H1].
        intros Hin. apply bmem_In in Hin. congruence.
      * intros r Hr. apply in_app_or in Hr as [Hr|[<- | []]]; [auto|]. exists (f_ope f). split; [reflexivity|exact Hf].
      * intros r Hr. apply in_app_or in Hr as [Hr|[<- | []]]; [auto|]. split; reflexivity.
    + rewrite H4. eexists. reflexivity.
    + intros r Hr. apply in_app_or in Hr as [Hr|[<- | []]]; [auto|]. cbn. destruct (f_params f); [discriminate|reflexivity].
    + rewrite first_plain_app, <- H6. cbn [new_rule r_name]. destruct (d_start d); [|reflexivity].
      destruct (f_name f) as [|a l]; [reflexivity|]. cbn [plain_name]. destruct a; reflexivity.
Qed.
Lemma src_effect s input vs d : Forall src_opt (v_vals vs) -> src_data d -> src_data (effect_of s input vs d).
Proof.
  intros Hv Hd. unfold effect_of. destruct s; try exact Hd.
  - destruct (read_definition (v_vals vs)) as [f|] eqn:Hf; [|eapply src_same; [exact Hd|reflexivity..]].
    apply src_definition; [exact Hd|]. unfold read_definition in Hf.
    destruct (as_bool _); [|discriminate Hf]. cbn [obind] in Hf. destruct (as_str _); [|discriminate Hf]. cbn [obind] in Hf.
    destruct (as_strs _); (destruct (as_ope _) eqn:E; [|discriminate Hf]; cbn [obind] in Hf; apply (src_as_ope _ _ (src_at _ _ Hv)) in E;
      match type of Hf with obind ?m _ = _ => destruct m; [|discriminate Hf] end; injection Hf as <-; exact E).
  - destruct (v_ch vs) as [|[|[|[|[|n]]]]]; try exact Hd; destruct (as_view _); try exact Hd. eapply src_same; [exact Hd|reflexivity..].
  - eapply src_same; [exact Hd|reflexivity..].
Qed.

Lemma src_action r f input vs u pd : meta_action r = Some f -> Forall src_opt (v_vals vs) -> src_data u ->
  src_opt (fst (f input vs u pd)) /\ src_data (snd (f input vs u pd)).
Proof.
  intros Hf Hv Hd. unfold meta_action in Hf. destruct (nth_error syms r) as [s|]; [|discriminate]. destruct (has_action s); [|discriminate]. injection Hf as <-.
  assert (Hfail : forall x, src_data (with_fail x u)) by (intros x; eapply src_same; [exact Hd|reflexivity..]).
  pose proof (src_effect s input vs u Hv Hd) as He.
  unfold run_action. destruct s; try (cbn [fst snd]; split; [exact I|exact He]);
    match goal with |- context [match ?m with Some _ => _ | None => _ end] => destruct m as [[v|]|] eqn:E end; cbn [fst snd]; split; try exact I; try exact He; try apply Hfail;
    first [eapply src_value; eassumption|eapply src_range; eassumption|eapply src_posix; eassumption].
Qed.

Lemma meta_located g log text : meta_annotated g -> located src_loc src_data (mk_env (meta_parser g log) text).
Proof.
  intros Hg. constructor; cbn.
  - intros r f vs pos n u pd Hf Hs [Hc _] _ Hd. apply chain_vals in Hc. destruct (src_action r f text vs u pd Hf Hc Hd) as [A B].
    split; [|exact B]. destruct (fst (f text vs u pd)); exact A.
  - intros r f pos u Hf Hd. unfold meta_enter in Hf. destruct (nth_error syms r) as [[]|]; try discriminate Hf; injection Hf as <-; (eapply src_same; [exact Hd|reflexivity..]).
  - intros r f pos n v u Hf Hv. unfold meta_leave in Hf. destruct (nth_error syms r) as [[]|]; try discriminate Hf; injection Hf as <-. exact Hv.
  - intros r f pos n v u Hf Hd. unfold meta_leave in Hf. destruct (nth_error syms r) as [[]|]; try discriminate Hf; injection Hf as <-. eapply src_same; [exact Hd|reflexivity..].
  - intros id lo pos vs u n vs' u' _ H. discriminate H.
  - intros id pos vs u Hd. exact Hd.
  - constructor; cbn.
    + constructor; cbn.
      * constructor; [intros []|constructor].
      * intros d [<- | []]. eexists. split; reflexivity.
      * intros d [<- | []]. split; reflexivity.
    + exists []. reflexivity.
    + intros r [<- | []]. discriminate.
    + reflexivity.
  - discriminate.
  - intros r d body Hd Hb. left. eapply meta_nopre; eauto.
Qed.
Lemma meta_scoped g log text : meta_annotated g -> scoped (mk_env (meta_parser g log) text).
Proof.
  intros Hg. constructor; cbn.
  - intros id pos vs u r vs' u' Hu. injection Hu as <- <- <-. apply Scope.ext_refl.
  - intros r d body Hd Hb _. eapply meta_nopre; eauto.
  - discriminate.
Qed.

Theorem read_source fuel g log text d : meta_annotated g -> read_text fuel g log text = Ok (Rules d) -> src_data d.
Proof.
  intros Hg H. unfold read_text in H. binv H. rename a into r, Hm into Hp.
  assert (Hd : src_data (rs_dt r)).
  { unfold def_parse in Hp. cbn [meta_parser p_ws bind] in Hp. cbv zeta in Hp.
    set (E := mk_env (meta_parser g log) text) in *. binv Hp.
    pose proof (lc_u0 _ _ _ (meta_located g log text Hg)) as H0. cbn in H0.
    assert (Hk : src_data (c_dt k)).
    { refine (li_dt _ _ _ _ (proj1 (parse_loc src_loc src_wide src_data fuel E _ 0 0 _ _ _ _ _ (meta_located g log text Hg) (meta_scoped g log text Hg) _ _ _ _ Hm)));
        [reflexivity| |now left|apply (vok_new _ src_wide)].
      constructor; cbn; [discriminate|discriminate|exact H0]. }
    clear -Hp Hk. destruct r0 as [n|]; [destruct (_ && _); inv Hp; [destruct (olt _ _)|]|inv Hp]; exact Hk. }
  repeat match type of H with (match ?x with _ => _ end) = _ => destruct x; try discriminate H end. injection H as <-. exact Hd.
Qed.
