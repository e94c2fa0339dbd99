(** * The parse of a grammar text as a run with its data.
    What the engine does on a grammar text is a run (Run.v) over the plain meta-grammar:
    annotations, fuel and the parsing context are gone. *)
From Verif Require Import Base BaseLemmas Utf8 Utf8Spec Utf8Proofs Escape TrieM LineInfo Ope Ctx ErrLog Engine EngineLemmas Top Frame Scope Bounds Mono TopFacts
  RefSem RefMono Refine RefineOps RefineRule RefineMain TopRef IdsFacts GrammarCond LrSpec PegDen PegRef PegEngine FirstSetM FirstSpec FirstSem FirstSetup FirstAnn FirstTop FirstCheck PackratFilter PrecSpec PrecM LoadM
  LoadSpec LoadTop MetaM MetaSource MetaTerm Run.
From Verif Require Import PegSpec PegFacts.

Definition meta_rules (r : rid) : option (bool * N * ope) :=
  match nth_error syms r with Some s => Some (sym_ignored s, str2tag (sym_name s), sym_body s) | None => None end.

(** Bodies are simple, whatever the annotations. *)
Fixpoint plain_body (o : ope) : bool :=
  match o with
  | Seq _ l => match kw_guard_of meta_grammar l with None => forallb plain_body l | Some _ => false end
  | Cho _ _ l => forallb plain_body l
  | Rep e _ _ _ | And e | Not e | Tok e | Ign e => plain_body e
  | Lit _ _ | Cls _ _ _ | Chr _ | Dot | Wkh _ => true
  | _ => false
  end.
Lemma plain_simple o : good_ann meta_grammar o -> plain_body (strip o) = true -> simple o = true.
Proof.
  induction o using ope_ind'; cbn [good_ann strip plain_body simple]; intros Hg Hp; try discriminate; try reflexivity; auto.
  - destruct Hg as [Hk Hl]. apply good_ann_all in Hl. destruct (kw_guard_of meta_grammar (map strip l)) eqn:Ek; [discriminate|].
    assert (kg = None) as -> by (destruct Hk; congruence). rewrite forallb_forall in *. rewrite Forall_forall in *. intros x Hx. apply H; auto. apply Hp. now apply in_map.
  - destruct Hg as [_ Hl]. apply good_ann_all in Hl. rewrite forallb_forall in *. rewrite Forall_forall in *. intros x Hx. apply H; auto. apply Hp. now apply in_map.
  - destruct Hg as [[-> | (rs & neg & ic & -> & ->)] Hl]; [auto|]. destruct (ascii_bitset rs neg ic); reflexivity.
Qed.

Section MetaRun.
  Variables (g : grammar) (log : bool) (text : bytes).
  Hypothesis Hg : meta_annotated g.
  Hypothesis Hu : valid_utf8 text.
  Notation P := (meta_parser g log).
  Notation E := (mk_env P text).
  #[local] Instance keep_values : keepvals := true.

  Lemma meta_rule r d b : nth_error g r = Some d -> r_body d = Some b ->
    exists s, nth_error syms r = Some s /\ strip_rule d = plain_rule (sym_name s) (sym_body s) (sym_ignored s) /\ strip b = sym_body s /\ simple b = true.
  Proof.
    intros Hd Hb. assert (X : nth_error meta_grammar r = Some (strip_rule d)).
    { rewrite <- (meta_strip g Hg). unfold strip_grammar. now rewrite nth_error_map, Hd. }
    assert (Y := X). unfold meta_grammar in X. rewrite nth_error_map in X. destruct (nth_error syms r) as [s|] eqn:Hs; [|discriminate]. cbn [option_map] in X.
    assert (X' : plain_rule (sym_name s) (sym_body s) (sym_ignored s) = strip_rule d) by congruence. clear X. rename X' into X. exists s. split; [reflexivity|]. split; [now symmetry|].
    assert (Hsb : strip b = sym_body s).
    { pose proof (f_equal r_body X) as Z. cbn [plain_rule r_body strip_rule with_body] in Z. rewrite Hb in Z. cbn in Z. now injection Z as ->. }
    split; [exact Hsb|]. apply plain_simple.
    - destruct Hg as (k & n & order & H). assert (Hbare : bare_grammar meta_grammar = true) by (vm_compute; reflexivity).
      apply (proj2 (setup_good meta_grammar meta_no_empty_recursion Hbare k n order g H) r d b). split; assumption.
    - rewrite Hsb. clear. assert (Z : forall s, In s syms) by (intros []; cbn; tauto).
      assert (W : forallb (fun s => plain_body (sym_body s)) syms = true) by (vm_compute; reflexivity).
      rewrite forallb_forall in W. apply W, Z.
  Qed.
  Lemma cov_strip (L : rid -> Prop) (c q : Prop) o : cov L c q o -> simple o = true -> cov L c q (strip o).
  Proof.
    induction o using ope_ind'; cbn [cov strip simple]; intros H1 H2; try discriminate; auto.
    - destruct kg; [discriminate|]. induction H as [|x l Hx _ IH]; cbn in *; [exact I|]. apply andb_prop in H2 as [H2 H3]. destruct H1. auto.
    - induction H as [|x l Hx _ IH]; cbn in *; [exact I|]. apply andb_prop in H2 as [H2 H3]. destruct H1. auto.
    - destruct sp; [|auto]. destruct o; try discriminate; exact H1.
  Qed.
  Lemma meta_strict : ~ loose E.
  Proof.
    intros [X|[X _]]; [|discriminate X]. cbn in X. unfold recognize_only in X. apply andb_prop in X as [_ X]. rewrite forallb_forall in X.
    destruct (definition_ids_spec (p_g P) (p_start P) (p_ws P) (p_word P)) as (A & B & _). specialize (B _ A).
    assert (Y : In (sid SDefinition) (id_list (definition_ids (p_g P) (p_start P) (p_ws P) (p_word P)))).
    { unfold closed_at in B. cbn [meta_parser p_g p_start] in *.
      assert (Z : nth_error meta_grammar (sid SGrammar) = Some (plain_rule (sym_name SGrammar) (sym_body SGrammar) (sym_ignored SGrammar))) by reflexivity.
      rewrite <- (meta_strip g Hg) in Z. unfold strip_grammar in Z. rewrite nth_error_map in Z. destruct (nth_error g (sid SGrammar)) as [d|] eqn:Hd; [|discriminate].
      cbn [option_map] in Z. destruct (r_body d) as [b|] eqn:Hb; [|exfalso; apply (f_equal (option_map r_body)) in Z; cbn in Z; rewrite Hb in Z; discriminate Z].
      destruct (meta_rule _ _ _ Hd Hb) as (s & Hs & _ & Hsb & Hsim). injection Hs as <-.
      pose proof (cov_strip _ _ _ _ (B d b eq_refl Hb) Hsim) as W. rewrite Hsb in W. cbn in W. tauto. }
    apply X in Y. discriminate Y.
  Qed.
  Lemma meta_pure : pure E.
  Proof.
    constructor; cbn.
    - intros r f inp vs u u' pd Hf. unfold meta_action in Hf. destruct (nth_error syms r) as [s|]; [|discriminate]. destruct (has_action s); [|discriminate]. injection Hf as <-.
      unfold run_action. destruct s; try reflexivity; match goal with |- context [match ?m with Some _ => _ | None => _ end] => destruct m as [[v|]|] end; reflexivity.
    - discriminate.
    - intros r f inp pos n v u u' Hf. unfold meta_leave in Hf. destruct (nth_error syms r) as [[]|]; try discriminate; injection Hf as <-; reflexivity.
  Qed.
  Lemma meta_okA : okA E (core_modes g (fun _ => m_top) []) no_modes.
  Proof.
    apply (core_okA (fun _ => m_top) [] P text); [now apply meta_core|now apply meta_anns|right; apply meta_pure|reflexivity].
  Qed.
  Lemma meta_get_body : forall r d b, get_body E r = Some (d, b) ->
    r_is_macro d = false /\ r_lr d = false /\ r_no_whitespace d = false /\ r_macro_ref d = false /\ r_disable_action d = false /\ r_params d = []
    /\ simple b = true /\ meta_rules r = Some (r_ignore d, str2tag (r_name d), strip b).
  Proof.
    intros r d b H. apply get_body_inv in H as [Hd Hb]. destruct (meta_rule r d b Hd Hb) as (s & Hs & Hr & Hsb & Hsim).
    unfold meta_rules. rewrite Hs, Hsb. destruct d. cbn in *. injection Hr. intros. subst. repeat (split; [reflexivity|]). split; [assumption|reflexivity].
  Qed.

  (** The parse of the text: some run of the meta-grammar, and every engine run shows its
      result. *)
  Theorem meta_runs : exists k x d F r,
    run E meta_rules k (Hld (sid SGrammar)) 0 sv_new data0 x d
    /\ (forall fuel, F <= fuel -> def_parse fuel P text data0 = Ok r)
    /\ rs_dt r = d /\ rs_ret r = match x with Some (n, _) => n =? List.length text | None => false end.
  Proof.
    destruct (peg_total (peg_grammar P) (fun n => meta_R n = true) (meta_well_formed g log Hg) (start_of P) text Hu) as [r Hr].
    { split; reflexivity. }
    destruct (peg_ref_top_none P text r (fun _ => m_top) [] eq_refl (meta_core g log Hg) (meta_anns g log text Hg Hu) (fun _ => eq_refl) Hr) as (k & y & A & _).
    assert (Hal : core_modes g (fun _ => m_top) [] (p_start P) m_top).
    { destruct (cp_start _ _ _ (meta_core g log Hg)) as [H1 (d & Hd & Hm)]. cbn. cbn in Hd. rewrite Hd, Hm. exact H1. }
    destruct (def_parse_ref k P text data0 _ _ y meta_okA Hal A) as (res & B & C & _).
    unfold ref_top in A. cbn in A. oinv A. rename a into x, Hm into Hx.
    destruct B as [F B]. pose proof (B F (Nat.le_refl _)) as Hf. unfold def_parse in Hf. cbn [meta_parser p_ws bind] in Hf. cbv zeta in Hf. binv Hf.
    exists k, x, (c_dt k0), F, res. split; [|split; [exact B|split]].
    - refine (all_sims E meta_rules _ _ meta_okA meta_strict eq_refl eq_refl eq_refl _ eq_refl (fun _ => eq_refl) meta_get_body k (Hld (sid SGrammar)) 0 sv_new x _ F _ _ _ _ _ Hx _ _ Hm).
      + cbn. destruct (recognize_only P) eqn:X; [|reflexivity]. exfalso. apply meta_strict. left. exact X.
      + right. eauto.
      + split; [exact Hal|]. intros d Hd. unfold top_args. cbn. destruct (r_is_macro d); auto.
      + exact (inv_new k E _ log data0 false).
      + lia.
    - clear -Hf. destruct r0 as [n|]; [destruct (_ && _); inv Hf; [destruct (olt _ _)|]|inv Hf]; reflexivity.
    - rewrite C. inv A. destruct x as [[? ?]|]; reflexivity.
  Qed.
End MetaRun.
