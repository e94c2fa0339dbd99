(** * Reading a grammar text ends (C49). *)
From Verif Require Import Base BaseLemmas Utf8 Utf8Spec Escape TrieM LineInfo Ope Ctx ErrLog Engine EngineLemmas Top Frame Scope TopFacts
  RefSem Refine TopRef Mono GrammarCond LrSpec LrRef PegDen PegRef PegEngine FirstSetM FirstSpec FirstSem FirstSetup FirstAnn FirstTop FirstCheck PackratFilter PrecSpec PrecM LoadM LoadSpec LoadTop MetaM MetaSource.
From Verif Require Import PegSpec PegFacts.

(** ** An executable test of well-formedness of a PEG *)
Section Wf.
  Context {NT : Type} (G : NT -> pexp NT) (nul : NT -> bool) (rank : NT -> nat) (Rb : NT -> bool) (ok_lit : bytes -> bool).
  Hypothesis Hlit : forall w, ok_lit w = true -> valid_utf8 w.
  Fixpoint nulb (e : pexp NT) : bool :=
    match e with
    | PNot PEps => false                   (* PFail *)
    | PEps | PStar _ | PNot _ => true
    | PLit _ w => match w with [] => true | _ => false end
    | PChr _ => false
    | PNT n => nul n
    | PSeq a b => if nulb a then nulb b else false
    | PAlt a b => if nulb a then true else nulb b
    end.
  Fixpoint leftb (e : pexp NT) : list NT :=
    match e with
    | PEps | PLit _ _ | PChr _ => []
    | PNT n => [n]
    | PSeq a b => if nulb a then leftb a ++ leftb b else leftb a
    | PAlt a b => leftb a ++ leftb b
    | PStar a | PNot a => leftb a
    end.
  Fixpoint wfb (e : pexp NT) : bool :=
    match e with
    | PEps | PChr _ => true
    | PLit _ w => ok_lit w
    | PNT n => Rb n
    | PSeq a b | PAlt a b => if wfb a then wfb b else false
    | PStar a => if nulb a then false else wfb a
    | PNot a => wfb a
    end.
  Definition nt_ok (n : NT) : bool :=
    if wfb (G n) then if forallb (fun n' => rank n' <? rank n) (leftb (G n)) then if nulb (G n) then nul n else true else false else false.
  Hypothesis Hok : forall n, Rb n = true -> nt_ok n = true.

  Lemma nulb_sound e s r : peg G e s r -> wfb e = true -> r = Some s -> nulb e = true.
  Proof.
    induction 1; intros Hw Hr; cbn [nulb wfb] in *; try reflexivity; try discriminate.
    - destruct w as [|b w]; [reflexivity|exfalso]. injection Hr as Hr. symmetry in Hr. apply app_nil_of in Hr. subst x. apply same_length in H. discriminate.
    - injection Hr as Hr. symmetry in Hr. apply app_nil_of in Hr. exfalso. eapply chr_nonempty; eauto.
    - pose proof (Hok n Hw) as X. unfold nt_ok in X. destruct (wfb (G n)) eqn:E1; [|discriminate]. destruct (forallb _ _); [|discriminate].
      rewrite (IHpeg eq_refl Hr) in X. exact X.
    - destruct (wfb a) eqn:E1; [|discriminate]. subst r.
      pose proof (peg_shorter G _ _ _ H) as X1. pose proof (peg_shorter G _ _ _ H0) as X2.
      assert (t = s) as -> by (destruct X1 as [X1|X1]; [exact X1|]; destruct X2 as [X2|X2]; [now symmetry|lia]).
      rewrite (IHpeg1 eq_refl eq_refl), (IHpeg2 Hw eq_refl). reflexivity.
    - destruct (wfb a) eqn:E1; [|discriminate]. now rewrite (IHpeg eq_refl Hr).
    - destruct (wfb a) eqn:E1; [|discriminate]. rewrite (IHpeg2 Hw Hr). now destruct (nulb a).
    - destruct a; try reflexivity. inversion H.
  Qed.
  Lemma empty_nulb e : wfb e = true -> can_be_empty G e -> nulb e = true.
  Proof. intros Hw [s Hs]. eapply nulb_sound; eauto. Qed.
  Lemma left_sound e : wfb e = true -> forall n, left_call G e n -> In n (leftb e).
  Proof.
    induction e; cbn [wfb left_call leftb]; intros Hw n0 H; try contradiction.
    - now left.
    - destruct (wfb e1) eqn:E1; [|discriminate]. destruct H as [H|[H1 H2]].
      + destruct (nulb e1); [apply in_or_app; left|]; auto.
      + rewrite (empty_nulb e1 E1 H1). apply in_or_app. right. auto.
    - destruct (wfb e1) eqn:E1; [|discriminate]. apply in_or_app. destruct H; auto.
    - destruct (nulb e); [discriminate|]. auto.
    - auto.
  Qed.
  Lemma wfb_sound e : wfb e = true -> well_formed_exp G (fun n => Rb n = true) e.
  Proof.
    induction e; cbn [wfb well_formed_exp]; intros Hw; auto.
    - destruct (wfb e1) eqn:E1; [|discriminate]. auto.
    - destruct (wfb e1) eqn:E1; [|discriminate]. auto.
    - destruct (nulb e) eqn:E1; [discriminate|]. split; [|auto]. intros H. apply (empty_nulb e Hw) in H. congruence.
  Qed.
  Lemma closed e : wfb e = true -> forall n, In n (leftb e) -> Rb n = true.
  Proof.
    induction e; cbn [wfb leftb]; intros Hw n0 H; try contradiction.
    - destruct H as [-> | []]. exact Hw.
    - destruct (wfb e1) eqn:E1; [|discriminate]. destruct (nulb e1); [apply in_app_or in H as [H|H]|]; auto.
    - destruct (wfb e1) eqn:E1; [|discriminate]. apply in_app_or in H as [H|H]; auto.
    - destruct (nulb e); [discriminate|]. auto.
    - auto.
  Qed.
  Theorem checked_well_formed : well_formed G (fun n => Rb n = true).
  Proof.
    intros n Hn. pose proof (Hok n Hn) as X. unfold nt_ok in X. destruct (wfb (G n)) eqn:E1; [|discriminate]. split; [now apply wfb_sound|].
    clear X. assert (HA : forall k n, rank n < k -> Rb n = true -> Acc (fun n' n => left_call G (G n) n') n).
    { induction k as [|k IH]; intros m Hk Hm; [lia|]. constructor. intros n' H'.
      pose proof (Hok m Hm) as X. unfold nt_ok in X. destruct (wfb (G m)) eqn:E; [|discriminate]. destruct (forallb _ _) eqn:E2; [|discriminate].
      apply (left_sound _ E) in H'. rewrite forallb_forall in E2. pose proof (E2 n' H') as Hr. apply Nat.ltb_lt in Hr.
      apply IH; [lia|]. eapply closed; eauto. }
    apply (HA (S (rank n))); [lia|assumption].
  Qed.
End Wf.

(** ** The meta-grammar as a PEG does not depend on its annotations *)
Fixpoint noref (o : ope) : bool :=
  match o with
  | Seq _ l | Cho _ _ l => forallb noref l
  | Rep e _ _ _ | And e | Not e | Csc e | Cap _ e | Tok e | Ign e | Wsp e | Rcv e => noref e
  | Ref _ _ _ _ _ | Pre _ _ _ _ => false
  | _ => true
  end.
Lemma den_strip g g' ws fr m o : noref (strip o) = true -> den g ws fr m o = den g' ws fr m (strip o).
Proof.
  revert m. induction o using ope_ind'; intros m0 Hn; cbn [strip noref den] in *; try reflexivity; try discriminate;
    try (repeat match goal with IH : forall m, _ -> _ = _ |- _ => rewrite (IH _ Hn) end; reflexivity).
  - f_equal. rewrite map_map. apply map_ext_in. intros x Hx. rewrite Forall_forall in H. apply H; [exact Hx|].
    rewrite forallb_forall in Hn. apply Hn. now apply in_map.
  - f_equal. rewrite map_map. apply map_ext_in. intros x Hx. rewrite Forall_forall in H. apply H; [exact Hx|].
    rewrite forallb_forall in Hn. apply Hn. now apply in_map.
Qed.
Lemma peg_meta g r m : strip_grammar g = meta_grammar -> peg_of g None (NRule r m) = peg_of meta_grammar None (NRule r m).
Proof.
  intros Hg. cbn [peg_of]. rewrite <- Hg. unfold strip_grammar. rewrite nth_error_map. destruct (nth_error g r) as [d|] eqn:Hd; [|reflexivity].
  cbn [option_map strip_rule with_body r_body r_is_macro r_lr r_no_whitespace r_params]. destruct (r_body d) as [b|] eqn:Hb; [|reflexivity]. cbn [option_map].
  assert (Hn : noref (strip b) = true).
  { destruct (strip_nth _ _ _ Hd) as (d0 & Hd0 & Hb0). rewrite Hg in Hd0. rewrite Hb in Hb0. cbn in Hb0.
    assert (X : forallb (fun d => match r_body d with Some b => noref b | None => true end) meta_grammar = true) by (vm_compute; reflexivity).
    rewrite forallb_forall in X. specialize (X d0 (nth_error_In _ _ Hd0)). now rewrite Hb0 in X. }
  destruct (r_is_macro d || r_lr d); [reflexivity|].
  destruct (r_no_whitespace d); unfold skips; now rewrite (den_strip g (map strip_rule g) None _ _ b Hn).
Qed.

(** ** The meta-grammar is well-formed *)
Definition meta_R (n : PegDen.nt) : bool :=
  match n with NRule r m => if m_tok m then false else if m_ws m then false else r <? List.length meta_grammar | NSkip m => true | _ => false end.
Definition meta_empty (n : PegDen.nt) : bool := match n with NRule r _ => meta_nul r | _ => true end.
Definition meta_ranks : list nat :=
  (fix it k t :=
     match k with
     | O => t
     | S k' => it k' (map (fun r => fold_right Nat.max 0 (map (fun n => match n with NRule r' _ => S (nth r' t 0) | _ => 1 end)
                                      (leftb meta_empty (peg_of meta_grammar None (NRule r m_top))))) (List.seq 0 (List.length meta_grammar)))
     end) 12 (repeat 0 (List.length meta_grammar)).
Definition meta_rank (n : PegDen.nt) : nat := match n with NRule r _ => S (nth r meta_ranks 0) | _ => 0 end.
Definition meta_lit (w : bytes) : bool :=
  if forallb (fun b => (bN b <? 128)%N) w then true
  else existsb (bytes_eqb w) [up_arrow; up_double; left_arrow].
Lemma meta_checked : forallb (fun r => nt_ok (peg_of meta_grammar None) meta_empty meta_rank meta_R meta_lit (NRule r m_top)) (List.seq 0 (List.length meta_grammar)) = true.
Proof. vm_compute. reflexivity. Qed.
Lemma ascii_text_valid w : forallb (fun b => (bN b <? 128)%N) w = true -> valid_utf8 w.
Proof.
  intros H. rewrite forallb_forall in H. exists (map bN w). split.
  - apply Forall_map, Forall_forall. intros b Hb. specialize (H b Hb). apply N.ltb_lt in H. unfold scalar. lia.
  - induction w as [|b w IH]; [reflexivity|]. cbn [map flat_map List.concat]. rewrite <- IH by (intros; apply H; now right).
    unfold rfc3629. pose proof (H b (or_introl eq_refl)) as Hb. apply N.ltb_lt in Hb. replace (bN b <=? 0x7F)%N with true by (symmetry; apply N.leb_le; lia). reflexivity.
Qed.
Lemma meta_lit_valid w : meta_lit w = true -> valid_utf8 w.
Proof.
  unfold meta_lit. destruct (forallb _ w) eqn:E; [intros _; now apply ascii_text_valid|]. intros H. apply existsb_exists in H as (x & Hx & He).
  apply bytes_eqb_eq in He. subst x. destruct Hx as [<- | [<- | [<- | []]]]; [exists [0x2191]%N|exists [0x21D1]%N|exists [0x2190]%N];
    (split; [constructor; [unfold scalar; lia|constructor]|vm_compute; reflexivity]).
Qed.

Lemma meta_core g log : meta_annotated g -> core_parser (fun _ => m_top) [] (meta_parser g log).
Proof.
  intros (k & n & order & H).
  refine (annotated_core (meta_parser meta_grammar log) None k n order g _ _ H meta_no_empty_recursion (fun _ => m_top) [] eq_refl _);
    [vm_compute; reflexivity|reflexivity|].
  constructor.
  - vm_compute. reflexivity.
  - exact I.
  - split; [reflexivity|]. eexists. split; reflexivity.
  - exact I.
  - reflexivity.
  - discriminate.
Qed.
Lemma meta_anns g log text : meta_annotated g -> valid_utf8 text -> anns_parser (meta_parser g log) text.
Proof.
  intros (k & n & order & H) Hu.
  refine (annotated_anns (meta_parser meta_grammar log) None k n order g text true _ _ H meta_no_empty_recursion (utf8_plain text Hu) _ _ _ _ eq_refl).
  - vm_compute; reflexivity.
  - reflexivity.
  - discriminate.
  - exact (certified_alternatives _ _ _ _ _ _ _ meta_certified).
  - exact (certified_spans _ _ _ _ _ _ _ meta_certified).
  - apply no_guards_sound. exact (certified_guards _ _ _ _ _ _ _ meta_certified eq_refl).
Qed.
Lemma meta_flags g r d : meta_annotated g -> nth_error g r = Some d -> r_lr d = false.
Proof.
  intros Hg Hd. assert (X : forallb (fun d => negb (r_lr d)) meta_grammar = true) by (vm_compute; reflexivity).
  rewrite <- (meta_strip g Hg) in X. rewrite forallb_forall in X. unfold strip_grammar in X.
  specialize (X (strip_rule d) (in_map strip_rule g d (nth_error_In _ _ Hd))). cbn in X. now destruct (r_lr d).
Qed.
Lemma meta_well_formed g log : meta_annotated g -> well_formed (peg_grammar (meta_parser g log)) (fun n => meta_R n = true).
Proof.
  intros Hg. apply (checked_well_formed _ meta_empty meta_rank meta_R meta_lit meta_lit_valid).
  intros n Hn. unfold nt_ok. cbn [meta_parser p_g p_ws peg_grammar].
  assert (Hn' : peg_grammar (meta_parser g log) n = peg_of meta_grammar None n).
  { unfold peg_grammar. cbn [meta_parser p_g p_ws]. rewrite iterate_none by (intros d Hd; apply In_nth_error in Hd as [r Hd]; eapply meta_flags; eauto).
    destruct n; try discriminate Hn; [|reflexivity]. apply peg_meta. now apply meta_strip. }
  rewrite Hn'. pose proof meta_checked as X. rewrite forallb_forall in X.
  destruct n as [r m| | |m|td|]; try discriminate Hn; [|reflexivity]. destruct m as [mt mw]. cbn [meta_R m_tok m_ws] in Hn. destruct mt, mw; try discriminate Hn.
  apply Nat.ltb_lt in Hn. specialize (X r ltac:(apply in_seq; lia)). exact X.
Qed.

Theorem read_ends g log text : meta_annotated g -> valid_utf8 text ->
  exists r F, forall fuel, F <= fuel -> read_text fuel g log text = Ok r.
Proof.
  intros Hg Hu.
  destruct (engine_terminates (meta_parser g log) text data0 (fun _ => m_top) [] (fun n => meta_R n = true)) as (b & reps & res & F & H); auto.
  - now apply meta_core.
  - now apply meta_anns.
  - now apply meta_well_formed.
  - assert (X : exists r0, forall fuel, F <= fuel -> def_parse fuel (meta_parser g log) text data0 = Ok r0).
    { destruct (def_parse F (meta_parser g log) text data0) as [r0| | |] eqn:E.
      - exists r0. intros fuel Hf. exact (below_Ok _ _ _ (def_parse_below F fuel (meta_parser g log) text data0 Hf) E).
      - specialize (H F (Nat.le_refl _)). unfold parser_parse in H. rewrite E in H. discriminate.
      - specialize (H F (Nat.le_refl _)). unfold parser_parse in H. rewrite E in H. discriminate.
      - specialize (H F (Nat.le_refl _)). unfold parser_parse in H. rewrite E in H. discriminate. }
    destruct X as [r0 X].
    assert (Y : exists r, forall fuel, F <= fuel -> read_text fuel g log text = Ok r); [|destruct Y as [r Y]; eauto].
    unfold read_text. destruct (d_fail (rs_dt r0)) as [[]|] eqn:E1; [exists Refused|exists Broke|]; try (intros fuel Hf; rewrite (X fuel Hf); cbn [bind]; rewrite E1; reflexivity).
    destruct (rs_ret r0) eqn:E2; [|exists Refused; intros fuel Hf; rewrite (X fuel Hf); cbn [bind]; rewrite E1, E2; reflexivity].
    destruct (d_dup_defs (rs_dt r0)) eqn:E3, (d_dup_instrs (rs_dt r0)) eqn:E4, (d_undef (rs_dt r0)) eqn:E5; eexists; intros fuel Hf; rewrite (X fuel Hf); cbn [bind];
      rewrite E1, E2, E3, ?E4, ?E5; reflexivity.
Qed.
