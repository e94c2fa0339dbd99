(** * Inlining macro calls does not change the meaning of a grammar. *)
From Verif Require Import Base BaseLemmas Utf8 Escape TrieM TrieProofs LineInfo Ope Ctx ErrLog Engine EngineLemmas Scope RefSem RefMono RefWord Refine RefineOps RefineMain LrRef MacroSpec.

Section Fill.
  Variable g : grammar.
  Definition params_of_g (ps : list bytes) : Prop := ps = [] \/ exists d, In d g /\ r_params d = ps.

  Lemma fill_closed o : forall args b, named g [] b o = true -> fill args o = o.
  Proof.
    assert (Hl : forall l, Forall (fun o => forall args b, named g [] b o = true -> fill args o = o) l ->
      forall args b, forallb (named g [] b) l = true -> map (fill args) l = l).
    { induction 1 as [|a l H1 H2 IH]; intros args b Hf; cbn in *; [reflexivity|]. apply andb_prop in Hf as [A B]. rewrite (H1 args b A), (IH args b B). reflexivity. }
    induction o using ope_ind'; intros args0 b Hn; cbn [named fill] in *; try reflexivity; try discriminate; try (f_equal; eauto; fail).
    - destruct kg; [discriminate|]. f_equal. eauto.
    - destruct fl; [discriminate|]. destruct fs; [|discriminate]. f_equal. eauto.
    - destruct sp; [discriminate|]. f_equal. eauto.
    - destruct rl as [r|]; [|destruct args; discriminate]. apply andb_prop in Hn as [Hn _]. apply andb_prop in Hn as [_ Hn].
      assert (X : forallb (named g [] true) args = true) by (destruct b; exact Hn). f_equal. eauto.
  Qed.
  Lemma named_body o : named g [] true o = true -> named g [] false o = true.
  Proof.
    assert (Hl : forall l, Forall (fun o => named g [] true o = true -> named g [] false o = true) l ->
      forallb (named g [] true) l = true -> forallb (named g [] false) l = true).
    { induction 1 as [|a l H1 H2 IH]; intros Hf; cbn in *; [reflexivity|]. apply andb_prop in Hf as [A B]. now rewrite H1, IH. }
    induction o using ope_ind'; intros Hn; cbn [named] in *; auto.
    - destruct kg; auto.
    - destruct fl; auto. destruct fs; auto.
    - destruct sp; auto.
  Qed.
  Lemma index_nth {A} ps n i (l : list A) : param_index ps n = Some i -> List.length l = List.length ps -> exists a, nth_error l i = Some a.
  Proof.
    revert i l. induction ps as [|p ps IH]; intros i l H Hl; cbn in *; [discriminate|]. destruct l as [|a l]; [discriminate|].
    destruct (bytes_eqb p n); [inv H; cbn; eauto|]. destruct (param_index ps n) as [j|]; [|discriminate]. inv H. cbn. apply IH; auto.
  Qed.
  Lemma nth_some {A} (l : list A) i a d : nth_error l i = Some a -> nth i l d = a.
  Proof. revert i. induction l as [|x l IH]; intros [|i] H; cbn in *; try discriminate; [congruence|auto]. Qed.
  Lemma find_param_index ps n i args a : param_index ps n = Some i -> nth_error args i = Some a -> find_param ps args n = Ok (Some a).
  Proof.
    revert i args. induction ps as [|p ps IH]; intros i args H Ha; cbn in *; [discriminate|].
    destruct (bytes_eqb p n) eqn:He.
    - inv H. destruct args as [|x args]; [discriminate|]. inv Ha. cbn [find_param]. try rewrite He. reflexivity.
    - destruct (param_index ps n) as [j|]; [|discriminate]. inv H. destruct args as [|x args]; [discriminate|]. cbn [find_param]. try rewrite He. eauto.
  Qed.
  Lemma find_param_none ps n args : List.length args = List.length ps -> existsb (fun p => bytes_eqb p n) ps = false -> find_param ps args n = Ok None.
  Proof.
    revert args. induction ps as [|p ps IH]; intros [|x args] Hl H; cbn in *; try discriminate; [reflexivity|].
    apply orb_false_iff in H as [H1 H2]. rewrite H1. auto.
  Qed.
  Lemma hygienic_ps ps n : params_of_g ps -> hygienic g n = true -> existsb (fun p => bytes_eqb p n) ps = false.
  Proof.
    intros [->|(d & Hd & <-)] H; [reflexivity|]. unfold hygienic in H. rewrite forallb_forall in H. specialize (H d Hd). now apply negb_true_iff in H.
  Qed.
  (** FindReference computes [fill]. *)
  Lemma find_fill ps args o : params_of_g ps -> List.length args = List.length ps -> named g ps true o = true -> find_reference ps args o = Ok (fill args o).
  Proof.
    intros Hps Hl.
    assert (Hlist : forall l, Forall (fun o => named g ps true o = true -> find_reference ps args o = Ok (fill args o)) l ->
      forallb (named g ps true) l = true -> find_references ps args l = Ok (map (fill args) l)).
    { induction 1 as [|a l H1 H2 IH]; intros Hf; cbn in *; [reflexivity|]. apply andb_prop in Hf as [A B]. rewrite H1 by assumption. cbn [bind]. rewrite IH by assumption. reflexivity. }
    induction o using ope_ind'; intros Hn; try (cbn [named] in Hn; try discriminate; cbn [find_reference fill]; try reflexivity; rewrite IHo by assumption; reflexivity).
    - rewrite find_reference_seq. cbn [named] in Hn. destruct kg; [discriminate|]. rewrite Hlist by assumption. reflexivity.
    - rewrite find_reference_cho. cbn [named] in Hn. destruct fl; [discriminate|]. destruct fs; [|discriminate]. rewrite Hlist by assumption. reflexivity.
    - cbn [named] in Hn. destruct sp; [discriminate|]. cbn [find_reference fill]. rewrite IHo by assumption. reflexivity.
    - cbn [named find_reference] in *. destruct rl as [r|].
      + apply andb_prop in Hn as [Hn _]. apply andb_prop in Hn as [H1 H2]. rewrite (find_param_none _ _ _ Hl (hygienic_ps _ _ Hps H1)). cbn [bind fill].
        f_equal. f_equal. clear -H2. induction args0 as [|a l IH]; cbn in *; [reflexivity|]. apply andb_prop in H2 as [A B]. f_equal; [|auto].
        symmetry. eapply fill_closed; eauto.
      + match type of Hn with match ?l with [] => _ | _ => _ end = true => destruct l; [|discriminate] end. destruct (param_index ps n) as [j|] eqn:Hj; [|discriminate]. apply Nat.eqb_eq in Hn. subst j.
        destruct (index_nth _ _ _ args Hj Hl) as [a Ha]. rewrite (find_param_index _ _ _ _ _ Hj Ha). cbn [bind fill]. now rewrite (nth_some _ _ _ _ Ha).
  Qed.
End Fill.

Section Inversions.
  Variable g : grammar.
  Lemma inlines_refl_l l : Forall2 (inlines g) l l.
  Proof. induction l; constructor; auto using il_same. Qed.
  Lemma il_seq_inv kg l o : inlines g (Seq kg l) o -> exists l', o = Seq kg l' /\ Forall2 (inlines g) l l'.
  Proof. intros H; inversion H; subst; eauto using inlines_refl_l. Qed.
  Lemma il_cho_inv fl fs l o : inlines g (Cho fl fs l) o -> exists l', o = Cho fl fs l' /\ Forall2 (inlines g) l l'.
  Proof. intros H; inversion H; subst; eauto using inlines_refl_l. Qed.
  Lemma il_rep_inv e mn mx sp o : inlines g (Rep e mn mx sp) o -> exists e', o = Rep e' mn mx sp /\ inlines g e e'.
  Proof. intros H; inversion H; subst; eauto using il_same. Qed.
  Lemma il_and_inv e o : inlines g (And e) o -> exists e', o = And e' /\ inlines g e e'.
  Proof. intros H; inversion H; subst; eauto using il_same. Qed.
  Lemma il_not_inv e o : inlines g (Not e) o -> exists e', o = Not e' /\ inlines g e e'.
  Proof. intros H; inversion H; subst; eauto using il_same. Qed.
  Lemma il_csc_inv e o : inlines g (Csc e) o -> exists e', o = Csc e' /\ inlines g e e'.
  Proof. intros H; inversion H; subst; eauto using il_same. Qed.
  Lemma il_cap_inv n e o : inlines g (Cap n e) o -> exists e', o = Cap n e' /\ inlines g e e'.
  Proof. intros H; inversion H; subst; eauto using il_same. Qed.
  Lemma il_tok_inv e o : inlines g (Tok e) o -> exists e', o = Tok e' /\ inlines g e e'.
  Proof. intros H; inversion H; subst; eauto using il_same. Qed.
  Lemma il_ign_inv e o : inlines g (Ign e) o -> exists e', o = Ign e' /\ inlines g e e'.
  Proof. intros H; inversion H; subst; eauto using il_same. Qed.
  Lemma il_ref_inv n r i mc args o : inlines g (Ref n (Some r) i mc args) o -> o = Ref n (Some r) i mc args
    \/ exists d body, nth_error g r = Some d /\ r_is_macro d = true /\ r_lr d = false /\ r_body d = Some body
         /\ List.length args = List.length (r_params d) /\ inlines g (fill args body) o.
  Proof. intros H; inversion H; subst; eauto 10. Qed.
  Lemma named_weaken ps o : forall b, named g [] true o = true -> named g ps b o = true.
  Proof.
    assert (Hl : forall l, Forall (fun o => forall b, named g [] true o = true -> named g ps b o = true) l ->
      forall b, forallb (named g [] true) l = true -> forallb (named g ps b) l = true).
    { induction 1 as [|a l H1 H2 IH]; intros b Hf; cbn in *; [reflexivity|]. apply andb_prop in Hf as [A B]. now rewrite H1, IH. }
    induction o using ope_ind'; intros b Hn; cbn [named] in *; auto.
    - destruct kg; auto.
    - destruct fl; auto. destruct fs; auto.
    - destruct sp; auto.
    - destruct rl as [r|]; [|destruct args; discriminate]. apply andb_prop in Hn as [Hn H3]. apply andb_prop in Hn as [H1 H2]. rewrite H1, H3, andb_true_r. cbn.
      destruct b; [exact H2|]. auto.
  Qed.
  (** Filling in closed arguments gives a closed expression. *)
  Lemma fill_named ps args o : Forall (fun a => named g [] true a = true) args -> List.length args = List.length ps ->
    named g ps true o = true -> named g [] true (fill args o) = true.
  Proof.
    intros Ha Hlen.
    assert (Hl : forall l, Forall (fun o => named g ps true o = true -> named g [] true (fill args o) = true) l ->
      forallb (named g ps true) l = true -> forallb (named g [] true) (map (fill args) l) = true).
    { induction 1 as [|a l H1 H2 IH]; intros Hf; cbn in *; [reflexivity|]. apply andb_prop in Hf as [A B]. now rewrite H1, IH. }
    induction o using ope_ind'; intros Hn; cbn [named fill] in *; auto.
    - destruct kg; auto.
    - destruct fl; auto. destruct fs; auto.
    - destruct sp; auto.
    - destruct rl as [r|].
      + apply andb_prop in Hn as [Hn H3]. apply andb_prop in Hn as [H1 H2]. cbn [named]. rewrite H1. cbn. rewrite map_length, H3, andb_true_r.
        clear -H2. induction args0 as [|a l IH]; cbn in *; [reflexivity|]. apply andb_prop in H2 as [A B]. rewrite (fill_closed g a args true A), A. auto.
      + match type of Hn with match ?l with [] => _ | _ => _ end = true => destruct l; [|discriminate] end. destruct (param_index ps n) as [j|] eqn:Hj; [|discriminate]. apply Nat.eqb_eq in Hn. subst j.
        destruct (index_nth _ _ _ args Hj Hlen) as [a Hx]. rewrite (nth_some _ _ _ _ Hx). rewrite Forall_forall in Ha. apply Ha. eapply nth_error_In; eauto.
  Qed.
End Inversions.

Section Sim.
  Context {V U : Type}.
  Notation sv := (sv V).
  Implicit Types (vs : sv) (m : mode) (sd : seed V).
  Variable E : env V U.
  Variable g' : grammar.
  Hypothesis Hpred : forall r, e_pred E r = None.
  Notation g := (e_g E).
  Notation E' := (with_g E g').
  Hypothesis Hwords : words_le E E'.
  Hypothesis Hinl : inlined g g'.
  Hypothesis Hnamed : named_grammar g = true.
  Hypothesis Hws : match e_ws E with Some w => nopre w = true | None => True end.

  Definition frame_good (fr : fram) : Prop :=
    params_of_g g (fst fr) /\ List.length (snd fr) = List.length (fst fr) /\ Forall (fun a => named g [] true a = true) (snd fr).
  (** [o1] in frame [fr1] of [g] corresponds to [o2] in frame [fr2] of [g']. *)
  Definition corr (fr1 : fram) (o1 : ope) (fr2 : fram) (o2 : ope) : Prop :=
    (fr1 = fr2 /\ o1 = o2 /\ nopre o1 = true /\ forallb nopre (snd fr1) = true)
    \/ (fr2 = no_frame /\ frame_good fr1 /\ named g (fst fr1) false o1 = true /\ inlines g (fill (snd fr1) o1) o2).
  Definition sdrel sd1 sd2 : Prop :=
    match sd1, sd2 with
    | None, None => True
    | Some (r1, p1, s1), Some (r2, p2, s2) => r1 = r2 /\ p1 = p2 /\ eqlen s1 s2
    | _, _ => False
    end.
  Definition msims (k : nat) : Prop :=
    forall sd1 sd2 fr1 fr2 m o1 o2 pos vs1 vs2 x, sdrel sd1 sd2 -> corr fr1 o1 fr2 o2 ->
      ref k E sd1 fr1 m o1 pos vs1 = Some x -> exists j y, ref j E' sd2 fr2 m o2 pos vs2 = Some y /\ eqlen x y.

  Lemma corr_list fr1 fr2 (l l' : list ope) : fr2 = no_frame -> frame_good fr1 -> forallb (named g (fst fr1) false) l = true ->
    Forall2 (inlines g) (map (fill (snd fr1)) l) l' -> Forall2 (fun a b => corr fr1 a fr2 b) l l'.
  Proof.
    intros -> Hf. revert l'. induction l as [|a l IH]; intros l' Hn H; cbn in *; inversion H; subst; constructor.
    - right. apply andb_prop in Hn as [A B]. auto.
    - apply andb_prop in Hn as [A B]. auto.
  Qed.
  Lemma in_nopre l a : forallb nopre l = true -> In a l -> nopre a = true.
  Proof. rewrite forallb_forall. auto. Qed.
  Lemma corr_same fr o : nopre o = true -> forallb nopre (snd fr) = true -> corr fr o fr o.
  Proof. intros H1 H2. left. auto. Qed.
  Lemma corr_refl fr (l : list ope) : forallb nopre l = true -> forallb nopre (snd fr) = true -> Forall2 (fun a b => corr fr a fr b) l l.
  Proof. intros Hl Hf. induction l; cbn in Hl; [constructor|]. apply andb_prop in Hl as [H1 H2]. constructor; auto. left. auto. Qed.
  Lemma named_nopre g0 o : forall ps b, named g0 ps b o = true -> nopre o = true.
  Proof.
    assert (Hl : forall l, Forall (fun o => forall ps b, named g0 ps b o = true -> nopre o = true) l ->
      forall ps b, forallb (named g0 ps b) l = true -> forallb nopre l = true).
    { induction 1 as [|x l Hx _ IH]; intros ps b H; [reflexivity|]. cbn in *. apply andb_prop in H as [A B]. rewrite (Hx _ _ A), (IH _ _ B). reflexivity. }
    induction o using ope_ind'; intros ps b Hn; try reflexivity; try discriminate; cbn [named] in Hn; cbn [nopre]; try (now apply IHo in Hn).
    - destruct kg; [discriminate|]. eapply Hl; eauto.
    - destruct fl; [discriminate|]. destruct fs; [|discriminate]. eapply Hl; eauto.
    - destruct sp; [discriminate|]. now apply IHo in Hn.
    - destruct rl.
      + apply andb_prop in Hn as [Hn _]. apply andb_prop in Hn as [_ Hn]. eapply Hl; eauto.
      + destruct args; [reflexivity|discriminate].
  Qed.
  Lemma all_nopre l : Forall (fun a => named g [] true a = true) l -> forallb nopre l = true.
  Proof. rewrite Forall_forall, forallb_forall. intros H a Ha. eapply named_nopre. eauto. Qed.
  Lemma c_seq fr1 kg l fr2 o : corr fr1 (Seq kg l) fr2 o -> exists kg' l', o = Seq kg' l' /\ Forall2 (fun a b => corr fr1 a fr2 b) l l'.
  Proof.
    intros [(-> & <- & Hc1 & Hc2)|(H1 & H2 & H3 & H4)]; [eauto using corr_refl|]. cbn [fill] in H4. apply il_seq_inv in H4 as (l' & -> & H4).
    cbn [named] in H3. destruct kg; [discriminate|]. eexists _, _. split; [reflexivity|]. now apply corr_list.
  Qed.
  Lemma c_cho fr1 fl fs l fr2 o : corr fr1 (Cho fl fs l) fr2 o -> exists fl' fs' l', o = Cho fl' fs' l' /\ Forall2 (fun a b => corr fr1 a fr2 b) l l'.
  Proof.
    intros [(-> & <- & Hc1 & Hc2)|(H1 & H2 & H3 & H4)]; [eexists _, _, _; split; [reflexivity|now apply corr_refl]|]. cbn [fill] in H4. apply il_cho_inv in H4 as (l' & -> & H4).
    cbn [named] in H3. destruct fl; [discriminate|]. destruct fs; [|discriminate]. eexists _, _, _. split; [reflexivity|]. now apply corr_list.
  Qed.
  Lemma c_rep fr1 e mn mx sp fr2 o : corr fr1 (Rep e mn mx sp) fr2 o -> exists e' sp', o = Rep e' mn mx sp' /\ corr fr1 e fr2 e'.
  Proof.
    intros [(-> & <- & Hc1 & Hc2)|(H1 & H2 & H3 & H4)]; [eexists _, _; split; [reflexivity|left; auto]|]. cbn [fill] in H4. apply il_rep_inv in H4 as (l' & -> & H4).
    cbn [named] in H3. destruct sp; [discriminate|]. eexists _, _. split; [reflexivity|]. right. auto.
  Qed.
  Lemma c_and fr1  e fr2 o : corr fr1 (And  e) fr2 o -> exists e', o = And  e' /\ corr fr1 e fr2 e'.
  Proof.
    intros [(-> & <- & Hc1 & Hc2)|(H1 & H2 & H3 & H4)]; [eexists; split; [reflexivity|left; auto]|]. cbn [fill] in H4. apply il_and_inv in H4 as (e' & -> & H4).
    cbn [named] in H3. eexists. split; [reflexivity|]. right. auto.
  Qed.
  Lemma c_not fr1  e fr2 o : corr fr1 (Not  e) fr2 o -> exists e', o = Not  e' /\ corr fr1 e fr2 e'.
  Proof.
    intros [(-> & <- & Hc1 & Hc2)|(H1 & H2 & H3 & H4)]; [eexists; split; [reflexivity|left; auto]|]. cbn [fill] in H4. apply il_not_inv in H4 as (e' & -> & H4).
    cbn [named] in H3. eexists. split; [reflexivity|]. right. auto.
  Qed.
  Lemma c_csc fr1  e fr2 o : corr fr1 (Csc  e) fr2 o -> exists e', o = Csc  e' /\ corr fr1 e fr2 e'.
  Proof.
    intros [(-> & <- & Hc1 & Hc2)|(H1 & H2 & H3 & H4)]; [eexists; split; [reflexivity|left; auto]|]. cbn [fill] in H4. apply il_csc_inv in H4 as (e' & -> & H4).
    cbn [named] in H3. eexists. split; [reflexivity|]. right. auto.
  Qed.
  Lemma c_cap fr1 n e fr2 o : corr fr1 (Cap n e) fr2 o -> exists e', o = Cap n e' /\ corr fr1 e fr2 e'.
  Proof.
    intros [(-> & <- & Hc1 & Hc2)|(H1 & H2 & H3 & H4)]; [eexists; split; [reflexivity|left; auto]|]. cbn [fill] in H4. apply il_cap_inv in H4 as (e' & -> & H4).
    cbn [named] in H3. eexists. split; [reflexivity|]. right. auto.
  Qed.
  Lemma c_tok fr1  e fr2 o : corr fr1 (Tok  e) fr2 o -> exists e', o = Tok  e' /\ corr fr1 e fr2 e'.
  Proof.
    intros [(-> & <- & Hc1 & Hc2)|(H1 & H2 & H3 & H4)]; [eexists; split; [reflexivity|left; auto]|]. cbn [fill] in H4. apply il_tok_inv in H4 as (e' & -> & H4).
    cbn [named] in H3. eexists. split; [reflexivity|]. right. auto.
  Qed.
  Lemma c_ign fr1  e fr2 o : corr fr1 (Ign  e) fr2 o -> exists e', o = Ign  e' /\ corr fr1 e fr2 e'.
  Proof.
    intros [(-> & <- & Hc1 & Hc2)|(H1 & H2 & H3 & H4)]; [eexists; split; [reflexivity|left; auto]|]. cbn [fill] in H4. apply il_ign_inv in H4 as (e' & -> & H4).
    cbn [named] in H3. eexists. split; [reflexivity|]. right. auto.
  Qed.

  Lemma up {j} j' {sd fr m o pos vs x} : j <= j' -> ref j E' sd fr m o pos vs = Some x -> ref j' E' sd fr m o pos vs = Some x.
  Proof. intros H. now apply ref_mono. Qed.
  Lemma w_skip k : msims k -> forall m pos vs vs' x, ref_skip (ref k) E m pos vs = Some x ->
    exists j y, ref_skip (ref j) E' m pos vs' = Some y /\ eqlen x y.
  Proof.
    intros IH m pos vs vs' x H. unfold ref_skip in *. cbn [with_g e_ws]. destruct (e_ws E) as [w|] eqn:Hw.
    - destruct (m_tok m) eqn:Ht; [inv H; eexists 0, _; split; reflexivity|].
      eapply (IH None None no_frame no_frame m w w pos vs vs' x); [exact I|left; auto|exact H].
    - inv H. eexists 0, _. split; reflexivity.
  Qed.
  Lemma w_then k : msims k -> forall m pos n vs vs' x, ref_then (ref k) E m pos n vs = Some x ->
    exists j y, ref_then (ref j) E' m pos n vs' = Some y /\ eqlen x y.
  Proof.
    intros IH m pos n vs vs' x H. unfold ref_then in H. oinv H. inv H.
    destruct (w_skip k IH m (pos + n) vs vs' a Hm) as (j & y & A & B). exists j. unfold ref_then. rewrite A. cbn. eexists. split; [reflexivity|].
    destruct a as [[? ?]|], y as [[? ?]|]; try discriminate B; [|reflexivity]. inv B. reflexivity.
  Qed.
  Lemma w_seq k sd1 sd2 fr1 fr2 m l l' : Forall2 (fun a b => corr fr1 a fr2 b) l l' -> msims k -> sdrel sd1 sd2 -> forall pos i vs vs' x,
    ref_seq (ref k E sd1 fr1 m) l pos i vs = Some x -> exists j y, ref_seq (ref j E' sd2 fr2 m) l' pos i vs' = Some y /\ eqlen x y.
  Proof.
    intros Hc IH Hs. induction Hc as [|o o' l l' Ho Hc IHl]; intros pos i vs vs' x H; cbn [ref_seq] in *; [inv H; eexists 0, _; split; reflexivity|].
    oinv H. destruct (IH sd1 sd2 fr1 fr2 m o o' (pos + i) vs vs' a Hs Ho Hm) as (j1 & y & A & B).
    destruct a as [[n v]|], y as [[n' v']|]; try discriminate B.
    - inv B. destruct (IHl pos (i + n') v v' x H) as (j2 & z & C & D).
      exists (j1 + j2), z. split; [|exact D]. rewrite (up (j1 + j2) (Nat.le_add_r _ _) A). cbn [obind].
      eapply sub_Some; [|exact C]. apply s_seq. intros. apply ref_sub. lia.
    - inv H. exists j1, None. rewrite A. split; reflexivity.
  Qed.
  Lemma w_cho k sd1 sd2 fr1 fr2 m l l' : Forall2 (fun a b => corr fr1 a fr2 b) l l' -> msims k -> sdrel sd1 sd2 -> forall total total' id pos vs vs' x,
    ref_cho (ref k E sd1 fr1 m) total l id pos vs = Some x ->
    exists j y, ref_cho (ref j E' sd2 fr2 m) total' l' id pos vs' = Some y /\ eqlen x y.
  Proof.
    intros Hc IH Hs total total'. induction Hc as [|o o' l l' Ho Hc IHl]; intros id pos vs vs' x H; cbn [ref_cho] in *; [inv H; eexists 0, _; split; reflexivity|].
    oinv H. destruct (IH sd1 sd2 fr1 fr2 m o o' pos vs vs' a Hs Ho Hm) as (j1 & y & A & B).
    destruct a as [[n v]|], y as [[n' v']|]; try discriminate B.
    - inv H. exists j1. rewrite A. cbn. eexists. split; [reflexivity|]. exact B.
    - destruct (IHl (S id) pos vs vs' x H) as (j2 & z & C & D).
      exists (j1 + j2), z. split; [|exact D]. rewrite (up (j1 + j2) (Nat.le_add_r _ _) A). cbn [obind].
      eapply sub_Some; [|exact C]. apply s_cho. intros. apply ref_sub. lia.
  Qed.
  Lemma w_min k sd1 sd2 fr1 fr2 m e e' n : corr fr1 e fr2 e' -> msims k -> sdrel sd1 sd2 -> forall pos i vs vs' x,
    ref_min (ref k E sd1 fr1 m e) n pos i vs = Some x -> exists j y, ref_min (ref j E' sd2 fr2 m e') n pos i vs' = Some y /\ eqlen x y.
  Proof.
    intros Hc IH Hs. induction n as [|n IHn]; intros pos i vs vs' x H; cbn [ref_min] in *; [inv H; eexists 0, _; split; reflexivity|].
    oinv H. destruct (IH sd1 sd2 fr1 fr2 m e e' (pos + i) vs vs' a Hs Hc Hm) as (j1 & y & A & B).
    destruct a as [[q v]|], y as [[q' v']|]; try discriminate B.
    - inv B. destruct (IHn pos (i + q') v v' x H) as (j2 & z & C & D).
      exists (j1 + j2), z. split; [|exact D]. rewrite (up (j1 + j2) (Nat.le_add_r _ _) A). cbn [obind].
      eapply sub_Some; [|exact C]. apply s_min. intros. apply ref_sub. lia.
    - inv H. exists j1, None. rewrite A. split; reflexivity.
  Qed.
  Lemma w_more k sd1 sd2 fr1 fr2 m e e' : corr fr1 e fr2 e' -> msims k -> sdrel sd1 sd2 -> forall fuel room pos i vs vs' x,
    ref_more fuel (ref k E sd1 fr1 m e) room pos i vs = Some x ->
    exists F j y, ref_more F (ref j E' sd2 fr2 m e') room pos i vs' = Some y /\ eqlen x y.
  Proof.
    intros Hc IH Hs. induction fuel as [|fuel IHf]; intros room pos i vs vs' x H; cbn [ref_more] in H.
    - destruct room as [[|?]|]; try discriminate. inv H. exists 0, 0. eexists. split; reflexivity.
    - assert (Hstep : room = Some 0 \/ room <> Some 0) by (destruct room as [[|?]|]; auto; right; discriminate).
      destruct Hstep as [->|Hr]; [inv H; exists 0, 0; eexists; split; reflexivity|].
      assert (H' : (let? r := ref k E sd1 fr1 m e (pos + i) vs in
        match r with None => Some (Some (i, vs)) | Some (k0, v0) => ref_more fuel (ref k E sd1 fr1 m e) (option_map pred room) pos (i + k0) v0 end) = Some x)
        by (destruct room as [[|?]|]; congruence). clear H. oinv H'.
      destruct (IH sd1 sd2 fr1 fr2 m e e' (pos + i) vs vs' a Hs Hc Hm) as (j1 & y & A & B).
      destruct a as [[q v]|], y as [[q' v']|]; try discriminate B.
      + inv B. destruct (IHf (option_map pred room) pos (i + q') v v' x H') as (F & j2 & z & C & D).
        exists (S F), (j1 + j2), z. split; [|exact D]. cbn [ref_more].
        assert (X : (let? r := ref (j1 + j2) E' sd2 fr2 m e' (pos + i) vs' in
          match r with None => Some (Some (i, vs')) | Some (k0, v0) => ref_more F (ref (j1 + j2) E' sd2 fr2 m e') (option_map pred room) pos (i + k0) v0 end) = Some z).
        { rewrite (up (j1 + j2) (Nat.le_add_r _ _) A). cbn [obind].
          eapply sub_Some; [|exact C]. apply s_more; [intros; apply ref_sub; lia|lia]. }
        destruct room as [[|?]|]; congruence.
      + inv H'. exists 1, j1, (Some (i, vs')). split; [|reflexivity]. destruct room as [[|?]|]; [congruence| |]; cbn [ref_more]; rewrite A; reflexivity.
  Qed.
  Lemma w_rep k sd1 sd2 fr1 fr2 m e e' mn mx : corr fr1 e fr2 e' -> msims k -> sdrel sd1 sd2 -> forall fuel pos vs vs' x,
    ref_rep fuel (ref k E sd1 fr1 m e) mn mx pos vs = Some x ->
    exists F j y, ref_rep F (ref j E' sd2 fr2 m e') mn mx pos vs' = Some y /\ eqlen x y.
  Proof.
    intros Hc IH Hs fuel pos vs vs' x H. unfold ref_rep in *. oinv H.
    destruct (w_min k sd1 sd2 fr1 fr2 m e e' mn Hc IH Hs pos 0 vs vs' a Hm) as (j1 & y & A & B).
    destruct a as [[q v]|], y as [[q' v']|]; try discriminate B.
    - inv B. assert (Hmore : forall room, ref_more fuel (ref k E sd1 fr1 m e) room pos q' v = Some x ->
        exists F j y, (let? r := ref_min (ref j E' sd2 fr2 m e') mn pos 0 vs' in match r with None => Some None | Some (i, v1) => ref_more F (ref j E' sd2 fr2 m e') room pos i v1 end) = Some y /\ eqlen x y).
      { intros room Hmo. destruct (w_more k sd1 sd2 fr1 fr2 m e e' Hc IH Hs fuel room pos q' v v' x Hmo) as (F & j2 & z & C & D).
        exists F, (j1 + j2), z. split; [|exact D].
        assert (A' : ref_min (ref (j1 + j2) E' sd2 fr2 m e') mn pos 0 vs' = Some (Some (q', v'))).
        { eapply sub_Some; [|exact A]. apply s_min. intros. apply ref_sub. lia. }
        rewrite A'. cbn [obind]. eapply sub_Some; [|exact C]. apply s_more; [intros; apply ref_sub; lia|lia]. }
      destruct mx as [mx|].
      + destruct (mn <? mx) eqn:Hmx.
        * destruct (Hmore _ H) as (F & j & y & C & D). exists F, j, y. split; [|exact D]. oinv C. rewrite Hm0. cbn [obind]. exact C.
        * inv H. exists 0, j1, (Some (q', v')). rewrite A. split; reflexivity.
      + destruct (Hmore _ H) as (F & j & y & C & D). exists F, j, y. split; [|exact D]. oinv C. rewrite Hm0. cbn [obind]. exact C.
    - inv H. exists 0, j1, None. rewrite A. split; reflexivity.
  Qed.
  Lemma w_value r d body pos n (chvs : sv) : exists v, ref_value E r d body pos n chvs = Some (n, v).
  Proof. unfold ref_value. rewrite Hpred. eexists. reflexivity. Qed.
  Lemma w_value' r d body pos n (chvs : sv) : exists v, ref_value E' r d body pos n chvs = Some (n, v).
  Proof. unfold ref_value. cbn [with_g e_pred]. rewrite Hpred. eexists. reflexivity. Qed.
  Lemma w_once k sd1 sd2 m r d d' body body' pos x : msims k -> sdrel sd1 sd2 -> corr (r_params d, []) body (r_params d', []) body' ->
    r_no_whitespace d' = r_no_whitespace d ->
    ref_once (ref k) E sd1 m r d body pos = Some x -> exists j y, ref_once (ref j) E' sd2 m r d' body' pos = Some y /\ eqlen x y.
  Proof.
    intros IH Hs Hc Hnw H. unfold ref_once in H. oinv H.
    destruct (IH sd1 sd2 _ _ _ body body' pos sv_new sv_new a Hs Hc Hm) as (j1 & y & A & B).
    destruct a as [[n v]|], y as [[n' v']|]; try discriminate B.
    - inv B. destruct (r_no_whitespace d) eqn:Hw.
      + oinv H. destruct (w_then k IH m pos n' v v' a Hm0) as (j2 & z & C & D).
        exists (j1 + j2). unfold ref_once. rewrite Hnw. change (tok_mode E' m) with (tok_mode E m). rewrite (up (j1 + j2) (Nat.le_add_r _ _) A). cbn [obind].
        assert (C' : ref_then (ref (j1 + j2)) E' m pos n' v' = Some z).
        { eapply sub_Some; [|exact C]. apply s_then. intros. apply ref_sub. lia. }
        rewrite C'. cbn [obind]. eexists. split; [reflexivity|].
        destruct a as [[q w]|], z as [[q' w']|]; try discriminate D; inv H; [|reflexivity]. inv D.
        destruct (w_value r d body pos q' w) as [? ->]. destruct (w_value' r d' body' pos q' w') as [? ->]. reflexivity.
      + cbn [obind] in H. inv H. exists j1. unfold ref_once. rewrite Hnw, A. cbn [obind]. eexists. split; [reflexivity|].
        destruct (w_value r d body pos n' v) as [? ->]. destruct (w_value' r d' body' pos n' v') as [? ->]. reflexivity.
    - inv H. exists j1, None. unfold ref_once. rewrite Hnw. change (tok_mode E' m) with (tok_mode E m). rewrite A. split; reflexivity.
  Qed.
  Lemma w_grow (o1 : rr V -> option (rr V)) (o2 : nat -> rr V -> option (rr V)) :
    (forall j j' s, j <= j' -> sub_of (o2 j s) (o2 j' s)) ->
    (forall s1 s2 x, eqlen s1 s2 -> o1 s1 = Some x -> exists j y, o2 j s2 = Some y /\ eqlen x y) ->
    forall fuel len v1 v2 x, ref_grow fuel o1 len v1 = Some x -> exists F j y, ref_grow F (o2 j) len v2 = Some y /\ eqlen x y.
  Proof.
    intros Hmono Ho. induction fuel as [|fuel IH]; intros len v1 v2 x H; cbn [ref_grow] in H; [discriminate|]. oinv H.
    destruct (Ho (Some (len, v1)) (Some (len, v2)) a eq_refl Hm) as (j1 & y & A & B).
    destruct a as [[n v]|], y as [[n' v']|]; try discriminate B.
    - inv B. destruct (n' <=? len) eqn:Hle.
      + inv H. exists 1, j1, (Some (len, v2)). cbn [ref_grow]. rewrite A. cbn [obind]. rewrite Hle. split; reflexivity.
      + destruct (IH n' v v' x H) as (F & j2 & z & C & D). exists (S F), (j1 + j2), z. split; [|exact D]. cbn [ref_grow].
        rewrite (sub_Some _ _ _ (Hmono j1 (j1 + j2) (Some (len, v2)) ltac:(lia)) A). cbn [obind]. rewrite Hle.
        eapply sub_Some; [|exact C]. apply s_grow; [|lia]. intros. apply Hmono. lia.
    - inv H. exists 1, j1, (Some (len, v2)). cbn [ref_grow]. rewrite A. split; reflexivity.
  Qed.
  Lemma w_rule k m r d d' body body' pos x : msims k -> corr (r_params d, []) body (r_params d', []) body' ->
    r_no_whitespace d' = r_no_whitespace d -> r_lr d' = r_lr d ->
    ref_rule k (ref k) E m r d body pos = Some x -> exists F j y, ref_rule F (ref j) E' m r d' body' pos = Some y /\ eqlen x y.
  Proof.
    intros IH Hc Hnw Hlr H. unfold ref_rule in *. rewrite Hlr. destruct (r_lr d).
    - oinv H. destruct (w_once k (Some (r, pos, None)) (Some (r, pos, None)) m r d d' body body' pos a IH (conj eq_refl (conj eq_refl eq_refl)) Hc Hnw Hm) as (j1 & y & A & B).
      destruct a as [[n v]|], y as [[n' v']|]; try discriminate B.
      + inv B. assert (G : exists F j z, ref_grow F (fun s => ref_once (ref j) E' (Some (r, pos, s)) m r d' body' pos) n' v' = Some z /\ eqlen x z).
        { refine (w_grow (fun s => ref_once (ref k) E (Some (r, pos, s)) m r d body pos) (fun j s => ref_once (ref j) E' (Some (r, pos, s)) m r d' body' pos) _ _ k n' v v' x H).
          - intros j j' s Hj. apply s_once. intros. apply ref_sub. lia.
          - intros s1 s2 y He Hy. eapply w_once; eauto. cbn. auto. }
        destruct G as (F & j2 & z & C & D).
        exists F, (j1 + j2), z. split; [|exact D].
        assert (A' : ref_once (ref (j1 + j2)) E' (Some (r, pos, None)) m r d' body' pos = Some (Some (n', v'))).
        { eapply sub_Some; [|exact A]. apply s_once. intros. apply ref_sub. lia. }
        cbv beta zeta. refine (eq_trans (f_equal (fun z => obind z _) A') _). cbn [obind]. eapply sub_Some; [|exact C]. apply s_grow; [|lia]. intros s. apply s_once. intros. apply ref_sub. lia.
      + inv H. exists 0, j1, None. split; [|reflexivity]. cbv beta zeta. refine (eq_trans (f_equal (fun z => obind z _) A) _). reflexivity.
    - destruct (w_once k None None m r d d' body body' pos x IH I Hc Hnw H) as (j & y & A & B). exists 0, j, y. auto.
  Qed.
  Lemma inl_nth r d : nth_error g r = Some d -> exists d', nth_error g' r = Some d' /\ inlined_rule g d d'.
  Proof.
    assert (X : forall g0 l l', Forall2 (inlined_rule g0) l l' -> forall r d, nth_error l r = Some d -> exists d', nth_error l' r = Some d' /\ inlined_rule g0 d d').
    { induction 1; intros [|q] e H1; cbn in *; try discriminate; eauto. inv H1. eauto. }
    exact (X _ _ _ Hinl _) || exact (X _ _ _ Hinl _ _).
  Qed.
  Lemma inl_nth_none r : nth_error g r = None -> nth_error g' r = None.
  Proof.
    assert (X : forall g0 l l', Forall2 (inlined_rule g0) l l' -> forall r, nth_error l r = None -> nth_error l' r = None).
    { induction 1; intros [|q] H1; cbn in *; try discriminate; eauto. }
    exact (X _ _ _ Hinl _) || exact (X _ _ _ Hinl _ _).
  Qed.
  Lemma core_up' F j sd fr m o pos vs y : ref_core F (ref j) E' sd fr m o pos vs = Some y -> exists k, ref k E' sd fr m o pos vs = Some y.
  Proof.
    intros H. exists (S (F + j)). cbn [ref]. eapply sub_Some; [|exact H]. apply s_core; [|lia]. intros. apply ref_sub. lia.
  Qed.
  Lemma frame_nil : frame_good no_frame.
  Proof. split; [now left|]. split; [reflexivity|constructor]. Qed.
  Lemma named_of_rule r d body : nth_error g r = Some d -> r_body d = Some body ->
    named g (r_params d) false body = true /\ (r_is_macro d = false -> r_params d = []).
  Proof.
    intros Hd Hb. unfold named_grammar in Hnamed. rewrite forallb_forall in Hnamed. specialize (Hnamed d (nth_error_In _ _ Hd)).
    unfold named_rule in Hnamed. rewrite Hb in Hnamed. apply andb_prop in Hnamed as [A B]. split; [exact A|]. intros Hm. rewrite Hm in B. cbn in B.
    now destruct (r_params d).
  Qed.
  Lemma fill_nil b o : named g [] b o = true -> fill [] o = o.
  Proof. apply fill_closed. Qed.
  (** A rule's body corresponds to the new rule's body. *)
  Lemma rule_corr r d d' body : nth_error g r = Some d -> inlined_rule g d d' -> r_is_macro d = false -> r_body d = Some body ->
    exists body', r_body d' = Some body' /\ corr (r_params d, []) body (r_params d', []) body'.
  Proof.
    intros Hd (_ & _ & _ & Hp & _ & _ & Hb) Hm Hbody. rewrite Hbody, Hm in Hb. destruct (r_body d') as [body'|]; [|contradiction].
    exists body'. split; [reflexivity|]. destruct (named_of_rule r d body Hd Hbody) as [Hn Hps]. specialize (Hps Hm). rewrite Hp, Hps in *.
    right. split; [reflexivity|]. split; [exact frame_nil|]. split; [exact Hn|]. cbn [snd]. now rewrite (fill_nil _ _ Hn).
  Qed.
  Lemma w_hld k sd1 sd2 fr m r pos vs vs' x : msims k -> sdrel sd1 sd2 -> forallb nopre (snd fr) = true ->
    ref_hld k (ref k) E sd1 fr m r pos vs = Some x -> exists F j y, ref_hld F (ref j) E' sd2 fr m r pos vs' = Some y /\ eqlen x y.
  Proof.
    intros IH Hs Hfc H. unfold ref_hld, get_body in *. cbn [with_g e_g]. destruct (nth_error g r) as [d|] eqn:Hd; [|discriminate].
    destruct (inl_nth r d Hd) as (d' & Hd' & Hir). rewrite Hd'. cbn [obind] in *. destruct (r_body d) as [body|] eqn:Hb; [|discriminate].
    cbn [obind] in *. pose proof Hir as (_ & _ & Hmac & Hp & Hlr & Hnw & Hbb). destruct (r_is_macro d) eqn:Hm.
    - rewrite Hb in Hbb. destruct (r_body d') as [body'|]; [|contradiction]. subst body'. cbn [obind]. rewrite Hmac, Hlr, Hp. destruct (r_lr d); [discriminate|].
      destruct (IH sd1 sd2 (r_params d, snd fr) (r_params d, snd fr) m body body pos vs vs' x Hs (corr_same (r_params d, snd fr) body (named_nopre g body (r_params d) false (proj1 (named_of_rule r d body Hd Hb))) Hfc) H) as (j & y & A & B).
      exists 0, j, y. auto.
    - destruct (rule_corr r d d' body Hd Hir Hm Hb) as (body' & Hb' & Hc). rewrite Hb'. cbn [obind]. rewrite Hmac.
      assert (Hval : forall a a', eqlen a a' -> exists y, Some (match a' with Some (n, val) => Some (n, if r_ignore d' then vs' else push_val val (str2tag (r_name d')) vs') | None => None end) = Some y
        /\ eqlen (match a with Some (n, val) => Some (n, if r_ignore d then vs else push_val val (str2tag (r_name d)) vs) | None => None end) y).
      { intros a a' He. eexists. split; [reflexivity|]. destruct a as [[? ?]|], a' as [[? ?]|]; try discriminate He; [|reflexivity]. inv He. reflexivity. }
      oinv H. inv H.
      assert (Hrule : ref_rule k (ref k) E m r d body pos = Some a ->
        exists F j y, (let? x := ref_rule F (ref j) E' m r d' body' pos in
          Some (match x with Some (n, val) => Some (n, if r_ignore d' then vs' else push_val val (str2tag (r_name d')) vs') | None => None end)) = Some y
          /\ eqlen (match a with Some (n, val) => Some (n, if r_ignore d then vs else push_val val (str2tag (r_name d)) vs) | None => None end) y).
      { intros Hr. destruct (w_rule k m r d d' body body' pos a IH Hc Hnw Hlr Hr) as (F & j & y & A & B). destruct (Hval a y B) as (z & C & D).
        exists F, j, z. split; [|exact D]. rewrite A. cbn [obind]. exact C. }
      destruct sd1 as [[[r1 p1] s1]|], sd2 as [[[r2 p2] s2]|]; try contradiction; [|exact (Hrule Hm0)].
      cbn in Hs. destruct Hs as (-> & -> & Hs). destruct ((r2 =? r) && (p2 =? pos)); [|exact (Hrule Hm0)].
      inv Hm0. cbn [obind]. exists 0, 0. apply Hval. exact Hs.
  Qed.
  Lemma subst_fill fr l : frame_good fr -> forallb (named g (fst fr) true) l = true ->
    subst_args (fst fr) (snd fr) l = Ok (map (fill (snd fr)) l).
  Proof.
    intros (H1 & H2 & _). induction l as [|a l IH]; intros Hn; cbn in *; [reflexivity|]. apply andb_prop in Hn as [A B].
    rewrite (find_fill g _ _ _ H1 H2 A). cbn [bind]. rewrite IH by assumption. reflexivity.
  Qed.
  Lemma fill_all_named fr l : frame_good fr -> forallb (named g (fst fr) true) l = true -> Forall (fun a => named g [] true a = true) (map (fill (snd fr)) l).
  Proof.
    intros (_ & H2 & H3) Hn. rewrite forallb_forall in Hn. apply Forall_forall. intros a Ha. apply in_map_iff in Ha as (b & <- & Hb).
    eapply fill_named; eauto.
  Qed.
  Ltac same_leaf o2 Hc H :=
    let X := fresh in
    match type of H with ref_core _ _ _ _ _ _ ?o _ _ = _ => assert (X : o2 = o) by (destruct Hc as [(_ & <- & _)|(_ & _ & _ & Hc)]; [reflexivity|now inversion Hc]) end; subst o2.
  Theorem msims_all : forall k, msims k.
  Proof.
    induction k as [k IHk] using (well_founded_induction lt_wf). destruct k as [|k]; [intros ? ? ? ? ? ? ? ? ? ? ? _ _ H; discriminate|].
    assert (IHlt : forall j, j < k -> msims j) by (intros; apply IHk; lia).
    assert (IH : msims k) by (apply IHk; lia). clear IHk.
    intros sd1 sd2 fr1 fr2 m o1 o2 pos vs vs' x Hs Hc H.
    assert (Hup : (exists F j y, ref_core F (ref j) E' sd2 fr2 m o2 pos vs' = Some y /\ eqlen x y) -> exists j y, ref j E' sd2 fr2 m o2 pos vs' = Some y /\ eqlen x y).
    { intros (F & j & y & A & B). apply core_up' in A as [j' A]. eauto. }
    assert (Hone : forall m' e e' v v' z, corr fr1 e fr2 e' -> ref k E sd1 fr1 m' e pos v = Some z -> exists j y, ref j E' sd2 fr2 m' e' pos v' = Some y /\ eqlen z y).
    { intros m' e e' v v' z He Hz. eapply (IH sd1 sd2 fr1 fr2 m' e e'); eauto. }
    cbn [ref] in H. destruct o1; try (assert (Hleaf : o2 = o2) by reflexivity).
    - apply Hup. apply c_seq in Hc as (kg' & l' & -> & Hc). cbn [ref_core] in *.
      destruct (w_seq k sd1 sd2 fr1 fr2 m l l' Hc IH Hs pos 0 vs vs' x H) as (j & y & A & B). exists 0, j, y. auto.
    - apply Hup. apply c_cho in Hc as (fl' & fs' & l' & -> & Hc). cbn [ref_core] in *.
      destruct (w_cho k sd1 sd2 fr1 fr2 m l l' Hc IH Hs _ (List.length l') 0 pos vs vs' x H) as (j & y & A & B). exists 0, j, y. auto.
    - apply Hup. apply c_rep in Hc as (e' & sp' & -> & Hc). cbn [ref_core] in *. exact (w_rep k sd1 sd2 fr1 fr2 m _ e' _ _ Hc IH Hs k pos vs vs' x H).
    - apply Hup. apply c_and in Hc as (e' & -> & Hc). cbn [ref_core] in *.
      oinv H. destruct (Hone m _ e' vs vs' a Hc Hm) as (j & y & A & B). exists 0, j. rewrite A. cbn [obind]. eexists. split; [reflexivity|].
      inv H. destruct a as [[? ?]|], y as [[? ?]|]; try discriminate B; reflexivity.
    - apply Hup. apply c_not in Hc as (e' & -> & Hc). cbn [ref_core] in *.
      oinv H. destruct (Hone m _ e' vs vs' a Hc Hm) as (j & y & A & B). exists 0, j. rewrite A. cbn [obind]. eexists. split; [reflexivity|].
      inv H. destruct a as [[? ?]|], y as [[? ?]|]; try discriminate B; reflexivity.
    - same_leaf o2 Hc H. apply Hup. cbn [ref_core] in *.
      rewrite ref_dic_eq in H. setoid_rewrite ref_dic_eq. cbn [with_g e_input]. destruct (trie_match t _) as [i id]. destruct (i =? 0).
      { inv H. exists 0, 0, None. split; reflexivity. }
      oinv H. destruct (proj2 Hwords k (pos + i) a Hm) as [j1 W]. destruct a; [|inv H; exists 0, j1, None; rewrite W; split; reflexivity].
      destruct (w_then k IH m pos i _ (set_choice (t_items_count t) (match id with Some q => q | None => 0 end) vs') x H) as (j & y & A & B).
      exists 0, (j1 + j), y. rewrite (word_dic_up j1 (j1 + j) _ _ _ (Nat.le_add_r _ _) W). cbn [obind]. split; [|exact B].
      eapply sub_Some; [|exact A]. apply s_then. intros. apply ref_sub. lia.
    - same_leaf o2 Hc H. apply Hup. cbn [ref_core] in *.
      rewrite ref_lit_eq in H. setoid_rewrite ref_lit_eq. cbn [with_g e_input]. oinv H.
      change (left E' pos) with (left E pos). rewrite Hm. cbn [obind] in *. destruct a; [|inv H; exists 0, 0, None; split; reflexivity].
      oinv H. destruct (proj1 Hwords k _ pos a Hm0) as [j1 W]. destruct a; [|inv H; exists 0, j1, None; rewrite W; split; reflexivity].
      destruct (w_then k IH m pos _ _ vs' x H) as (j & y & A & B).
      exists 0, (j1 + j), y. rewrite (word_lit_up j1 (j1 + j) _ _ _ _ (Nat.le_add_r _ _) W). cbn [obind]. split; [|exact B].
      eapply sub_Some; [|exact A]. apply s_then. intros. apply ref_sub. lia.
    - same_leaf o2 Hc H. apply Hup. cbn [ref_core] in *.
      exists 0, 0. unfold ref_cls in *. change (left E' pos) with (left E pos). cbn [with_g e_input].
      destruct (left E pos =? 0); [inv H; eexists; split; reflexivity|]. oinv H. rewrite Hm. cbn [obind]. destruct a as [len cp]. oinv H. rewrite Hm0. cbn [obind].
      eexists. split; [reflexivity|]. inv H. destruct (xorb _ _); reflexivity.
    - same_leaf o2 Hc H. apply Hup. cbn [ref_core] in *.
      exists 0, 0. unfold ref_chr in *. change (left E' pos) with (left E pos). cbn [with_g e_input].
      destruct (left E pos =? 0); [inv H; eexists; split; reflexivity|]. oinv H. rewrite Hm. cbn [obind]. destruct a as [len cp'].
      eexists. split; [reflexivity|]. inv H. destruct (_ =? _)%N; reflexivity.
    - same_leaf o2 Hc H. apply Hup. cbn [ref_core] in *.
      exists 0, 0. unfold ref_dot in *. change (left E' pos) with (left E pos). cbn [with_g e_input]. oinv H. rewrite Hm. cbn [obind].
      eexists. split; [reflexivity|]. inv H. destruct (_ <? _); reflexivity.
    - apply Hup. apply c_csc in Hc as (e' & -> & Hc). cbn [ref_core] in *. destruct (Hone m _ e' vs vs' x Hc H) as (j & y & A & B). exists 0, j, y. auto.
    - apply Hup. apply c_cap in Hc as (e' & -> & Hc). cbn [ref_core] in *. destruct (Hone m _ e' vs vs' x Hc H) as (j & y & A & B). exists 0, j, y. auto.
    - apply Hup. apply c_tok in Hc as (e' & -> & Hc). cbn [ref_core] in *. change (tok_mode E' m) with (tok_mode E m).
      oinv H. destruct (Hone _ _ e' vs vs' a Hc Hm) as (j1 & y & A & B). destruct a as [[n v]|], y as [[n' v']|]; try discriminate B.
      + inv B. destruct (w_then k IH m pos n' _ (push_tok (pos, n') v') x H) as (j2 & z & C & D). exists 0, (j1 + j2), z. split; [|exact D].
        rewrite (up (j1 + j2) (Nat.le_add_r _ _) A). cbn [obind]. eapply sub_Some; [|exact C]. apply s_then. intros. apply ref_sub. lia.
      + inv H. exists 0, j1, None. rewrite A. split; reflexivity.
    - apply Hup. apply c_ign in Hc as (e' & -> & Hc). cbn [ref_core] in *.
      oinv H. destruct (Hone m _ e' sv_new sv_new a Hc Hm) as (j & y & A & B). exists 0, j. rewrite A. cbn [obind]. eexists. split; [reflexivity|].
      inv H. destruct a as [[? ?]|], y as [[? ?]|]; try discriminate B; [|reflexivity]. inv B. reflexivity.
    - discriminate.
    - destruct Hc as [(-> & <- & Hc1 & Hc2)|(_ & _ & Hn & _)]; [|discriminate]. apply Hup. cbn [ref_core] in *.
      destruct (Hone m (Hld r) (Hld r) vs vs' x (corr_same _ (Hld r) eq_refl Hc2) H) as (j & y & A & B). exists 0, j, y. auto.
    - destruct Hc as [(-> & <- & Hc1 & Hc2)|(_ & _ & Hn & _)]; [|discriminate]. apply Hup. cbn [ref_core] in *. exact (w_hld k sd1 sd2 fr2 m r pos vs vs' x IH Hs Hc2 H).
    - cbn [ref_core] in H. unfold ref_reference in H. destruct rule as [r|].
      + oinv H. rename a into d. destruct (inl_nth r d Hm) as (d' & Hd' & Hir). pose proof Hir as (_ & _ & Hmac & Hp & Hlr & _).
        assert (Hrefl : fr1 = fr2 -> o2 = Ref name (Some r) iarg is_macro args -> forallb nopre args = true -> forallb nopre (snd fr1) = true -> exists j y, ref j E' sd2 fr2 m o2 pos vs' = Some y /\ eqlen x y).
        { intros -> -> Hc1 Hc2. apply Hup. cbn [ref_core]. unfold ref_reference. cbn [with_g e_g]. rewrite Hd'. cbn [obind]. rewrite Hmac, Hlr, Hp.
          destruct (r_is_macro d).
          - oinv H. rewrite Hm0. cbn [obind]. destruct (r_lr d); [discriminate|].
            destruct (IH sd1 sd2 (r_params d, a) (r_params d, a) m (Hld r) (Hld r) pos vs vs' x Hs (corr_same (r_params d, a) (Hld r) eq_refl (nopre_subst_args _ _ _ _ Hc2 (out_of_Some _ _ Hm0) Hc1)) H) as (j & y & A & B). exists 0, j, y. auto.
          - destruct (IH sd1 sd2 no_frame no_frame m (Hld r) (Hld r) pos vs vs' x Hs (corr_same no_frame (Hld r) eq_refl eq_refl) H) as (j & y & A & B). exists 0, j, y. auto. }
        destruct Hc as [(E1 & E2 & Hc1 & Hc2)|(-> & Hf & Hn & Hc)]; [exact (Hrefl E1 (eq_sym E2) Hc1 Hc2)|].
        cbn [named] in Hn. apply andb_prop in Hn as [Hn Hn3]. apply andb_prop in Hn as [Hn1 Hn2]. rewrite Hm in Hn3.
        cbn [fill] in Hc. destruct (r_is_macro d) eqn:Hma.
        * cbn in Hn3. apply Nat.eqb_eq in Hn3. rewrite (subst_fill _ _ Hf Hn2) in H. cbn [out_of obind] in H. destruct (r_lr d) eqn:Hl; [discriminate|].
          pose proof (fill_all_named _ _ Hf Hn2) as Hall. set (args1 := map (fill (snd fr1)) args) in *.
          apply il_ref_inv in Hc as [->|(d0 & body & Hd0 & Hm0 & Hl0 & Hb0 & Hlen & Hc)].
          -- apply Hup. cbn [ref_core]. unfold ref_reference. cbn [with_g e_g]. rewrite Hd'. cbn [obind]. rewrite Hmac, Hlr, Hp.
             assert (X : subst_args (fst no_frame) (snd no_frame) args1 = Ok args1).
             { rewrite (subst_fill no_frame args1 frame_nil).
               - f_equal. rewrite Forall_forall in Hall. rewrite <- (map_id args1) at 2. apply map_ext_in. intros a Ha. apply (fill_nil true). now apply Hall.
               - rewrite forallb_forall. rewrite Forall_forall in Hall. exact Hall. }
             rewrite X. cbn [out_of obind].
             destruct (IH sd1 sd2 (r_params d, args1) (r_params d, args1) m (Hld r) (Hld r) pos vs vs' x Hs (corr_same (r_params d, args1) (Hld r) eq_refl (all_nopre _ Hall)) H) as (j & y & A & B). exists 0, j, y. auto.
          -- rewrite Hm in Hd0. inv Hd0. destruct k as [|k]; [discriminate|]. cbn [ref ref_core] in H. unfold ref_hld, get_body in H. rewrite Hm in H. cbn [obind] in H.
             rewrite Hb0 in H. cbn [obind] in H. rewrite Hma, Hl in H. cbn [snd] in H.
             refine (IHlt k (Nat.lt_succ_diag_r k) sd1 sd2 (r_params d0, args1) no_frame m body o2 pos vs vs' x Hs _ H).
             right. split; [reflexivity|]. split; [|split; [exact (proj1 (named_of_rule r d0 body Hm Hb0))|exact Hc]].
             split; [|split; [exact Hlen|exact Hall]]. right. exists d0. split; [eapply nth_error_In; eassumption|reflexivity].
        * apply il_ref_inv in Hc as [->|(d0 & body & Hd0 & Hm0 & _)]; [|congruence].
          apply Hup. cbn [ref_core]. unfold ref_reference. cbn [with_g e_g]. rewrite Hd'. cbn [obind]. rewrite Hmac.
          destruct (IH sd1 sd2 no_frame no_frame m (Hld r) (Hld r) pos vs vs' x Hs (corr_same no_frame (Hld r) eq_refl eq_refl) H) as (j & y & A & B). exists 0, j, y. auto.
      + oinv H. destruct Hc as [(-> & <- & Hc1 & Hc2)|(-> & Hf & Hn & Hc)].
        * apply Hup. cbn [ref_core]. unfold ref_reference. rewrite Hm. cbn [obind].
          destruct (IH sd1 sd2 fr2 fr2 m a a pos vs vs' x Hs (corr_same fr2 a (in_nopre _ _ Hc2 (nth_error_In _ _ Hm)) Hc2) H) as (j & y & A & B). exists 0, j, y. auto.
        * cbn [fill] in Hc. rewrite (nth_some _ _ _ _ Hm) in Hc. pose proof Hf as (_ & _ & Hcl). rewrite Forall_forall in Hcl.
          specialize (Hcl a (nth_error_In _ _ Hm)).
          refine (IH sd1 sd2 fr1 no_frame m a o2 pos vs vs' x Hs _ H). right. split; [reflexivity|]. split; [exact Hf|].
          split; [now apply named_weaken|]. now rewrite (fill_closed g a _ true Hcl).
    - destruct Hc as [(-> & <- & Hc1 & Hc2)|(_ & _ & Hn & _)]; [|discriminate]. apply Hup. cbn [ref_core] in *.
      destruct (m_ws m); [inv H; exists 0, 0; eexists; split; reflexivity|].
      destruct (Hone _ o1 o1 vs vs' x (corr_same _ o1 Hc1 Hc2) H) as (j & y & A & B). exists 0, j, y. auto.
    - discriminate.
    - exfalso. destruct Hc as [(_ & _ & Hc1 & _)|(_ & _ & Hn & _)]; discriminate.
    - discriminate.
    - discriminate.
    - discriminate.
  Qed.
End Sim.

(** The %word checks of the inlined grammar are those of the grammar. *)
Lemma inlined_words {V U} (E : env V U) g' : (forall r, e_pred E r = None) -> inlined (e_g E) g' -> named_grammar (e_g E) = true ->
  match e_word E with Some w => nopre w = true | None => True end -> words_le E (with_g E g').
Proof.
  intros Hp Hi Hn Hw. apply words_of; [reflexivity|reflexivity|]. intros w inp k o pos x Hwe Ho H. rewrite Hwe in Hw.
  change (word_env (with_g E g') inp) with (with_g (word_env E inp) g').
  assert (Hz : words_le (word_env E inp) (with_g (word_env E inp) g')) by (apply words_none; reflexivity).
  eapply (msims_all (word_env E inp) g' Hp Hz Hi Hn I k None None no_frame no_frame m_top o o pos sv_new sv_new x I); [|exact H].
  apply corr_same; [|reflexivity]. destruct Ho as [-> | ->]; exact Hw.
Qed.
