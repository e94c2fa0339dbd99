(** * Reading grammar texts: failures decided by the next byte. *)
From Verif Require Import Base BaseLemmas Utf8 Utf8Spec Utf8Proofs Escape TrieM TrieSpec LineInfo Ope Ctx ErrLog Engine EngineLemmas Scope Bounds EngineFacts Top
  RefSem RefMono Refine RefineOps PegRef PrecSpec PrecM LoadM MetaM Run MetaRun MetaJudge.

Fixpoint dies (k : nat) (ob : option byte) (o : ope) : bool :=
  match k with
  | O => false
  | S k' =>
    match o with
    | Chr c => match ob with None => true | Some b => if (bN b <? 128)%N then negb (bN b =? c)%N else (c <? 128)%N end
    | Cls rs false false => match ob with None => true | Some b => if (bN b <? 128)%N then negb (in_cls rs (bN b)) else forallb (fun r => snd r <? 128)%N rs end
    | Lit (c :: _) false => match ob with None => true | Some b => negb (beq b c) end
    | Dot => match ob with None => true | _ => false end
    | Seq None l => (fix go l := match l with [] => false | e :: l' => if dies k' ob e then true else if skips k' ob e then go l' else false end) l
    | Cho false [] l => forallb (dies k' ob) l
    | Rep e (S _) _ _ => dies k' ob e
    | Tok e | Ign e => dies k' ob e
    | Wkh r => match nth_error syms r with Some SDefinition => false | Some s => dies k' ob (sym_body s) | None => false end
    | _ => false
    end
  end
with skips (k : nat) (ob : option byte) (o : ope) : bool :=
  match k with
  | O => false
  | S k' =>
    match o with
    | Rep e O _ _ => dies k' ob e
    | Not e => dies k' ob e
    | Tok e | Ign e => skips k' ob e
    | Wkh r => match nth_error syms r with Some ((SSpacing | SSpacesZom | SIgnore) as s) => skips k' ob (sym_body s) | _ => false end
    | _ => false
    end
  end.

Section Dies.
  Variables (g : grammar) (log : bool) (text : bytes).
  Notation E := (mk_env (meta_parser g log) text).
  Notation run := (run E meta_rules).
  Notation Reads := (Reads g log text).
  Notation Fails := (Fails g log text).
  Notation at_ := (at_ text).
  Definition Skips (o : ope) (s : bytes) : Prop :=
    forall pos vs d k x d', at_ pos s -> run k o pos vs d x d' -> (exists vs', x = Some (0, vs')) /\ d' = d.

  Lemma fails_nt' s t : s <> SDefinition -> Fails (sym_body s) t -> Fails (nt s) t.
  Proof.
    intros Hn H. destruct (quiet s) eqn:Hq; [now apply fails_nt|]. destruct s; try discriminate Hq; [congruence|].
    intros pos vs d k x d' Ha Hr. apply hld_run in Hr as (k' & y & d1 & A & B). destruct (H _ _ _ _ _ _ Ha A) as [-> ->]. cbn in B. destruct B as [-> ->].
    split; [reflexivity|]. destruct d; reflexivity.
  Qed.
  Lemma dies_skips : forall k ob,
    (forall o, dies k ob o = true -> forall s, hd_error s = ob -> Fails o s)
    /\ (forall o, skips k ob o = true -> forall s, hd_error s = ob -> Skips o s).
  Proof.
    induction k as [|k IH]; intros ob; [split; intros; discriminate|]. destruct (IH ob) as [IHd IHs]. split; intros o H s Hs; destruct o; try discriminate H; cbn [dies skips] in H.
    - (* Seq *)
      match goal with |- Fails (Seq ?o _) _ => destruct o; [discriminate H|] end.
      match goal with |- Fails (Seq None ?l) _ => apply (fails_seq g log text l) end.
      match goal with |- FailsS _ _ _ ?l _ => revert H; induction l as [|e l IHl]; intros H; [discriminate H|] end.
      destruct (dies k ob e) eqn:Hd; [apply fs_head; now apply IHd|]. destruct (skips k ob e) eqn:Hk; [|discriminate H].
      intros pos i vs d k1 x d' Ha (y & d1 & A & B). destruct (IHs e Hk s Hs _ _ _ _ _ _ Ha A) as ((vs' & ->) & ->).
      rewrite Nat.add_0_r in B. exact (IHl H _ _ _ _ _ _ _ Ha B).
    - (* Cho *)
      match goal with |- Fails (Cho ?o ?f _) _ => destruct o, f; try discriminate H end.
      match goal with |- Fails (Cho false [] ?l) _ => apply (fails_cho g log text l) end.
      match goal with |- FailsC _ _ _ ?l _ => revert H; induction l as [|e l IHl]; intros H; [apply fc_nil|] end.
      cbn [forallb] in H. apply andb_true_iff in H as [H1 H2]. apply fc_cons; auto.
    - (* Rep *)
      match goal with |- Fails (Rep ?e ?n ?m ?sp) _ => destruct n; [discriminate H|]; intros pos vs d [|k1] x d' Ha Hr; [contradiction|]; apply rep_run in Hr as (k2 & y & d1 & (z & d2 & A & B) & C) end.
      rewrite Nat.add_0_r in A. destruct (IHd _ H s Hs _ _ _ _ _ _ Ha A) as [-> ->]. destruct B as [-> ->]. exact C.
    - (* Lit *)
      match goal with |- Fails (Lit ?w ?ic) _ => destruct w as [|c w]; [discriminate H|]; destruct ic; [discriminate H|]; apply (fails_lit g log text (c :: w) s) end.
      intros t ->. cbn in Hs. subst ob. apply negb_true_iff, beq_neq in H. congruence.
    - (* Cls *)
      match goal with |- Fails (Cls ?rs ?a ?b) _ => destruct a, b; try discriminate H end. apply fails_cls. intros c x t -> Hc.
      destruct (chr_head c x Hc) as (b & y & -> & Hb). cbn in Hs. subst ob. destruct Hb as [(H1 & <- & _)|[H1 H2]].
      + replace (bN b <? 128)%N with true in H by (symmetry; apply N.ltb_lt; lia). now apply negb_true_iff.
      + replace (bN b <? 128)%N with false in H by (symmetry; apply N.ltb_ge; lia). rewrite forallb_forall in H.
        match goal with |- in_cls ?rs c = false => destruct (in_cls rs c) eqn:X; [|reflexivity] end. unfold in_cls in X. apply existsb_exists in X as (r & X1 & X2). specialize (H _ X1). lia.
    - (* Chr *)
      intros pos vs d k1 x d' Ha Hr. destruct (run_leaf _ _ _ _ _ _ _ _ _ _ Hr eq_refl) as [A ->]. split; [|reflexivity]. rewrite leaf_chr in A. unfold ref_chr in A.
      destruct (valid_first s) as [->|(c & y & t & -> & Hc & Ht)]; [apply Ha|..].
      + rewrite (at_end g log text pos Ha) in A. cbn in A. congruence.
      + destruct (at_chr g log text pos c y t Ha Hc) as (B1 & B2 & _). rewrite B1 in A. cbn [e_input mk_env] in A. rewrite B2 in A. cbn in A.
        destruct (chr_head c y Hc) as (b & z & -> & Hb). cbn in Hs. subst ob.
        match type of A with context [if (c =? ?q)%N then _ else _] => assert (Hq : (c =? q)%N = false) end.
        { apply N.eqb_neq. destruct Hb as [(H1 & <- & _)|[H1 H2]].
          - replace (bN b <? 128)%N with true in H by (symmetry; apply N.ltb_lt; lia). now apply negb_true_iff, N.eqb_neq in H.
          - replace (bN b <? 128)%N with false in H by (symmetry; apply N.ltb_ge; lia). apply N.ltb_lt in H. lia. }
        rewrite Hq in A. congruence.
    - (* Dot *)
      destruct ob; [discriminate H|]. destruct s; [|discriminate Hs]. apply fails_dot.
    - apply fails_tok; now apply IHd.
    - apply fails_ign; now apply IHd.
    - (* Wkh *)
      match type of H with context [nth_error syms ?r] => destruct (nth_error syms r) as [s'|] eqn:Hr; [|discriminate H]; assert (X : r = sid s') end.
      { pose proof (sid_sym s') as Hq. pose proof (proj1 (NoDup_nth_error syms)) as Hnd. apply Hnd; [|apply nth_error_Some; congruence|congruence].
        clear. assert (X : (fix nd l := match l with [] => true | a :: l' => negb (existsb (fun b => if sym_eq_dec a b then true else false) l') && nd l' end) syms = true) by (vm_compute; reflexivity).
        revert X. generalize syms. induction l as [|a l IHl]; intros X; [constructor|]. apply andb_true_iff in X as [X1 X2]. constructor; [|auto].
        intros Hin. apply negb_true_iff in X1. rewrite <- not_true_iff_false in X1. apply X1. apply existsb_exists. exists a. split; [exact Hin|]. destruct (sym_eq_dec a a); [reflexivity|congruence]. }
      subst. fold (nt s'). apply fails_nt'; [destruct s'; discriminate|]. apply IHd; [|reflexivity]. destruct s'; try exact H; discriminate H.
    - (* Rep, skips *)
      match goal with |- Skips (Rep ?e1 ?n ?m ?sp) _ => rename e1 into e; destruct n; [|discriminate H]; intros pos vs d [|k1] x d' Ha Hr; [contradiction|]; apply rep_run in Hr as (k2 & y & d1 & A & B) end.
      destruct A as [-> ->]. assert (Hm : forall room f, run_more (run k2) f e room pos 0 vs d x d' -> (exists vs', x = Some (0, vs')) /\ d' = d).
      { intros room f Hm. destruct (rm_nil g log text e room s (IHd _ H s Hs)) as [_ X].
        destruct (X pos 0 vs d k2 f x d') as (-> & vs' & -> & _); [now rewrite Nat.add_0_r|exact Hm|]. split; [eexists; reflexivity|reflexivity]. }
      match type of B with match ?m with Some _ => _ | None => _ end => destruct m as [q|]; [destruct (0 <? q); [eapply Hm; eauto|]|eapply Hm; eauto] end.
      destruct B as [-> ->]. split; [eexists; reflexivity|reflexivity].
    - (* Not *) intros pos vs d [|k1] x d' Ha Hr; [contradiction|]. destruct Hr as (y & A & ->). destruct (IHd _ H s Hs _ _ _ _ _ _ Ha A) as [-> ->].
      split; [eexists; reflexivity|reflexivity].
    - (* Tok *) intros pos vs d [|k1] x d' Ha Hr; [contradiction|]. destruct Hr as (y & A & ->). destruct (IHs _ H s Hs _ _ _ _ _ _ Ha A) as ((vs' & ->) & ->).
      split; [eexists; reflexivity|reflexivity].
    - (* Ign *) intros pos vs d [|k1] x d' Ha Hr; [contradiction|]. destruct Hr as (y & A & ->). destruct (IHs _ H s Hs _ _ _ _ _ _ Ha A) as ((vs' & ->) & ->).
      split; [eexists; reflexivity|reflexivity].
    - (* Wkh *)
      match type of H with context [nth_error syms ?r] => destruct (nth_error syms r) as [s'|] eqn:Hr; [|discriminate H] end.
      assert (Hall : skips k ob (sym_body s') = true /\ (s' = SSpacing \/ s' = SSpacesZom \/ s' = SIgnore)) by (destruct s'; try discriminate H; auto). destruct Hall as [H1 H2].
      intros pos vs d [|k1] x d' Ha Hr1; [contradiction|]. destruct k1 as [|k1]; [contradiction|]. destruct Hr1 as (ig & tag & body & y & d1 & A & B & C).
      unfold meta_rules in A. rewrite Hr in A. injection A as <- <- <-. unfold enter_dt in B. change (e_enter E) with meta_enter in B. unfold meta_enter in B. rewrite Hr in B.
      unfold act_dt, leave_dt in C. change (e_action E) with meta_action in C. change (e_leave E) with meta_leave in C. unfold meta_action, meta_leave in C. rewrite Hr in C.
      destruct H2 as [-> |[-> | ->]]; (destruct (IHs _ H1 s Hs _ _ _ _ _ _ Ha B) as ((vs' & ->) & ->); cbn in C; destruct C as [-> ->]; split; [eexists; reflexivity|reflexivity]).
  Qed.
  Theorem dies_fails k ob o s : dies k ob o = true -> hd_error s = ob -> Fails o s.
  Proof. intros H Hs. exact (proj1 (dies_skips k ob) o H s Hs). Qed.
End Dies.
