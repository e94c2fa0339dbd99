(** * What the detection of left recursion finds (C33). *)
From Verif Require Import Base BaseLemmas Utf8 Escape TrieM LineInfo Ope Ctx ErrLog Engine EngineLemmas Top Scope RefSem FirstSetM FirstSpec
  PackratFilter PrecSpec PrecM LoadM LoadSpec LoadRefs PegDen LoadPeg LoadLoop.

Section Loops.
  Variable f : ope -> lr_st -> option lr_st.
  Fixpoint lseq_ (l : list ope) (st : lr_st) : option lr_st :=
    match l with
    | [] => Some st
    | x :: l' => match f x st with
                 | None => None
                 | Some st1 => if l_done st1 then Some st1 else if l_err st1 then Some (lr_set_done true st1) else lseq_ l' st1
                 end
    end.
  Fixpoint lcho_ (l : list ope) (st : lr_st) : option lr_st :=
    match l with
    | [] => Some st
    | x :: l' => match f x st with None => None | Some st1 => if l_err st1 then Some (lr_set_done true st1) else lcho_ l' st1 end
    end.
End Loops.

(** ** The flags are at a fixpoint *)
Definition flags_fixed (g : grammar) : Prop := forall d, In d g -> r_can_be_empty d = empty_of g d.
Lemma pass_unchanged n : forall i g g', empty_pass n i g = (g', false) -> g' = g /\ forall j d, i <= j < i + n -> nth_error g j = Some d -> r_can_be_empty d = empty_of g d.
Proof.
  induction n as [|n IH]; intros i g g' H; cbn [empty_pass] in H; [injection H as <-; split; [reflexivity|lia]|].
  destruct (nth_error g i) as [d0|] eqn:Hd0.
  - cbv zeta in H. destruct (Bool.eqb (empty_of g d0) (r_can_be_empty d0)) eqn:E; [|discriminate].
    apply Bool.eqb_prop in E. destruct (IH _ _ _ H) as [-> A]. split; [reflexivity|]. intros j d Hj Hd.
    destruct (Nat.eq_dec j i) as [-> |Hne]; [congruence|]. apply (A j); [lia|exact Hd].
  - injection H as <-. split; [reflexivity|]. intros j d Hj Hd. exfalso. apply nth_error_None in Hd0.
    assert (j < List.length g) by (apply nth_error_Some; congruence). lia.
Qed.
Lemma fix_fixed fuel : forall g g', empty_fix fuel g = Some g' -> flags_fixed g'.
Proof.
  induction fuel as [|fuel IH]; intros g g' H; [discriminate|]. cbn [empty_fix] in H. destruct (empty_pass (List.length g) 0 g) as [g1 ch] eqn:E.
  destruct ch; [eauto|]. injection H as <-. apply pass_unchanged in E as [-> A]. intros d Hd. apply In_nth_error in Hd as [j Hj]. apply (A j); [|exact Hj].
  split; [lia|]. apply nth_error_Some. congruence.
Qed.

Section Detect.
  Variable g : grammar.
  Hypothesis Hg : ordinary_grammar g.
  Hypothesis Hnd : NoDup (map r_name g).
  Hypothesis Hlink : forall d b, In d g -> r_is_macro d = false -> r_body d = Some b -> named_refs g b.
  Hypothesis Hreg : forall d b, In d g -> r_is_macro d = false -> r_body d = Some b -> regular g b.
  Hypothesis Hfix : flags_fixed g.

  Lemma regular_part o p : In p (parts [] o) -> regular g o -> regular g p.
  Proof. intros H Ho x Hx. apply Ho. eapply inside_part; eauto. Qed.
  Lemma flags_complete k : forall o, ordinary g o = true -> regular g o -> named_refs g o -> nlb (stage g k) o = true -> PackratFilter.can_be_empty g o = true.
  Proof.
    induction k as [k IHk] using lt_wf_ind. unfold PackratFilter.can_be_empty. intros o. induction o using ope_ind'; cbn [ordinary nlb cbe_ope]; intros Ho Hr Hn Hs; try discriminate; auto;
      try (apply IHo; auto; [eapply regular_part; [|exact Hr]; left; reflexivity|eapply named_part; [|exact Hn]; left; reflexivity]; fail).
    - apply andb_prop in Ho as [_ Ho]. rewrite forallb_forall in *. rewrite Forall_forall in H. intros x Hx. apply H; auto; [eapply regular_part; [|exact Hr]; exact Hx|eapply named_part; [|exact Hn]; exact Hx].
    - apply andb_prop in Ho as [_ Ho]. rewrite forallb_forall in Ho. rewrite existsb_exists in *. rewrite Forall_forall in H. destruct Hs as (x & Hx & Hs).
      exists x. split; [exact Hx|]. apply H; auto; [eapply regular_part; [|exact Hr]; exact Hx|eapply named_part; [|exact Hn]; exact Hx].
    - destruct (mn =? 0) eqn:E; [reflexivity|]. exfalso. apply Nat.eqb_neq in E. apply (Hr _ (inside_self _ _)); [lia|]. eapply nlb_me; [apply stage_me|exact Hs].
    - destruct rl as [r|]; [|discriminate]. destruct k as [|k]; [discriminate|]. cbn [stage] in Hs. destruct (nth_error g r) as [d|] eqn:Hd; [|discriminate].
      rewrite (Hfix d (nth_error_In _ _ Hd)). unfold empty_of. destruct (r_body d) as [b|] eqn:Hb; [|discriminate].
      assert (Hpl : r_is_macro d = false) by (destruct m; [discriminate|]; destruct args; [|discriminate]; now apply negb_true_iff).
      pose proof (Hg d (nth_error_In _ _ Hd) Hpl) as Hob. rewrite Hb in Hob. apply (IHk k); eauto using nth_error_In.
  Qed.
  Lemma empty_flag r d b : nth_error g r = Some d -> r_is_macro d = false -> r_body d = Some b -> may_be_empty g b -> r_can_be_empty d = true.
  Proof.
    intros Hd Hpl Hb Hm. rewrite (Hfix d (nth_error_In _ _ Hd)). unfold empty_of. rewrite Hb. apply me_stage in Hm as [k Hk].
    pose proof (Hg d (nth_error_In _ _ Hd) Hpl) as Hob. rewrite Hb in Hob. eapply flags_complete; eauto using nth_error_In.
  Qed.

  Variable keq : rid * list ope -> rid * list ope -> bool.
  Variable name : bytes.
  Definition seen (refs : list (rid * nat)) (o : ope) : Prop := forall r, calls_first g o r -> In (r, 0) refs /\ nameof g r <> name.
  Definition lr_post (o : ope) (st st' : lr_st) : Prop :=
    l_err st = false
    /\ (exists new, l_refs st' = new ++ l_refs st
        /\ forall r i, In (r, i) new -> nameof g r <> name /\ forall d b, nth_error g r = Some d -> r_body d = Some b -> seen (l_refs st') b)
    /\ seen (l_refs st') o
    /\ (l_done st' = true -> ~ may_be_empty g o).
  Definition lr_mid (st st' : lr_st) : Prop :=
    l_err st = false
    /\ (exists new, l_refs st' = new ++ l_refs st
        /\ forall r i, In (r, i) new -> nameof g r <> name /\ forall d b, nth_error g r = Some d -> r_body d = Some b -> seen (l_refs st') b).
  Lemma seen_mono refs refs' o : (forall x, In x refs -> In x refs') -> seen refs o -> seen refs' o.
  Proof. intros H Hs r Hr. destruct (Hs r Hr). auto. Qed.
  Lemma mid_trans st st1 st2 : lr_mid st st1 -> lr_mid st1 st2 -> lr_mid st st2.
  Proof.
    intros (A & n1 & B & C) (D & n2 & E & F). split; [exact A|]. exists (n2 ++ n1). split; [rewrite E, B; apply app_assoc|].
    intros r i Hi. apply in_app_iff in Hi as [Hi|Hi]; [eauto|]. destruct (C r i Hi) as [C1 C2]. split; [exact C1|]. intros d b Hd Hb.
    eapply seen_mono; [|eauto]. rewrite E. intros x Hx. apply in_app_iff. now right.
  Qed.
  Lemma mid_sub st st' : lr_mid st st' -> forall x, In x (l_refs st) -> In x (l_refs st').
  Proof. intros (_ & n & -> & _) x Hx. apply in_app_iff. now right. Qed.
  Lemma post_mid o st st' : lr_post o st st' -> lr_mid st st'.
  Proof. intros (A & B & _). split; assumption. Qed.
  Lemma mid_refl st : l_err st = false -> lr_mid st st.
  Proof. intros H. split; [exact H|]. exists []. split; [reflexivity|intros ? ? []]. Qed.
  Lemma mid_done st st' dn : lr_mid st (lr_set_done dn st') <-> lr_mid st st'.
  Proof. reflexivity. Qed.

  Lemma lr_walk : forall fuel o st st', ordinary g o = true -> named_refs g o -> regular g o ->
    lr_enter fuel g keq name [] o st = Some st' -> l_err st' = false -> lr_post o st st'.
  Proof.
    induction fuel as [|fuel IHf]; intros o st st' Ho Hn Hr H He; [discriminate|]. cbn [lr_enter] in H.
    revert st st' Ho Hn Hr H He. induction o using ope_ind'; intros st st' Ho Hn Hr H1 He; try discriminate Ho;
      try (cbn [lr_ope] in H1; injection H1 as <-; cbn [l_err lr_set_done lr_with] in He; split; [exact He|]; split; [exists []; split; [reflexivity|intros ? ? []]|]; split;
           [intros r Hcf; inversion Hcf|intros _ Hme; inversion Hme]; fail);
      try (cbn [lr_ope] in H1; cbn [ordinary] in Ho;
           destruct (IHo st st' Ho ltac:(eapply named_part; [|exact Hn]; left; reflexivity) ltac:(eapply regular_part; [|exact Hr]; left; reflexivity) H1 He) as (A & B & C & D);
           split; [exact A|]; split; [exact B|]; split; [intros r Hcf; inversion Hcf; subst; auto|intros Hd Hme; inversion Hme; subst; apply (D Hd); assumption]; fail).
    - change (lseq_ (lr_ope g keq name (lr_enter fuel g keq name) []) l st = Some st') in H1.
      cbn [ordinary] in Ho. apply andb_prop in Ho as [Hne Ho]. rewrite forallb_forall in Ho. rewrite Forall_forall in H.
      enough (Hgen : forall l' st, (forall x, In x l' -> In x l) -> l_done st = false \/ l' <> [] -> lseq_ (lr_ope g keq name (lr_enter fuel g keq name) []) l' st = Some st' ->
        lr_mid st st' /\ (forall l1 x l2 r, l' = l1 ++ x :: l2 -> Forall (may_be_empty g) l1 -> calls_first g x r -> In (r, 0) (l_refs st') /\ nameof g r <> name)
        /\ (l_done st' = true -> ~ Forall (may_be_empty g) l')).
      { destruct (Hgen l st) as [(A & B) [C D]]; auto; [right; destruct l; discriminate|]. split; [exact A|]. split; [exact B|]. split.
        - intros r Hcf. inversion Hcf; subst. eapply C; eauto.
        - intros Hd Hme. inversion Hme; subst. now apply (D Hd). }
      clear st H1. induction l' as [|x l' IHl]; intros st Hin Hdn H1; cbn [lseq_] in H1.
      { injection H1 as <-. split; [now apply mid_refl|]. split; [intros [|] ? ? ? Hx; discriminate|]. destruct Hdn; [congruence|contradiction]. }
      destruct (lr_ope g keq name (lr_enter fuel g keq name) [] x st) as [st1|] eqn:Hx; [|discriminate].
      pose proof (Hin x (or_introl eq_refl)) as Hxl.
      assert (Hpx : l_err st1 = false -> lr_post x st st1).
      { intros He1. apply (H x Hxl st st1); auto; [eapply named_part; [|exact Hn]; exact Hxl|eapply regular_part; [|exact Hr]; exact Hxl]. }
      destruct (l_done st1) eqn:Hd1.
      { injection H1 as <-. specialize (Hpx He). destruct Hpx as (A & B & C & D). split; [split; assumption|]. split.
        - intros [|y l1] z l2 r Heq Hf Hcf; injection Heq as -> ->; [now apply C|]. inversion Hf; subst. now apply D in Hd1.
        - intros _ Hf. inversion Hf; subst. now apply D in Hd1. }
      destruct (l_err st1) eqn:He1; [injection H1 as <-; cbn in He; congruence|]. specialize (Hpx eq_refl).
      destruct (IHl st1) as (A & B & C); [intros y Hy; apply Hin; now right|now left|exact H1|].
      split; [eapply mid_trans; [eapply post_mid; exact Hpx|exact A]|]. split.
      + intros [|y l1] z l2 r Heq Hf Hcf; injection Heq as -> ->.
        * destruct Hpx as (_ & _ & Hs & _). destruct (Hs r Hcf) as [X Y]. split; [|exact Y]. eapply mid_sub; eauto.
        * inversion Hf; subst. eapply B; eauto.
      + intros Hd Hf. inversion Hf; subst. now apply (C Hd).
    - change (lcho_ (lr_ope g keq name (lr_enter fuel g keq name) []) l st = Some st') in H1.
      cbn [ordinary] in Ho. apply andb_prop in Ho as [Hne Ho]. rewrite forallb_forall in Ho. rewrite Forall_forall in H.
      enough (Hgen : forall l' st, (forall x, In x l' -> In x l) -> lcho_ (lr_ope g keq name (lr_enter fuel g keq name) []) l' st = Some st' ->
        lr_mid st st' /\ (forall x, In x l' -> seen (l_refs st') x)
        /\ (forall l1 y, l' = l1 ++ [y] -> l_done st' = true -> ~ may_be_empty g y)).
      { destruct (Hgen l st) as [(A & B) [C D]]; auto. split; [exact A|]. split; [exact B|]. split.
        - intros r Hcf. inversion Hcf; subst. eapply C; eauto.
        - intros Hd Hme. inversion Hme; subst. destruct (Hr _ (inside_self _ _)) as (l1 & y & E & F); [apply Exists_exists; eauto|]. eapply D; eauto. }
      clear st H1. induction l' as [|x l' IHl]; intros st Hin H1; cbn [lcho_] in H1.
      { injection H1 as <-. split; [now apply mid_refl|]. split; [intros ? []|]. intros [|] ? Hx; discriminate. }
      destruct (lr_ope g keq name (lr_enter fuel g keq name) [] x st) as [st1|] eqn:Hx; [|discriminate].
      pose proof (Hin x (or_introl eq_refl)) as Hxl.
      assert (Hpx : l_err st1 = false -> lr_post x st st1).
      { intros He1. apply (H x Hxl st st1); auto; [eapply named_part; [|exact Hn]; exact Hxl|eapply regular_part; [|exact Hr]; exact Hxl]. }
      destruct (l_err st1) eqn:He1; [injection H1 as <-; cbn in He; congruence|]. specialize (Hpx eq_refl).
      destruct (IHl st1) as (A & B & C); [intros y Hy; apply Hin; now right|exact H1|].
      split; [eapply mid_trans; [eapply post_mid; exact Hpx|exact A]|]. split.
      + intros y [<- |Hy]; [|auto]. destruct Hpx as (_ & _ & Hs & _). eapply seen_mono; [|exact Hs]. eapply mid_sub; eauto.
      + intros [|z l1] y Heq Hd; injection Heq as -> ->.
        * cbn [lcho_] in H1. injection H1 as <-. destruct Hpx as (_ & _ & _ & Hs). auto.
        * eapply C; eauto.
    - cbn [lr_ope] in H1. cbn [ordinary] in Ho. destruct (lr_ope g keq name (lr_enter fuel g keq name) [] o st) as [st1|] eqn:Hx; [|discriminate].
      injection H1 as <-. destruct (IHo st st1 Ho ltac:(eapply named_part; [|exact Hn]; left; reflexivity) ltac:(eapply regular_part; [|exact Hr]; left; reflexivity) Hx He) as (A & B & C & D).
      split; [exact A|]. split; [exact B|]. split; [intros r Hcf; inversion Hcf; subst; auto|]. cbn [l_done lr_set_done lr_with]. intros Hd Hme. apply Nat.ltb_lt in Hd.
      inversion Hme; subst; [lia|]. exact (Hr _ (inside_self _ _) Hd H0).
    - cbn [lr_ope] in H1. cbn [ordinary] in Ho. destruct (lr_ope g keq name (lr_enter fuel g keq name) [] o st) as [st1|] eqn:Hx; [|discriminate].
      injection H1 as <-. destruct (IHo st st1 Ho ltac:(eapply named_part; [|exact Hn]; left; reflexivity) ltac:(eapply regular_part; [|exact Hr]; left; reflexivity) Hx He) as (A & B & C & D).
      split; [exact A|]. split; [exact B|]. split; [intros r Hcf; inversion Hcf; subst; auto|discriminate].
    - cbn [lr_ope] in H1. cbn [ordinary] in Ho. destruct (lr_ope g keq name (lr_enter fuel g keq name) [] o st) as [st1|] eqn:Hx; [|discriminate].
      injection H1 as <-. destruct (IHo st st1 Ho ltac:(eapply named_part; [|exact Hn]; left; reflexivity) ltac:(eapply regular_part; [|exact Hr]; left; reflexivity) Hx He) as (A & B & C & D).
      split; [exact A|]. split; [exact B|]. split; [intros r Hcf; inversion Hcf; subst; auto|discriminate].
    - cbn [lr_ope] in H1. injection H1 as <-. cbn [l_err lr_set_done lr_with] in He. split; [exact He|]. split; [exists []; split; [reflexivity|intros ? ? []]|]. split.
      + intros r Hcf; inversion Hcf.
      + intros Hd Hme. inversion Hme; subst. discriminate.
    - cbn [ordinary] in Ho. destruct rl as [r|]; [|discriminate]. destruct m; [discriminate|]. destruct args; [|discriminate].
      destruct (Hn n r ia false [] (inside_self _ _)) as (d & Hd & Hname).
      assert (Hpl : r_is_macro d = false) by (rewrite Hd in Ho; now apply negb_true_iff).
      assert (Hnm : nameof g r = n) by (unfold nameof; now rewrite Hd).
      cbn [lr_ope] in H1. destruct (bytes_eqb n name) eqn:En; [injection H1 as <-; cbn in He; discriminate|].
      assert (Hne : nameof g r <> name) by (intros E; rewrite <- Hnm, E, bytes_eqb_refl in En; discriminate).
      cbn [andb] in H1. unfold rule_empty in H1. rewrite Hd in H1.
      assert (Hlast : forall st0, l_done (lr_set_done (negb (r_can_be_empty d)) st0) = true -> ~ may_be_empty g (Ref n (Some r) ia false [])).
      { intros st0 Hdn Hme. cbn in Hdn. apply negb_true_iff in Hdn. inversion Hme; subst. match goal with Hrb : rule_body g r _ _ |- _ => destruct Hrb as [X Y] end.
        rewrite Hd in X. injection X as <-. rewrite (empty_flag r d b Hd Hpl Y) in Hdn; [discriminate|assumption]. }
      destruct (rn_mem (r, 0) (l_refs st)) eqn:Hmem.
      { injection H1 as <-. cbn [l_err lr_set_done lr_with] in He. split; [exact He|]. split; [exists []; split; [reflexivity|intros ? ? []]|]. split; [|apply Hlast].
        intros r1 Hcf. inversion Hcf; subst. split; [|exact Hne]. unfold rn_mem in Hmem. apply existsb_exists in Hmem as ([a b] & Hin & E). cbn in E.
        apply andb_prop in E as [E1 E2]. apply Nat.eqb_eq in E1, E2. subst. exact Hin. }
      destruct (r_body d) as [b|] eqn:Hb; [|discriminate].
      destruct (lr_enter fuel g keq name [] b (lr_set_refs ((r, 0) :: l_refs st) st)) as [st1|] eqn:Hx; [|discriminate].
      assert (He1 : l_err st1 = false) by (destruct (l_done st1); injection H1 as <-; exact He).
      pose proof (Hg d (nth_error_In _ _ Hd) Hpl) as Hob. rewrite Hb in Hob.
      destruct (IHf b _ st1 Hob (Hlink _ _ (nth_error_In _ _ Hd) Hpl Hb) (Hreg _ _ (nth_error_In _ _ Hd) Hpl Hb) Hx He1) as (A & (new & B1 & B2) & C & D).
      cbn [l_err l_refs lr_set_refs] in A, B1.
      assert (Hrefs : l_refs st' = l_refs st1) by (destruct (l_done st1); injection H1 as <-; reflexivity).
      split; [exact A|]. rewrite Hrefs. split; [|split].
      + exists (new ++ [(r, 0)]). split; [rewrite B1, <- app_assoc; reflexivity|]. intros r1 i1 Hi. apply in_app_iff in Hi as [Hi|[[= <- <-]|[]]]; [eauto|].
        split; [exact Hne|]. intros d1 b1 Hd1 Hb1. rewrite Hd in Hd1. injection Hd1 as <-. rewrite Hb in Hb1. injection Hb1 as <-. exact C.
      + intros r1 Hcf. inversion Hcf; subst. split; [|exact Hne]. rewrite B1. apply in_app_iff. right. now left.
      + destruct (l_done st1) eqn:E1; injection H1 as <-; [apply Hlast|]. congruence.
  Qed.
End Detect.

(** ** Rules that are not flagged do not call themselves first *)
Section Acyclic.
  Variable g : grammar.
  Hypothesis Hg : ordinary_grammar g.
  Hypothesis Hnd : NoDup (map r_name g).
  Hypothesis Hlink : forall d b, In d g -> r_is_macro d = false -> r_body d = Some b -> named_refs g b.
  Hypothesis Hreg : forall d b, In d g -> r_is_macro d = false -> r_body d = Some b -> regular g b.
  Hypothesis Hfix : flags_fixed g.
  Variable keq : rid * list ope -> rid * list ope -> bool.

  Definition first_call (r r' : rid) : Prop := exists d b, nth_error g r = Some d /\ r_body d = Some b /\ calls_first g b r'.
  Lemma detect_closed fuel r d : nth_error g r = Some d -> r_is_macro d = false -> lr_detect fuel g keq d = Some false ->
    exists V, ~ In r V /\ (forall r', first_call r r' -> In r' V) /\ (forall r1 r2, In r1 V -> first_call r1 r2 -> In r2 V).
  Proof.
    intros Hd Hpl H. unfold lr_detect in H. destruct (r_body d) as [b|] eqn:Hb; [|discriminate].
    destruct (lr_enter fuel g keq (r_name d) [] b lr_st0) as [st|] eqn:Hx; [|discriminate]. cbn in H. injection H as He.
    pose proof (Hg d (nth_error_In _ _ Hd) Hpl) as Hob. rewrite Hb in Hob.
    destruct (lr_walk g Hg Hlink Hreg Hfix keq (r_name d) fuel b lr_st0 st Hob (Hlink _ _ (nth_error_In _ _ Hd) Hpl Hb) (Hreg _ _ (nth_error_In _ _ Hd) Hpl Hb) Hx He)
      as (_ & (new & Hn & Hnew) & Hs & _).
    cbn [l_refs lr_st0] in Hn. rewrite app_nil_r in Hn. subst new. exists (map fst (l_refs st)). split; [|split].
    - intros Hin. apply in_map_iff in Hin as ([r1 i] & E & Hin). cbn in E. subst r1. destruct (Hnew _ _ Hin) as [A _]. apply A. unfold nameof. now rewrite Hd.
    - intros r' (d1 & b1 & A & B & C). rewrite Hd in A. injection A as <-. rewrite Hb in B. injection B as <-. apply in_map_iff. exists (r', 0). split; [reflexivity|]. now apply Hs.
    - intros r1 r2 Hin (d1 & b1 & A & B & C). apply in_map_iff in Hin as ([r1' i] & E & Hin). cbn in E. subst r1'.
      destruct (Hnew _ _ Hin) as [_ D]. apply in_map_iff. exists (r2, 0). split; [reflexivity|]. now apply (D d1 b1 A B).
  Qed.
  Lemma left_reaches_in V : (forall r1 r2, In r1 V -> first_call r1 r2 -> In r2 V) -> forall r r', left_reaches g r r' ->
    (In r V -> In r' V) /\ ((forall r2, first_call r r2 -> In r2 V) -> In r' V).
  Proof.
    intros Hc r r' H. induction H as [r r' d b A B C|r r1 r2 H1 [IH1 IH2] H2 [IH3 IH4]].
    - assert (Hf : first_call r r') by (exists d, b; auto). split; [intros Hr; eapply Hc; eauto|auto].
    - split; auto.
  Qed.
  (** A rule that calls itself first is flagged. *)
  Lemma recursion_found fuel r d : nth_error g r = Some d -> r_is_macro d = false -> left_reaches g r r -> lr_detect fuel g keq d <> Some false.
  Proof.
    intros Hd Hpl Hl H. destruct (detect_closed _ _ _ Hd Hpl H) as (V & A & B & C). apply A. now apply (left_reaches_in V C r r Hl).
  Qed.

  Hypothesis Hall : forall r d, nth_error g r = Some d -> r_is_macro d = false -> exists fuel, lr_detect fuel g keq d = Some false.
  Lemma filter_less {A} (p : A -> bool) l x : In x l -> p x = false -> List.length (filter p l) < List.length l.
  Proof.
    assert (Hle : forall l, List.length (filter p l) <= List.length l) by (intros l0; induction l0 as [|z l0 IH0]; cbn; [lia|destruct (p z); cbn; lia]).
    induction l as [|y l IH]; [intros []|]. intros [<- |Hin] Hp; cbn.
    - rewrite Hp. specialize (Hle l). lia.
    - specialize (IH Hin Hp). destruct (p y); cbn; lia.
  Qed.
  Lemma first_plain o r : calls_first g o r -> ordinary g o = true -> plain_rule g r.
  Proof.
    induction 1; cbn [ordinary]; intros Ho; auto.
    - apply andb_prop in Ho as [_ Ho]. rewrite forallb_forall in Ho. apply IHcalls_first, Ho, in_app_iff. right. now left.
    - apply andb_prop in Ho as [_ Ho]. rewrite forallb_forall in Ho. auto.
    - destruct mac; [discriminate|]. destruct args; [|discriminate]. intros d Hd. rewrite Hd in Ho. now apply negb_true_iff.
  Qed.
  Lemma first_call_plain r r' : first_call r r' -> plain_rule g r -> plain_rule g r'.
  Proof.
    intros (d & b & A & B & C) Hp. pose proof (Hg d (nth_error_In _ _ A) (Hp d A)) as Ho. rewrite B in Ho. eapply first_plain; eauto.
  Qed.
  Lemma closed_acc : forall k W, List.length W <= k -> (forall r1 r2, In r1 W -> first_call r1 r2 -> In r2 W) -> forall r, In r W -> plain_rule g r -> Acc (fun r' r => first_call r r') r.
  Proof.
    induction k as [|k IH]; intros W Hk Hc r Hr Hp; [destruct W; [destruct Hr|cbn in Hk; lia]|]. constructor. intros r' Hrr'.
    destruct (nth_error g r) as [d|] eqn:Hd; [|destruct Hrr' as (d & b & X & _); congruence].
    destruct (Hall r d Hd (Hp d Hd)) as [fuel Hf]. destruct (detect_closed _ _ _ Hd (Hp d Hd) Hf) as (V & A & B & C).
    apply (IH (filter (fun x => if in_dec Nat.eq_dec x V then true else false) W)).
    - apply Nat.lt_succ_r. eapply Nat.lt_le_trans; [|exact Hk]. apply (filter_less _ _ r Hr).
      destruct (in_dec Nat.eq_dec r V); [contradiction|reflexivity].
    - intros r1 r2 Hin Hf12. apply filter_In in Hin as [H1 H2]. apply filter_In. split; [eapply Hc; eauto|].
      destruct (in_dec Nat.eq_dec r1 V) as [H3|]; [|discriminate]. destruct (in_dec Nat.eq_dec r2 V) as [|n]; [reflexivity|]. exfalso. apply n. eapply C; eauto.
    - apply filter_In. split; [eapply Hc; eauto|]. destruct (in_dec Nat.eq_dec r' V) as [|n]; [reflexivity|]. exfalso. apply n. auto.
    - eapply first_call_plain; eauto.
  Qed.
  Lemma first_call_acc r : plain_rule g r -> Acc (fun r' r => first_call r r') r.
  Proof.
    intros Hp. destruct (nth_error g r) as [d|] eqn:Hd; [|constructor; intros r' (d & b & X & _); congruence].
    destruct (Hall r d Hd (Hp d Hd)) as [fuel Hf]. destruct (detect_closed _ _ _ Hd (Hp d Hd) Hf) as (V & A & B & C). constructor. intros r' Hr'.
    apply (closed_acc (List.length V) V); auto. eapply first_call_plain; eauto.
  Qed.
End Acyclic.

(** ** Static first calls against the meaning of the grammar *)
Section Meaning.
  Variable g : grammar.
  Variable ws : option ope.
  Hypothesis Hg : ordinary_grammar g.
  Notation G := (peg_of g ws).
  Import PegSpec PegFacts.
  Lemma seqs_left l n : left_call G (PSeqs l) n -> exists l1 x l2, l = l1 ++ x :: l2 /\ Forall (PegSpec.can_be_empty G) l1 /\ left_call G x n.
  Proof.
    induction l as [|x l IH]; cbn; [intros []|]. intros [H|[He H]]; [exists [], x, l; auto|].
    destruct (IH H) as (l1 & y & l2 & -> & A & B). exists (x :: l1), y, l2. auto.
  Qed.
  Lemma alts_left l n : left_call G (PAlts l) n -> exists x, In x l /\ left_call G x n.
  Proof. induction l as [|x l IH]; cbn; [intros []|]. intros [H|H]; [eauto|]. destruct (IH H) as (y & A & B). eauto. Qed.
  Lemma times_left k a n : left_call G (PTimes k a) n -> left_call G a n.
  Proof. induction k; cbn; [intros []|]. intros [H|[_ H]]; auto. Qed.
  Lemma upto_left k a n : left_call G (PUpTo k a) n -> left_call G a n.
  Proof. induction k; cbn; [intros []|]. intros [[H|[_ H]]|[]]; auto. Qed.
  Lemma repeat_left mn mx a n : left_call G (PRepeat mn mx a) n -> left_call G a n.
  Proof.
    unfold PRepeat. destruct mx as [x|]; [destruct (mn <? x)|]; cbn; [intros [H|[_ H]]|intros H|intros [H|[_ H]]]; eauto using times_left, upto_left.
  Qed.
  Lemma inside_token_ws m : m_ws (inside_token ws m) = m_ws m.
  Proof. unfold inside_token. destruct ws; reflexivity. Qed.
  Definition left_to (m : mode) (o : ope) (n : nt) : Prop :=
    (exists r m', n = NRule r m' /\ m_ws m' = m_ws m /\ calls_first g o r) \/ (exists m', n = NSkip m' /\ m_ws m' = m_ws m) \/ (exists t, n = NDic t).
  Lemma dic_no_left t n : ~ left_call G (G (NDic t)) n.
  Proof. intros H. cbn [peg_of] in H. apply alts_left in H as (x & Hx & H). apply in_map_iff in Hx as (w & <- & _). exact H. Qed.
  Lemma den_left o : ordinary g o = true -> (forall x, inside [] o x -> forall n r ia mac args, x = Ref n (Some r) ia mac args -> r < List.length g) ->
    forall fr m n, left_call G (den g ws fr m o) n -> left_to m o n.
  Proof.
    assert (Hsub : forall o p m m' n, m_ws m' = m_ws m -> (forall r, calls_first g p r -> calls_first g o r) -> left_to m' p n -> left_to m o n).
    { intros o0 p m m' n Hm Hc [(r & m1 & A & B & C)|[(m1 & A & B)|A]]; [left; exists r, m1; repeat split; auto; congruence|right; left; exists m1; split; congruence|right; right; exact A]. }
    induction o using ope_ind'; cbn [ordinary den]; intros Ho Hin fr mo n0 Hl; try discriminate;
      try (eapply Hsub; [reflexivity| |eapply IHo; [exact Ho| |exact Hl]]; [intros; constructor; assumption|intros x Hx; apply Hin; eapply inside_part; [left; reflexivity|exact Hx]]; fail);
      try (destruct Hl; fail).
    - apply andb_prop in Ho as [_ Ho]. rewrite forallb_forall in Ho. rewrite Forall_forall in H.
      apply seqs_left in Hl as (l1 & y & l2 & E & F & Hl). 
      assert (E' : exists a x b, l = a ++ x :: b /\ map (den g ws fr mo) a = l1 /\ den g ws fr mo x = y).
      { clear -E. revert l E. induction l1 as [|z l1 IH]; intros [|w l] E; try discriminate; injection E as E1 E2.
        - exists [], w, l. auto.
        - destruct (IH l E2) as (a & x & b & -> & A & B). exists (w :: a), x, b. cbn. subst. auto. }
      destruct E' as (a & x & b & -> & <- & <-). assert (Hx : In x (a ++ x :: b)) by (apply in_app_iff; right; now left).
      eapply Hsub; [reflexivity| |eapply (H x Hx); [now apply Ho| |exact Hl]].
      + intros r Hr. constructor; [|exact Hr]. rewrite Forall_forall in F |- *. intros z Hz. eapply means_empty; [exact Hg| |apply F, in_map, Hz]. apply Ho, in_app_iff. now left.
      + intros z Hz. apply Hin. eapply inside_part; [exact Hx|exact Hz].
    - apply andb_prop in Ho as [_ Ho]. rewrite forallb_forall in Ho. rewrite Forall_forall in H.
      apply alts_left in Hl as (y & Hy & Hl). apply in_map_iff in Hy as (x & <- & Hx).
      eapply Hsub; [reflexivity| |eapply (H x Hx); [now apply Ho| |exact Hl]].
      + intros r Hr. econstructor; eauto.
      + intros z Hz. apply Hin. eapply inside_part; [exact Hx|exact Hz].
    - apply repeat_left in Hl. eapply Hsub; [reflexivity| |eapply IHo; [exact Ho| |exact Hl]]; [intros; constructor; assumption|].
      intros x Hx; apply Hin; eapply inside_part; [left; reflexivity|exact Hx].
    - cbn in Hl. destruct Hl as [<- |[_ <-]]; right; [right|left]; eauto.
    - cbn in Hl. destruct Hl as [[]|[_ <-]]. right; left. eauto.
    - destruct ic; [discriminate|destruct Hl].
    - cbn in Hl. destruct Hl as [Hl|[_ <-]]; [|right; left; eauto].
      eapply Hsub; [| |eapply IHo; [exact Ho| |exact Hl]]; [apply inside_token_ws|intros; constructor; assumption|].
      intros x Hx; apply Hin; eapply inside_part; [left; reflexivity|exact Hx].
    - destruct rl as [r|]; [|discriminate]. destruct m; [discriminate|]. destruct args; [|discriminate].
      pose proof (Hin _ (inside_self _ _) _ _ _ _ _ eq_refl) as Hr. destruct (nth_error g r) as [d|] eqn:Hd; [|apply nth_error_None in Hd; lia].
      rewrite ?Hd in Ho. apply negb_true_iff in Ho. rewrite Ho in Hl. cbn in Hl. subst n0. left. exists r, mo. repeat split. constructor.
  Qed.
End Meaning.
