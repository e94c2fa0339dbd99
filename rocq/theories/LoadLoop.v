(** * What the detection of infinite loops finds (C32). *)
From Verif Require Import Base BaseLemmas Utf8 Escape TrieM LineInfo Ope Ctx ErrLog Engine EngineLemmas Top Scope RefSem FirstSetM FirstSpec
  PackratFilter PrecSpec PrecM LoadM LoadSpec LoadRefs PegDen LoadPeg.

(** The inner loops of [loop_ope]. *)
Section Loops.
  Variable f : ope -> loop_st -> option loop_st.
  Fixpoint until_ (l : list ope) (st : loop_st) : option loop_st :=
    match l with
    | [] => Some st
    | x :: l' => match f x st with None => None | Some st1 => if fst st1 then Some st1 else until_ l' st1 end
    end.
  Fixpoint rest_ (l : list ope) (st : loop_st) : option loop_st :=
    match l with
    | [] => Some st
    | x :: l' => match f x (false, snd st) with None => None | Some (b, c) => rest_ l' (fst st || b, c) end
    end.
  Variable h : ope -> loop_st -> option loop_st.
  Fixpoint hseq_ (save : bool) (l : list ope) (st : loop_st) : option loop_st :=
    match l with
    | [] => Some (save, snd st)
    | x :: l' => match h x st with None => None | Some (b, c) => if b then hseq_ true l' (false, c) else rest_ l' (false, c) end
    end.
End Loops.

Section Detect.
  Variable g : grammar.
  Hypothesis Hg : ordinary_grammar g.
  Hypothesis Hnd : NoDup (map r_name g).
  Definition named_refs (o : ope) : Prop :=
    forall n r ia mac args, inside [] o (Ref n (Some r) ia mac args) -> exists d, nth_error g r = Some d /\ r_name d = n.
  Hypothesis Hlink : forall d b, In d g -> r_is_macro d = false -> r_body d = Some b -> named_refs b.

  Lemma named_part o p : In p (parts [] o) -> named_refs o -> named_refs p.
  Proof. intros H Ho n r ia mac args Hi. eapply Ho. eapply inside_part; eauto. Qed.
  Lemma ordinary_part o p : In p (parts [] o) -> ordinary g o = true -> ordinary g p = true.
  Proof.
    destruct o; cbn [parts ordinary]; intros Hp Ho; try discriminate Ho; try (destruct Hp as [<- | []]; assumption); try (destruct Hp; fail).
    - apply andb_prop in Ho as [_ Ho]. rewrite forallb_forall in Ho. auto.
    - apply andb_prop in Ho as [_ Ho]. rewrite forallb_forall in Ho. auto.
    - match type of Ho with match ?x with _ => _ end = _ => destruct x; [|discriminate] end. destruct is_macro; [discriminate|]. destruct args; [|discriminate]. destruct (in_dec _ _ _); destruct Hp.
  Qed.
  Lemma mentions_part o p r : In p (parts [] o) -> mentions p r -> mentions o r.
  Proof. intros H (n & ia & mac & args & Hi). exists n, ia, mac, args. eapply inside_part; eauto. Qed.
  Lemma inside_trans o x y : inside [] o x -> inside [] x y -> inside [] o y.
  Proof. induction 1; auto. intros H1. eapply inside_part; eauto. Qed.
  Lemma reaches_trans a b c : reaches g a b -> reaches g b c -> reaches g a c.
  Proof. induction 1; auto. intros. econstructor; eauto. Qed.
  Definition oreach (o : ope) (r : rid) : Prop := exists r1, mentions o r1 /\ reaches g r1 r.
  Lemma oreach_part o p r : In p (parts [] o) -> oreach p r -> oreach o r.
  Proof. intros H (r1 & A & B). exists r1. split; [eapply mentions_part; eauto|exact B]. Qed.

  Definition nameof (r : rid) : bytes := match nth_error g r with Some d => r_name d | None => [] end.
  Lemma named_eq r r' d : nth_error g r = Some d -> r' < List.length g -> nameof r' = r_name d -> r' = r.
  Proof.
    intros Hd Hr He. unfold nameof in He. destruct (nth_error g r') as [d'|] eqn:Hd'; [|apply nth_error_None in Hd'; lia].
    rewrite NoDup_nth_error in Hnd. apply Hnd; [now rewrite map_length|]. rewrite !nth_error_map, Hd, Hd'. cbn. now rewrite He.
  Qed.
  Definition valid_stack (rs : list rid) : Prop := forall r, In r rs -> r < List.length g.
  Lemma on_stack rs r d : valid_stack rs -> nth_error g r = Some d -> bmem (r_name d) (map nameof rs) = true -> In r rs.
  Proof.
    intros Hv Hd Hb. apply bmem_In in Hb. apply in_map_iff in Hb as (r' & He & Hin). now rewrite <- (named_eq r r' d Hd (Hv _ Hin) He).
  Qed.

  (** ** HasEmptyElement finds what may be empty *)
  Lemma has_empty k : forall fuel rs o st st', ordinary g o = true -> named_refs o -> valid_stack rs ->
    nlb (stage g k) o = true -> (forall r, In r rs -> oreach o r -> stage g k r = false) ->
    loop_enter fuel g false (map nameof rs) o st = Some st' -> fst st' = true.
  Proof.
    induction k as [k IHk] using lt_wf_ind. intros [|fuel] rs o st st' Ho Hn Hv Hs Hst H; [discriminate|]. cbn [loop_enter] in H.
    revert st st' Ho Hn Hs Hst H. induction o using ope_ind'; intros st st' Ho Hn Hs Hst H1; try discriminate Ho;
      try (cbn [loop_ope] in H1; cbn [nlb ordinary] in Hs, Ho; eapply IHo; [exact Ho|eapply named_part; [|exact Hn]; left; reflexivity|exact Hs| |exact H1];
           intros r Hr Hre; apply Hst; [exact Hr|]; eapply oreach_part; [|exact Hre]; left; reflexivity).
    - change (hseq_ (loop_ope g (loop_enter fuel g) true (map nameof rs)) (loop_ope g (loop_enter fuel g) false (map nameof rs)) false l st = Some st') in H1.
      cbn [ordinary nlb] in Ho, Hs. apply andb_prop in Ho as [Hne Ho]. 
      assert (Hgen : forall l' save st, (forall x, In x l' -> In x l) -> save = true \/ l' <> [] ->
        hseq_ (loop_ope g (loop_enter fuel g) true (map nameof rs)) (loop_ope g (loop_enter fuel g) false (map nameof rs)) save l' st = Some st' -> fst st' = true).
      { clear H1 st. rewrite forallb_forall in Ho, Hs. rewrite Forall_forall in H. induction l' as [|x l' IHl]; intros save st Hin Hsv H1; cbn [hseq_] in H1.
        - destruct Hsv as [-> |Hsv]; [injection H1 as <-; reflexivity|congruence].
        - destruct (loop_ope g (loop_enter fuel g) false (map nameof rs) x st) as [[b c]|] eqn:Hx; [|discriminate].
          assert (Hxl : In x (parts [] (Seq kg l))) by (cbn; apply Hin; now left).
          assert (b = true) as ->.
          { change (fst (b, c) = true). apply (H x (Hin x (or_introl eq_refl)) st (b, c)).
            - apply Ho, Hin. now left.
            - eapply named_part; eauto.
            - apply Hs, Hin. now left.
            - intros r Hr Hre. apply Hst; [exact Hr|]. eapply oreach_part; eauto.
            - exact Hx. }
          eapply IHl; [|left; reflexivity|exact H1]. intros y Hy. apply Hin. now right. }
      eapply (Hgen l false st); auto. right. destruct l; [discriminate|discriminate].
    - change (until_ (loop_ope g (loop_enter fuel g) false (map nameof rs)) l st = Some st') in H1.
      cbn [ordinary nlb] in Ho, Hs. apply andb_prop in Ho as [_ Ho]. rewrite forallb_forall in Ho. rewrite Forall_forall in H.
      assert (Hgen : forall l' st, (forall x, In x l' -> In x l) -> existsb (nlb (stage g k)) l' = true ->
        until_ (loop_ope g (loop_enter fuel g) false (map nameof rs)) l' st = Some st' -> fst st' = true).
      { clear H1 st Hs. induction l' as [|x l' IHl]; intros st Hin Hex H1; cbn [until_ existsb] in *; [discriminate|].
        destruct (loop_ope g (loop_enter fuel g) false (map nameof rs) x st) as [[b c]|] eqn:Hx; [|discriminate].
        cbn [fst] in H1. destruct b; [injection H1 as <-; reflexivity|].
        apply orb_prop in Hex as [Hex|Hex]; [|eapply IHl; [|exact Hex|exact H1]; intros y Hy; apply Hin; now right].
        assert (Hxl : In x (parts [] (Cho fl fs l))) by (cbn; apply Hin; now left).
        exfalso. enough (fst (false, c) = true) by discriminate. apply (H x (Hin x (or_introl eq_refl)) st (false, c)).
        - apply Ho, Hin. now left.
        - eapply named_part; eauto.
        - exact Hex.
        - intros r Hr Hre. apply Hst; [exact Hr|]. eapply oreach_part; eauto.
        - exact Hx. }
      eapply (Hgen l st); auto.
    - cbn [loop_ope] in H1. destruct (mn =? 0) eqn:Hmn; [injection H1 as <-; reflexivity|].
      cbn [nlb ordinary] in Hs, Ho. rewrite Hmn in Hs. cbn in Hs. eapply IHo; [exact Ho|eapply named_part; [|exact Hn]; left; reflexivity|exact Hs| |exact H1].
      intros r Hr Hre; apply Hst; [exact Hr|]. eapply oreach_part; [|exact Hre]; left; reflexivity.
    - cbn [loop_ope] in H1. injection H1 as <-. reflexivity.
    - cbn [loop_ope] in H1. injection H1 as <-. reflexivity.
    - discriminate Hs.
    - cbn [loop_ope nlb] in *. injection H1 as <-. destruct s; [apply orb_true_r|discriminate].
    - discriminate Hs.
    - discriminate Hs.
    - discriminate Hs.
    - cbn [ordinary] in Ho. destruct rl as [r|]; [|discriminate]. destruct m; [discriminate|]. destruct args; [|discriminate].
      destruct (Hn n r ia false [] (inside_self _ _)) as (d & Hd & Hname). cbn [nlb] in Hs.
      assert (Hm : mentions (Ref n (Some r) ia false []) r) by (repeat eexists; apply inside_self).
      cbn [loop_ope] in H1. destruct (bmem n (map nameof rs)) eqn:Hb.
      { exfalso. rewrite <- Hname in Hb. pose proof (on_stack rs r d Hv Hd Hb) as Hin. rewrite (Hst r Hin) in Hs; [discriminate|].
        exists r. split; [exact Hm|constructor]. }
      rewrite Hd in H1. destruct (r_body d) as [b|] eqn:Hbd; [|discriminate].
      destruct k as [|k]; [discriminate|].
      assert (Hnm : n = nameof r) by (unfold nameof; now rewrite Hd).
      rewrite Hnm in H1. change (nameof r :: map nameof rs) with (map nameof (r :: rs)) in H1.
      assert (Hpl : r_is_macro d = false) by (rewrite Hd in Ho; now apply negb_true_iff). pose proof (Hg d (nth_error_In _ _ Hd) Hpl) as Hob. rewrite Hbd in Hob.
      assert (Hcall : forall x, oreach b x -> oreach (Ref n (Some r) ia false []) x).
      { intros x (r1 & A & B). exists r. split; [exact Hm|]. econstructor; [|exact B]. exists d, b. auto. }
      assert (Hstep : forall j, stage g (S j) r = true -> stage g j r = false -> j <= k -> fst st' = true).
      { intros j Hj1 Hj0 Hjk. eapply (IHk j ltac:(lia) fuel (r :: rs) b st st'); auto.
        - exact (Hlink d b (nth_error_In _ _ Hd) Hpl Hbd).
        - intros x [<- |Hx]; [|now apply Hv]. apply nth_error_Some. congruence.
        - cbn [stage] in Hj1. now rewrite Hd, Hbd in Hj1.
        - intros x [<- |Hx] Hre; [exact Hj0|]. destruct (stage g j x) eqn:E; [|reflexivity].
          rewrite <- (Hst x Hx (Hcall x Hre)). symmetry. eapply stage_le; [|exact E]. lia. }
      assert (Hleast : forall j, stage g j r = true -> exists i, i < j /\ stage g (S i) r = true /\ stage g i r = false).
      { induction j as [|j IHj]; intros Hj; [discriminate|]. destruct (stage g j r) eqn:E; [|exists j; auto].
        destruct (IHj eq_refl) as (i & A & B & C). exists i. auto. }
      destruct (Hleast (S k) Hs) as (i & A & B & C). apply (Hstep i); auto. lia.
  Qed.

  (** ** The cache holds rules that were reached *)
  Definition fresh_from (o : ope) (new : list (bytes * bool)) : Prop :=
    forall n b, In (n, b) new -> exists r d, oreach o r /\ nth_error g r = Some d /\ r_name d = n.
  Definition grows (o : ope) (st st' : loop_st) : Prop := exists new, snd st' = new ++ snd st /\ fresh_from o new.
  Lemma grows_refl o st f : grows o st (f, snd st).
  Proof. exists []. split; [reflexivity|intros ? ? []]. Qed.
  Lemma grows_same o st : grows o st st.
  Proof. exists []. split; [reflexivity|intros ? ? []]. Qed.
  Lemma grows_part o p st st' f f' : In p (parts [] o) -> grows p (f, snd st) st' -> grows o st (f', snd st').
  Proof.
    intros Hp (new & A & B). exists new. split; [exact A|]. intros n b Hi. destruct (B n b Hi) as (r & d & C & D). exists r, d. split; [|exact D]. eapply oreach_part; eauto.
  Qed.
  Lemma grows_trans o st st1 st2 : grows o st st1 -> grows o st1 st2 -> grows o st st2.
  Proof.
    intros (n1 & A & B) (n2 & C & D). exists (n2 ++ n1). split; [rewrite C, A; apply app_assoc|]. intros n b Hi. apply in_app_iff in Hi as [Hi|Hi]; eauto.
  Qed.
  Lemma grows_flag o c f f1 st' : grows o (f, c) st' -> grows o (f1, c) st'.
  Proof. intros H. exact H. Qed.
  Lemma cache_grows : forall fuel dm refs o st st', ordinary g o = true -> named_refs o -> loop_enter fuel g dm refs o st = Some st' -> grows o st st'.
  Proof.
    induction fuel as [|fuel IHf]; intros dm refs o st st' Ho Hn H; [discriminate|]. cbn [loop_enter] in H.
    revert dm st st' Ho Hn H. induction o using ope_ind'; intros dm st st' Ho Hn H1; try discriminate Ho;
      try (cbn [loop_ope] in H1; injection H1 as <-; first [apply grows_same|apply grows_refl]);
      try (cbn [loop_ope] in H1; cbn [ordinary] in Ho; rewrite (surjective_pairing st'); eapply (grows_part _ o _ _ (fst st)); [left; reflexivity|];
           rewrite <- surjective_pairing; eapply IHo; [exact Ho|eapply named_part; [|exact Hn]; left; reflexivity|exact H1]).
    - assert (Hl : forall x dm st st', In x l -> loop_ope g (loop_enter fuel g) dm refs x st = Some st' -> grows (Seq kg l) st st').
      { intros x dm0 st0 st0' Hx H2. cbn [ordinary] in Ho. apply andb_prop in Ho as [_ Ho]. rewrite forallb_forall in Ho. rewrite Forall_forall in H.
        rewrite (surjective_pairing st0'). eapply (grows_part _ x _ _ (fst st0)); [exact Hx|]. rewrite <- surjective_pairing. eapply H; eauto. eapply named_part; [|exact Hn]. exact Hx. }
      assert (Hrest : forall l' st st', (forall x, In x l' -> In x l) -> rest_ (loop_ope g (loop_enter fuel g) true refs) l' st = Some st' -> grows (Seq kg l) st st').
      { clear H1 st st'. induction l' as [|x l' IHl]; intros st st' Hin H1; cbn [rest_] in H1; [injection H1 as <-; apply grows_same|].
        destruct (loop_ope g (loop_enter fuel g) true refs x (false, snd st)) as [[b c]|] eqn:Hx; [|discriminate].
        eapply grows_trans; [exact (Hl _ _ _ _ (Hin _ (or_introl eq_refl)) Hx)|]. eapply (grows_flag _ _ _ b). eapply IHl; [|exact H1]. intros y Hy. apply Hin. now right. }
      destruct dm.
      + change (until_ (loop_ope g (loop_enter fuel g) true refs) l st = Some st') in H1.
        assert (Hgen : forall l' st, (forall x, In x l' -> In x l) -> until_ (loop_ope g (loop_enter fuel g) true refs) l' st = Some st' -> grows (Seq kg l) st st').
        { clear H1 st. induction l' as [|x l' IHl]; intros st Hin H1; cbn [until_] in H1; [injection H1 as <-; apply grows_same|].
          destruct (loop_ope g (loop_enter fuel g) true refs x st) as [st1|] eqn:Hx; [|discriminate].
          pose proof (Hl _ _ _ _ (Hin _ (or_introl eq_refl)) Hx) as Hg1. destruct (fst st1); [injection H1 as <-; exact Hg1|].
          eapply grows_trans; [exact Hg1|]. apply IHl; [|exact H1]. intros y Hy. apply Hin. now right. }
        apply (Hgen l); auto.
      + change (hseq_ (loop_ope g (loop_enter fuel g) true refs) (loop_ope g (loop_enter fuel g) false refs) false l st = Some st') in H1.
        assert (Hgen : forall l' save st, (forall x, In x l' -> In x l) ->
          hseq_ (loop_ope g (loop_enter fuel g) true refs) (loop_ope g (loop_enter fuel g) false refs) save l' st = Some st' -> grows (Seq kg l) st st').
        { clear H1 st. induction l' as [|x l' IHl]; intros save st Hin H1; cbn [hseq_] in H1; [injection H1 as <-; apply grows_refl|].
          destruct (loop_ope g (loop_enter fuel g) false refs x st) as [[b c]|] eqn:Hx; [|discriminate].
          pose proof (Hl _ _ _ _ (Hin _ (or_introl eq_refl)) Hx) as Hg1. eapply grows_trans; [exact Hg1|]. eapply (grows_flag _ _ _ false).
          destruct b; [eapply IHl; [|exact H1]; intros y Hy; apply Hin; now right|].
          eapply Hrest; [|exact H1]. intros y Hy. apply Hin. now right. }
        apply (Hgen l false); auto.
    - assert (Hl : forall x dm st st', In x l -> loop_ope g (loop_enter fuel g) dm refs x st = Some st' -> grows (Cho fl fs l) st st').
      { intros x dm0 st0 st0' Hx H2. cbn [ordinary] in Ho. apply andb_prop in Ho as [_ Ho]. rewrite forallb_forall in Ho. rewrite Forall_forall in H.
        rewrite (surjective_pairing st0'). eapply (grows_part _ x _ _ (fst st0)); [exact Hx|]. rewrite <- surjective_pairing. eapply H; eauto. eapply named_part; [|exact Hn]. exact Hx. }
      change (until_ (loop_ope g (loop_enter fuel g) dm refs) l st = Some st') in H1.
      assert (Hgen : forall l' st, (forall x, In x l' -> In x l) -> until_ (loop_ope g (loop_enter fuel g) dm refs) l' st = Some st' -> grows (Cho fl fs l) st st').
      { clear H1 st. induction l' as [|x l' IHl]; intros st Hin H1; cbn [until_] in H1; [injection H1 as <-; apply grows_same|].
        destruct (loop_ope g (loop_enter fuel g) dm refs x st) as [st1|] eqn:Hx; [|discriminate].
        pose proof (Hl _ _ _ _ (Hin _ (or_introl eq_refl)) Hx) as Hg1. destruct (fst st1); [injection H1 as <-; exact Hg1|].
        eapply grows_trans; [exact Hg1|]. apply IHl; [|exact H1]. intros y Hy. apply Hin. now right. }
      apply (Hgen l); auto.
    - cbn [ordinary] in Ho. assert (Hn' : named_refs o) by (eapply named_part; [|exact Hn]; left; reflexivity).
      assert (Hl : forall dm st st', loop_ope g (loop_enter fuel g) dm refs o st = Some st' -> grows (Rep o mn mx sp) st st').
      { intros dm0 st0 st0' H2. rewrite (surjective_pairing st0'). eapply (grows_part _ o _ _ (fst st0)); [left; reflexivity|]. rewrite <- surjective_pairing. eapply IHo; eauto. }
      cbn [loop_ope] in H1. destruct dm.
      + destruct mx as [x|]; [eauto|]. destruct (loop_ope g (loop_enter fuel g) false refs o (false, snd st)) as [[b c]|] eqn:Hx; [|discriminate].
        injection H1 as <-. exact (Hl _ _ _ Hx).
      + destruct (mn =? 0); [injection H1 as <-; apply grows_refl|eauto].
    - cbn [loop_ope] in H1. destruct dm; [|injection H1 as <-; apply grows_refl].
      cbn [ordinary] in Ho; rewrite (surjective_pairing st'); eapply (grows_part _ o _ _ (fst st)); [left; reflexivity|].
      rewrite <- surjective_pairing; eapply IHo; [exact Ho|eapply named_part; [|exact Hn]; left; reflexivity|exact H1].
    - cbn [loop_ope] in H1. destruct dm; [|injection H1 as <-; apply grows_refl].
      cbn [ordinary] in Ho; rewrite (surjective_pairing st'); eapply (grows_part _ o _ _ (fst st)); [left; reflexivity|].
      rewrite <- surjective_pairing; eapply IHo; [exact Ho|eapply named_part; [|exact Hn]; left; reflexivity|exact H1].
    - cbn [ordinary] in Ho. destruct rl as [r|]; [|discriminate]. destruct m; [discriminate|]. destruct args; [|discriminate].
      destruct (Hn n r ia false [] (inside_self _ _)) as (d & Hd & Hname).
      assert (Hm : mentions (Ref n (Some r) ia false []) r) by (repeat eexists; apply inside_self).
      cbn [loop_ope] in H1. destruct (bmem n refs); [injection H1 as <-; apply grows_same|]. rewrite Hd in H1.
      assert (Hbody : forall dm b st', r_body d = Some b -> loop_enter fuel g dm (n :: refs) b st = Some st' -> grows (Ref n (Some r) ia false []) st st').
      { intros dm0 b st0' Hb H2. assert (Hpl : r_is_macro d = false) by (rewrite Hd in Ho; now apply negb_true_iff). pose proof (Hg d (nth_error_In _ _ Hd) Hpl) as Hob. rewrite Hb in Hob.
        destruct (IHf _ _ _ _ _ Hob (Hlink _ _ (nth_error_In _ _ Hd) Hpl Hb) H2) as (new & A & B). exists new. split; [exact A|].
        intros n0 b0 Hi. destruct (B n0 b0 Hi) as (r' & d' & (r1 & C1 & C2) & D). exists r', d'. split; [|exact D]. exists r. split; [exact Hm|].
        econstructor; [|exact C2]. exists d, b. auto. }
      destruct (r_body d) as [b|] eqn:Hb.
      2:{ destruct dm; [|discriminate]. destruct (cache_find (snd st) n); [injection H1 as <-; apply grows_refl|discriminate]. }
      destruct dm; [|eauto].
      destruct (cache_find (snd st) n); [injection H1 as <-; apply grows_refl|].
      destruct (loop_enter fuel g true (n :: refs) b st) as [[fl c]|] eqn:Hx; [|discriminate]. injection H1 as <-.
      eapply grows_trans; [exact (Hbody _ _ _ eq_refl Hx)|]. exists [(n, fl)]. split; [reflexivity|]. intros n0 b0 [[= <- <-]|[]].
      exists r, d. split; [|auto]. exists r. split; [exact Hm|constructor].
  Qed.

  (** ** Rules reached from a rule that is no macro are no macros *)
  Lemma ordinary_inside o x : inside [] o x -> ordinary g o = true -> ordinary g x = true.
  Proof. induction 1; intros Ho; [exact Ho|]. apply IHinside. eapply ordinary_part; eauto. Qed.
  Lemma plain_call r r' : calls g r r' -> plain_rule g r -> plain_rule g r'.
  Proof.
    intros (d & b & A & B & (n & ia & mac & args & C)) Hp d' Hd'. pose proof (Hg d (nth_error_In _ _ A) (Hp d A)) as Ho. rewrite B in Ho.
    pose proof (ordinary_inside _ _ C Ho) as Hx. cbn [ordinary] in Hx. rewrite Hd' in Hx. destruct mac; [discriminate|]. destruct args; [|discriminate]. now apply negb_true_iff.
  Qed.
  Lemma plain_reached r r' : reaches g r r' -> plain_rule g r -> plain_rule g r'.
  Proof. induction 1; auto. intros Hp. apply IHreaches. eapply plain_call; eauto. Qed.

  (** ** What the search visits *)
  Variable s0 : rid.
  Notation Q := (run_in_loop g s0).
  Lemma Q_closed r r' : reaches g r r' -> Q r -> Q r'.
  Proof. intros H (r0 & d & b & e & mn & sp & r1 & A & B & C & D & F & K). exists r0, d, b, e, mn, sp, r1. do 5 (split; [assumption|]). eapply reaches_trans; eauto. Qed.
  (** [o] is part of a rule reached from [s0]. *)
  Definition placed (o : ope) : Prop :=
    (forall e mn sp, inside [] o (Rep e mn None sp) -> forall r, oreach e r -> Q r) /\ (forall r, mentions o r -> reaches g s0 r).
  Lemma placed_part o p : In p (parts [] o) -> placed o -> placed p.
  Proof.
    intros Hp [A B]. split; [|intros r Hr; apply B; eapply mentions_part; eauto].
    intros e mn sp Hi. apply (A e mn sp). eapply inside_part; eauto.
  Qed.
  Lemma placed_body r d b : reaches g s0 r -> nth_error g r = Some d -> r_body d = Some b -> placed b.
  Proof.
    intros Hr Hd Hb. split.
    - intros e mn sp Hi x (r1 & A & B). exists r, d, b, e, mn, sp, r1. auto 10.
    - intros x Hx. eapply reaches_trans; [exact Hr|]. econstructor; [|constructor]. exists d, b. auto.
  Qed.
  Definition covered (c : list (bytes * bool)) (rs : list rid) (o : ope) : Prop :=
    (forall e mn sp, unlooped o (Rep e mn None sp) -> ~ may_be_empty g e)
    /\ (forall n r ia mac args, unlooped o (Ref n (Some r) ia mac args) -> In r rs \/ In (n, false) c).
  Lemma covered_mono c c' rs o : (forall x, In x c -> In x c') -> covered c rs o -> covered c' rs o.
  Proof. intros H [A B]. split; [exact A|]. intros n r ia mac args Hu. destruct (B _ _ _ _ _ Hu); auto. Qed.
  Lemma covered_parts c rs o : (forall e mn sp, o <> Rep e mn None sp) -> (forall n r ia mac args, o <> Ref n (Some r) ia mac args) ->
    (forall p, In p (parts [] o) -> covered c rs p) -> covered c rs o.
  Proof.
    intros H1 H2 Hp. split.
    - intros e mn sp Hu. inversion Hu; subst; [exfalso; eapply H1; reflexivity|]. eapply Hp; eauto.
    - intros n r ia mac args Hu. inversion Hu; subst; [exfalso; eapply H2; reflexivity|]. eapply Hp; eauto.
  Qed.
  Definition new_covered (c c' : list (bytes * bool)) (rs : list rid) : Prop :=
    exists new, c' = new ++ c /\ forall n b r d body, In (n, b) new -> nth_error g r = Some d -> r_name d = n -> r_body d = Some body -> ~ Q r -> covered c' rs body.
  Lemma new_covered_refl c rs : new_covered c c rs.
  Proof. exists []. split; [reflexivity|intros ? ? ? ? ? []]. Qed.
  Lemma new_covered_trans c c1 c2 rs : new_covered c c1 rs -> new_covered c1 c2 rs -> new_covered c c2 rs.
  Proof.
    intros (n1 & A & B) (n2 & C & D). exists (n2 ++ n1). split; [subst; apply app_assoc|]. intros n b r d body Hi. apply in_app_iff in Hi as [Hi|Hi]; [intros; eapply D; eauto|].
    intros. eapply covered_mono; [|eapply B; eauto]. subst. intros x Hx. apply in_app_iff. now right.
  Qed.
  Lemma sub_cache c c' rs : new_covered c c' rs -> forall x, In x c -> In x c'.
  Proof. intros (new & -> & _) x Hx. apply in_app_iff. now right. Qed.
  Lemma Q_new o c c' rs : (forall r, oreach o r -> Q r) -> grows o (false, c) (false, c') -> new_covered c c' rs.
  Proof.
    intros Hq (new & A & B). exists new. split; [exact A|]. intros n b r d body Hi Hd Hn _ Hnq. exfalso. apply Hnq.
    destruct (B n b Hi) as (r' & d' & C & D & E). assert (r' = r) as <-; [|auto].
    rewrite NoDup_nth_error in Hnd. apply Hnd; [rewrite map_length; apply nth_error_Some; congruence|]. rewrite !nth_error_map, D, Hd. cbn. congruence.
  Qed.
  Lemma walk : forall fuel rs o c c', ordinary g o = true -> named_refs o -> valid_stack rs -> placed o -> (forall r, In r rs -> ~ Q r) ->
    loop_enter fuel g true (map nameof rs) o (false, c) = Some (false, c') -> covered c' rs o /\ new_covered c c' rs.
  Proof.
    induction fuel as [|fuel IHf]; intros rs o c c' Ho Hn Hv Hp Hq H; [discriminate|]. cbn [loop_enter] in H.
    revert c c' Ho Hn Hp H. induction o using ope_ind'; intros c c' Ho Hn Hp H1; try discriminate Ho;
      try (cbn [loop_ope] in H1; injection H1 as <-; split; [|apply new_covered_refl]; apply covered_parts; [intros; discriminate|intros; discriminate|intros p []]; fail);
      try (cbn [loop_ope] in H1; cbn [ordinary] in Ho;
           destruct (IHo c c' Ho ltac:(eapply named_part; [|exact Hn]; left; reflexivity) ltac:(eapply placed_part; [|exact Hp]; left; reflexivity) H1) as [A B];
           split; [|exact B]; apply covered_parts; [intros; discriminate|intros; discriminate|intros p [<- | []]; exact A]; fail).
    - change (until_ (loop_ope g (loop_enter fuel g) true (map nameof rs)) l (false, c) = Some (false, c')) in H1.
      cbn [ordinary] in Ho. apply andb_prop in Ho as [_ Ho]. rewrite forallb_forall in Ho. rewrite Forall_forall in H.
      enough (Hgen : forall l' c, (forall x, In x l' -> In x l) -> until_ (loop_ope g (loop_enter fuel g) true (map nameof rs)) l' (false, c) = Some (false, c') ->
        (forall x, In x l' -> covered c' rs x) /\ new_covered c c' rs).
      { destruct (Hgen l c) as [A B]; auto. split; [|exact B]. apply covered_parts; [intros; discriminate|intros; discriminate|exact A]. }
      clear c H1. induction l' as [|x l' IHl]; intros c Hin H1; cbn [until_] in H1; [injection H1 as <-; split; [intros ? []|apply new_covered_refl]|].
      destruct (loop_ope g (loop_enter fuel g) true (map nameof rs) x (false, c)) as [[b c1]|] eqn:Hx; [|discriminate]. cbn [fst] in H1.
      destruct b; [discriminate|]. pose proof (Hin x (or_introl eq_refl)) as Hxl.
      destruct (H x Hxl c c1 (Ho x Hxl) (named_part (Seq kg l) x Hxl Hn) (placed_part (Seq kg l) x Hxl Hp) Hx) as [A B].
      destruct (IHl c1) as [C D]; [intros y Hy; apply Hin; now right|exact H1|].
      split; [|eapply new_covered_trans; eauto]. intros y [<- |Hy]; [|auto]. eapply covered_mono; [|exact A]. eapply sub_cache; eauto.
    - change (until_ (loop_ope g (loop_enter fuel g) true (map nameof rs)) l (false, c) = Some (false, c')) in H1.
      cbn [ordinary] in Ho. apply andb_prop in Ho as [_ Ho]. rewrite forallb_forall in Ho. rewrite Forall_forall in H.
      enough (Hgen : forall l' c, (forall x, In x l' -> In x l) -> until_ (loop_ope g (loop_enter fuel g) true (map nameof rs)) l' (false, c) = Some (false, c') ->
        (forall x, In x l' -> covered c' rs x) /\ new_covered c c' rs).
      { destruct (Hgen l c) as [A B]; auto. split; [|exact B]. apply covered_parts; [intros; discriminate|intros; discriminate|exact A]. }
      clear c H1. induction l' as [|x l' IHl]; intros c Hin H1; cbn [until_] in H1; [injection H1 as <-; split; [intros ? []|apply new_covered_refl]|].
      destruct (loop_ope g (loop_enter fuel g) true (map nameof rs) x (false, c)) as [[b c1]|] eqn:Hx; [|discriminate]. cbn [fst] in H1.
      destruct b; [discriminate|]. pose proof (Hin x (or_introl eq_refl)) as Hxl.
      destruct (H x Hxl c c1 (Ho x Hxl) (named_part (Cho fl fs l) x Hxl Hn) (placed_part (Cho fl fs l) x Hxl Hp) Hx) as [A B].
      destruct (IHl c1) as [C D]; [intros y Hy; apply Hin; now right|exact H1|].
      split; [|eapply new_covered_trans; eauto]. intros y [<- |Hy]; [|auto]. eapply covered_mono; [|exact A]. eapply sub_cache; eauto.
    - cbn [loop_ope] in H1. cbn [ordinary] in Ho. pose proof (named_part (Rep o mn mx sp) o (or_introl eq_refl) Hn) as Hn'. pose proof (placed_part (Rep o mn mx sp) o (or_introl eq_refl) Hp) as Hp'.
      destruct mx as [x|].
      + destruct (IHo c c' Ho Hn' Hp' H1) as [A B]. split; [|exact B]. apply covered_parts; [intros; discriminate|intros; discriminate|]. intros p [<- | []]. exact A.
      + destruct (loop_ope g (loop_enter fuel g) false (map nameof rs) o (false, snd (false, c))) as [[b c1]|] eqn:Hx; [|discriminate].
        cbn [fst orb] in H1. injection H1 as -> ->. cbn [snd] in Hx.
        assert (Hoq : forall r, oreach o r -> Q r) by (intros r; apply (proj1 Hp o mn sp); apply inside_self).
        change (loop_enter (S fuel) g false (map nameof rs) o (false, c) = Some (false, c')) in Hx. split; [split|].
        * intros e mn0 sp0 Hu Hme. inversion Hu as [|o1 p1 x1 Hnr]; subst; [|exfalso; eapply Hnr; reflexivity].
          apply me_stage in Hme as [k Hk]. pose proof (has_empty k (S fuel) rs e (false, c) (false, c') Ho Hn' Hv Hk) as Hc. cbn [fst] in Hc.
          enough (false = true) by discriminate. apply Hc; [|exact Hx]. intros r Hr Hre. exfalso. apply (Hq r Hr). auto.
        * intros n r ia mac args Hu. inversion Hu as [|o1 p1 x1 Hnr]; subst. exfalso; eapply Hnr; reflexivity.
        * eapply Q_new; [exact Hoq|]. eapply cache_grows; eauto.
    - cbn [ordinary] in Ho. destruct rl as [r|]; [|discriminate]. destruct m; [discriminate|]. destruct args; [|discriminate].
      destruct (Hn n r ia false [] (inside_self _ _)) as (d & Hd & Hname).
      assert (Hm : mentions (Ref n (Some r) ia false []) r) by (repeat eexists; apply inside_self).
      assert (Hcov : forall c, In r rs \/ In (n, false) c -> covered c rs (Ref n (Some r) ia false [])).
      { intros c0 H0. split.
        - intros e mn sp Hu. inversion Hu as [|o1 p1 x1 Hnr Hp1]; subst. cbn in Hp1. destruct Hp1.
        - intros n1 r1 ia1 mac1 args1 Hu. inversion Hu as [|o1 p1 x1 Hnr Hp1]; subst; [exact H0|]. cbn in Hp1. destruct Hp1. }
      cbn [loop_ope snd] in H1. destruct (bmem n (map nameof rs)) eqn:Hb.
      { injection H1 as <-. split; [|apply new_covered_refl]. apply Hcov. left. rewrite <- Hname in Hb. eapply on_stack; eauto. }
      destruct (cache_find c n) as [b|] eqn:Hcf.
      { injection H1 as -> <-. split; [|apply new_covered_refl]. apply Hcov. right. unfold cache_find in Hcf.
        destruct (find _ c) as [[n' b']|] eqn:Hf; [|discriminate]. injection Hcf as ->. apply find_some in Hf as [Hf1 Hf2]. cbn in Hf2.
        apply bytes_eqb_eq in Hf2 as ->. exact Hf1. }
      rewrite Hd in H1. destruct (r_body d) as [b|] eqn:Hbd; [|discriminate].
      destruct (loop_enter fuel g true (n :: map nameof rs) b (false, c)) as [[f1 c1]|] eqn:Hx; [|discriminate]. injection H1 as -> <-.
      split; [apply Hcov; right; now left|].
      assert (Hpl : r_is_macro d = false) by (rewrite Hd in Ho; now apply negb_true_iff). pose proof (Hg d (nth_error_In _ _ Hd) Hpl) as Hob. rewrite Hbd in Hob.
      pose proof (Hlink _ _ (nth_error_In _ _ Hd) Hpl Hbd) as Hnb. pose proof (cache_grows _ _ _ _ _ _ Hob Hnb Hx) as (new & Hnew & Hfresh). cbn [snd] in Hnew.
      exists ((n, false) :: new). split; [subst c1; reflexivity|]. intros n0 b0 r0 d0 body0 Hi Hd0 Hn0 Hb0 Hnq.
      assert (Hnqr : ~ Q r).
      { intros Hqr. apply Hnq. destruct Hi as [[= <- <-]|Hi].
        - assert (r0 = r) as -> by (rewrite NoDup_nth_error in Hnd; apply Hnd; [rewrite map_length; apply nth_error_Some; congruence|]; rewrite !nth_error_map, Hd, Hd0; cbn; congruence).
          exact Hqr.
        - destruct (Hfresh _ _ Hi) as (r1 & d1 & (r2 & A1 & A2) & B & C).
          assert (r1 = r0) as -> by (rewrite NoDup_nth_error in Hnd; apply Hnd; [rewrite map_length; apply nth_error_Some; congruence|]; rewrite !nth_error_map, B, Hd0; cbn; congruence).
          eapply Q_closed; [|exact Hqr]. econstructor; [|exact A2]. exists d, b. auto. }
      assert (Hnm : n = nameof r) by (unfold nameof; now rewrite Hd).
      rewrite Hnm in Hx. change (nameof r :: map nameof rs) with (map nameof (r :: rs)) in Hx.
      destruct (IHf (r :: rs) b c c1 Hob Hnb) as [A (new' & B1 & B2)]; [| | |exact Hx|].
      { intros x [<- |Hxr]; [apply nth_error_Some; congruence|auto]. }
      { apply (placed_body r d b); auto. apply (proj2 Hp). exact Hm. }
      { intros x [<- |Hxr]; auto. }
      assert (new' = new) as -> by (rewrite Hnew in B1; now apply app_inv_tail in B1).
      assert (Hfin : forall o', covered c1 (r :: rs) o' -> named_refs o' -> covered ((n, false) :: c1) rs o').
      { intros o' [C1 C2] Hno'. split; [exact C1|]. intros n1 r1 ia1 mac1 args1 Hu. destruct (C2 _ _ _ _ _ Hu) as [[<- |Hc]|Hc]; [|auto|right; now right].
        right. left. f_equal. assert (Hins : inside [] o' (Ref n1 (Some r) ia1 mac1 args1)) by (clear -Hu; induction Hu; [constructor|econstructor; eauto]).
        destruct (Hno' _ _ _ _ _ Hins) as (d1 & Hd1 & <-). rewrite Hd in Hd1. injection Hd1 as <-. auto. }
      destruct Hi as [[= <- <-]|Hi].
      + assert (r0 = r) as -> by (rewrite NoDup_nth_error in Hnd; apply Hnd; [rewrite map_length; apply nth_error_Some; congruence|]; rewrite !nth_error_map, Hd, Hd0; cbn; congruence).
        rewrite Hd in Hd0. injection Hd0 as <-. rewrite Hbd in Hb0. injection Hb0 as <-. apply Hfin; auto.
      + apply Hfin; [eapply B2; eauto|]. apply (Hlink _ _ (nth_error_In _ _ Hd0)); [|exact Hb0].
        destruct (Hfresh _ _ Hi) as (r1 & d1 & (r2 & (n2 & ia2 & mac2 & args2 & A1) & A2) & B & C).
        assert (r1 = r0) as -> by (rewrite NoDup_nth_error in Hnd; apply Hnd; [rewrite map_length; apply nth_error_Some; congruence|]; rewrite !nth_error_map, B, Hd0; cbn; congruence).
        apply (plain_reached r r0); [econstructor; [|exact A2]; exists d, b; repeat split; auto; repeat eexists; exact A1|intros dd Hdd; congruence|exact Hd0].
  Qed.

  Lemma inside_unlooped o x : inside [] o x -> unlooped o x \/ exists e mn sp, inside [] o (Rep e mn None sp) /\ inside [] e x.
  Proof.
    induction 1 as [o|o p x Hp Hi IH]; [left; constructor|].
    assert (Hd : (exists e mn sp, o = Rep e mn None sp) \/ (forall e mn sp, o <> Rep e mn None sp)).
    { destruct o; try (right; intros; discriminate). match goal with m : option nat |- _ => destruct m end; [right; intros; discriminate|]. left. eauto. }
    destruct Hd as [(e & mn & sp & ->)|Hd].
    - right. exists e, mn, sp. split; [constructor|]. destruct Hp as [-> | []]. exact Hi.
    - destruct IH as [IH|(e & mn & sp & A & B)]; [left; econstructor; eauto|right]. exists e, mn, sp. split; [econstructor; eauto|exact B].
  Qed.
  (** The repetitions that are not run inside others consume. *)
  Theorem detected fuel : plain_rule g s0 -> loop_detect fuel g s0 = Some false ->
    forall r d b e mn sp, reaches g s0 r -> ~ Q r -> nth_error g r = Some d -> r_body d = Some b ->
      unlooped b (Rep e mn None sp) -> ~ may_be_empty g e.
  Proof.
    unfold loop_detect. intros Hp0 H r d b e mn sp Hr Hnq Hd Hb Hu. destruct (nth_error g s0) as [ds|] eqn:Hds; [|discriminate].
    destruct (r_body ds) as [bs|] eqn:Hbs; [|discriminate]. destruct (loop_enter fuel g true [r_name ds] bs (false, [])) as [[f c']|] eqn:Hx; [|discriminate].
    cbn in H. injection H as ->. assert (Hns : ~ Q s0) by (intros H; apply Hnq; eapply Q_closed; eauto).
    replace [r_name ds] with (map nameof [s0]) in Hx by (cbn; unfold nameof; now rewrite Hds).
    pose proof (Hg ds (nth_error_In _ _ Hds) (Hp0 ds Hds)) as Hob. rewrite Hbs in Hob.
    destruct (walk fuel [s0] bs [] c' Hob (Hlink _ _ (nth_error_In _ _ Hds) (Hp0 ds Hds) Hbs)) as [Hcov (new & Hnew & Hnc)]; [| | |exact Hx|].
    { intros x [<- | []]. apply nth_error_Some. congruence. }
    { apply (placed_body s0 ds bs); auto. constructor. }
    { intros x [<- | []]. exact Hns. }
    rewrite app_nil_r in Hnew. subst new.
    assert (Hall : forall r0 r1, reaches g r0 r1 -> reaches g s0 r0 -> (forall d0 b0, nth_error g r0 = Some d0 -> r_body d0 = Some b0 -> covered c' [s0] b0) -> ~ Q r1 ->
      forall d1 b1, nth_error g r1 = Some d1 -> r_body d1 = Some b1 -> covered c' [s0] b1).
    { induction 1 as [r0|r0 r1 r2 Hc Hr' IH]; intros Hs0 Hc0 Hq2; [exact Hc0|].
      assert (Hq1 : ~ Q r1) by (intros Hq1; apply Hq2; eapply Q_closed; eauto).
      apply IH; auto.
      - eapply reaches_trans; [exact Hs0|]. econstructor; [exact Hc|constructor].
      - intros d1 b1 Hd1 Hb1. destruct Hc as (d0 & b0 & A & B & (n & ia & mac & args & Hi)).
        destruct (inside_unlooped _ _ Hi) as [Hul|(e1 & mn1 & sp1 & I1 & I2)].
        + destruct (proj2 (Hc0 _ _ A B) _ _ _ _ _ Hul) as [[<- | []]|Hin].
          * rewrite Hds in Hd1. injection Hd1 as <-. rewrite Hbs in Hb1. injection Hb1 as <-. exact Hcov.
          * destruct (Hlink _ _ (nth_error_In _ _ A) (plain_reached _ _ Hs0 Hp0 _ A) B _ _ _ _ _ Hi) as (d1' & X & Y). rewrite Hd1 in X. injection X as <-. eapply Hnc; eauto.
        + exfalso. apply Hq1. exists r0, d0, b0, e1, mn1, sp1, r1. repeat split; auto; [|constructor]. repeat eexists. exact I2. }
    eapply (Hall s0 r Hr); eauto; [constructor|]. intros d0 b0 A B. rewrite Hds in A. injection A as <-. rewrite Hbs in B. injection B as <-. exact Hcov.
  Qed.
End Detect.
