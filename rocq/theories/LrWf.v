(** * Directly left-recursive rules read as iterations keep a grammar well-formed
    (C45). *)
From Verif Require Import Base BaseLemmas Utf8 Utf8Spec Escape TrieM LineInfo Ope Ctx ErrLog Engine EngineLemmas Top Scope RefSem LrSpec FirstSetM FirstSpec FirstSetup FirstTop
  PackratFilter PrecSpec PrecM LoadM LoadSpec LoadRefs DicDen PegDen LoadPeg LoadLoop LoadLR.

(** Rule [r] is  A <- A a1 / ... / A an / b1 / ... / bm  with n, m > 0; the [ai]
    consume; and once it is read as the iteration  (b1 / ... / bm) (a1 / ... / an)*  it
    cannot call itself before it has consumed something. *)
Definition recursion_direct (g : grammar) (r : rid) (d : rule) : Prop :=
  exists fl fs l a b, r_body d = Some (Cho fl fs l) /\ r_no_whitespace d = false /\ split_lr r l = (a, b) /\ a <> [] /\ b <> []
    /\ (forall t, In t a -> ~ may_be_empty g (Seq None t)) /\ ~ left_reaches (iterate g) r r.
(** All marked rules (but macros) are like that, and the whitespace rule is not
    marked. *)
Record recursions_direct (g : grammar) (wr : option rid) : Prop := {
  rd_rules : forall r d, nth_error g r = Some d -> r_is_macro d = false -> r_lr d = true -> recursion_direct g r d;
  rd_ws : forall w d, wr = Some w -> nth_error g w = Some d -> r_lr d = false
}.
Lemma no_recursion_direct g wr : (forall d, In d g -> r_lr d = false) -> recursions_direct g wr.
Proof.
  intros H. split; intros r d H1 H2; apply nth_error_In in H1 || apply nth_error_In in H2; [|now apply H].
  intros H3. rewrite (H d H1) in H3. discriminate.
Qed.

Lemma split_lr_In r : forall l a b, split_lr r l = (a, b) ->
  (forall o, In o b -> In o l) /\ (forall t, In t a -> exists kg n ia mac, In (Seq kg (Ref n (Some r) ia mac [] :: t)) l).
Proof.
  induction l as [|o l IH]; intros a b H; cbn [split_lr] in H; [injection H as <- <-; split; intros ? []|].
  destruct (lr_alt r o) as [rest|] eqn:Ho.
  - destruct (split_lr r l) as [a' b']. injection H as <- <-. destruct (IH _ _ eq_refl) as [A B]. split; [intros; right; auto|].
    intros t [<- |Ht]; [|destruct (B t Ht) as (kg & n & ia & mac & X); exists kg, n, ia, mac; now right].
    unfold lr_alt in Ho. destruct o as [kg0 [|[] rest0]| | | | | | | | | | | | | | | | | | | | | | |]; try discriminate.
    match type of Ho with context [match ?q with Some _ => _ | None => _ end] => destruct q as [r'|]; [|discriminate] end.
    match type of Ho with context [match ?q with [] => _ | _ :: _ => _ end] => destruct q; [|discriminate] end.
    destruct (Nat.eqb_spec r' r) as [E|E]; [|discriminate]. injection Ho as ->. subst r'. do 4 eexists. left. reflexivity.
  - injection H as <- <-. split; [auto|intros ? []].
Qed.

Section LrWf.
  Variable g : grammar.
  Notation h := (iterate g).
  Lemma iterate_nth r : nth_error h r = option_map (iterate_rule r) (nth_error g r).
  Proof.
    unfold iterate. rewrite <- (Nat.add_0_l r) at 2. generalize 0. revert r. induction g as [|d g' IH]; intros [|r] k; cbn; try reflexivity.
    - now rewrite Nat.add_0_r.
    - rewrite IH. now rewrite Nat.add_succ_r.
  Qed.
  Lemma iterate_kind r d : r_is_macro (iterate_rule r d) = r_is_macro d /\ r_name (iterate_rule r d) = r_name d /\ r_lr (iterate_rule r d) = false.
  Proof. unfold iterate_rule. destruct (r_lr d) eqn:E; auto. Qed.
  Lemma iterate_body r d' b' : nth_error h r = Some d' -> r_body d' = Some b' ->
    exists d b, nth_error g r = Some d /\ r_body d = Some b /\ r_is_macro d = r_is_macro d' /\
      ((r_lr d = false /\ d' = d /\ b' = b)
       \/ (r_lr d = true /\ r_is_macro d = false /\ r_no_whitespace d = false /\ exists fl fs l x y, b = Cho fl fs l /\ split_lr r l = (x, y) /\ b' = iteration x y)).
  Proof.
    rewrite iterate_nth. intros Hd Hb. destruct (nth_error g r) as [d|]; [|discriminate]. injection Hd as <-. destruct (iterate_kind r d) as [K _].
    unfold iterate_rule in *. destruct (r_lr d) eqn:Hl; [|exists d, b'; repeat split; auto]. cbn [set_body r_body] in Hb.
    destruct (r_body d) as [[]|] eqn:Eb; try discriminate. destruct (r_is_macro d || r_no_whitespace d) eqn:E; [discriminate|]. apply orb_false_elim in E as [E1 E2].
    destruct (split_lr r l) as [x y] eqn:Es. injection Hb as <-. exists d, (Cho for_label fs l). split; [reflexivity|]. split; [exact Eb|]. split; [reflexivity|].
    right. repeat (split; [assumption||reflexivity|]). exists for_label, fs, l, x, y. auto.
  Qed.
  Lemma me_iter o : may_be_empty h o -> may_be_empty g o.
  Proof.
    intros H. induction H using me_ind'; try (econstructor; eassumption).
    all: destruct H as [H1 H2]; destruct (iterate_body _ _ _ H1 H2) as (d0 & b0 & A & B & _ & [(_ & _ & ->)|(_ & _ & _ & fl & fs & l & x & y & -> & Es & ->)]); econstructor; try (split; eassumption); try assumption.
    all: match goal with H : may_be_empty g (iteration _ _) |- _ => unfold iteration in H; inversion H as [? ? F| | | | | | | | | | | | | | | | |]; subst end.
    all: inversion F as [|? ? F1 F2]; subst; inversion F1; subst; econstructor; [eapply (proj1 (split_lr_In _ _ _ _ Es)); eassumption|assumption].
  Qed.
  Lemma cf_iter o r : calls_first h o r -> calls_first g o r.
  Proof. induction 1; try (econstructor; eassumption). constructor; [|assumption]. eapply Forall_impl; [|eassumption]. exact me_iter. Qed.
  Lemma cf_seq_inv kg l r : calls_first g (Seq kg l) r -> exists l1 o l2, l = l1 ++ o :: l2 /\ Forall (may_be_empty g) l1 /\ calls_first g o r.
  Proof. intros H. inversion H; subst. eauto 6. Qed.
  Lemma first_iter r r' : first_call h r r' -> first_call g r r'.
  Proof.
    intros (d' & b' & A & B & C). apply cf_iter in C. destruct (iterate_body _ _ _ A B) as (d & b & Hd & Hb & _ & [(_ & _ & ->)|(_ & _ & _ & fl & fs & l & x & y & -> & Es & ->)]); exists d; [eauto|].
    exists (Cho fl fs l). split; [exact Hd|]. split; [exact Hb|]. destruct (split_lr_In _ _ _ _ Es) as [S1 S2].
    unfold iteration in C. apply cf_seq_inv in C as (l1 & o & l2 & E1 & F1 & F2). destruct l1 as [|z [|z' l1]].
    - injection E1 as <- _. inversion F2; subst. econstructor; [apply S1; eassumption|assumption].
    - cbn in E1. injection E1 as <- <- _. inversion F1 as [|? ? F3 _]; subst. inversion F2 as [| |? ? ? ? ? F4| | | | | | |]; subst. inversion F4 as [|? ? ? o ? Hi F5| | | | | | | |]; subst.
      apply in_map_iff in Hi as (t & <- & Ht). destruct (S2 t Ht) as (kg & n & ia & mac & Hin). econstructor; [exact Hin|].
      apply cf_seq_inv in F5 as (k1 & oo & k2 & -> & F6 & F7). change (Ref n (Some r) ia mac [] :: k1 ++ oo :: k2) with ((Ref n (Some r) ia mac [] :: k1) ++ oo :: k2).
      constructor; [|exact F7]. constructor; [|exact F6]. eapply me_ref; [split; eassumption|]. inversion F3; subst. econstructor; [apply S1; eassumption|assumption].
    - exfalso. apply (f_equal (@List.length _)) in E1. cbn in E1. rewrite app_length in E1. cbn in E1. lia.
  Qed.
  (** What an iterated body is made of. *)
  Lemma inside_iter r d b b' x : nth_error g r = Some d -> r_body d = Some b ->
    (exists fl fs l a c, b = Cho fl fs l /\ split_lr r l = (a, c) /\ b' = iteration a c) -> inside [] b' x ->
    inside [] b x \/ exists fl fs l a c, b = Cho fl fs l /\ split_lr r l = (a, c) /\
       (x = iteration a c \/ x = Cho false [] c \/ x = Rep (Cho false [] (map (Seq None) a)) 0 None None \/ x = Cho false [] (map (Seq None) a) \/ exists t, In t a /\ x = Seq None t).
  Proof.
    intros Hd Hb (fl & fs & l & a & c & -> & Es & ->) Hi. destruct (split_lr_In _ _ _ _ Es) as [S1 S2].
    enough (Hx : inside [] (Cho fl fs l) x \/ (x = iteration a c \/ x = Cho false [] c \/ x = Rep (Cho false [] (map (Seq None) a)) 0 None None \/ x = Cho false [] (map (Seq None) a) \/ exists t, In t a /\ x = Seq None t))
      by (destruct Hx as [Hx|Hx]; [now left|right; exists fl, fs, l, a, c; auto]).
    unfold iteration in Hi |- *. inversion Hi as [|? p ? Hp Hi']; subst; [auto|]. cbn in Hp. destruct Hp as [<- |[<- |[]]].
    - inversion Hi' as [|? p ? Hp Hi2]; subst; [auto|]. left. eapply inside_part; [cbn; apply S1; exact Hp|exact Hi2].
    - inversion Hi' as [|? p ? Hp Hi2]; subst; [auto|]. destruct Hp as [<- |[]]. inversion Hi2 as [|? p ? Hp Hi3]; subst; [auto 6|]. cbn in Hp. apply in_map_iff in Hp as (t & <- & Ht).
      inversion Hi3 as [|? p ? Hp Hi4]; subst; [right; right; right; right; right; eauto|]. left. destruct (S2 t Ht) as (kg & n & ia & mac & Hin).
      eapply inside_part; [cbn; exact Hin|]. eapply inside_part; [cbn; right; exact Hp|exact Hi4].
  Qed.
  Lemma ref_iter r d' b' n q ia mac args : nth_error h r = Some d' -> r_body d' = Some b' -> inside [] b' (Ref n q ia mac args) ->
    exists d b, nth_error g r = Some d /\ r_body d = Some b /\ r_is_macro d = r_is_macro d' /\ inside [] b (Ref n q ia mac args).
  Proof.
    intros Hd Hb Hi. destruct (iterate_body _ _ _ Hd Hb) as (d & b & A & B & K & [(_ & _ & ->)|(_ & _ & _ & X)]); exists d, b; (repeat (split; [assumption|])); [assumption|].
    destruct (inside_iter r d b b' _ A B X Hi) as [Y|(fl & fs & l & a & c & _ & _ & [Y|[Y|[Y|[Y|(t & _ & Y)]]]])]; try discriminate. exact Y.
  Qed.
  Lemma calls_iter r r' : calls h r r' -> calls g r r'.
  Proof.
    intros (d' & b' & A & B & (n & ia & mac & args & C)). destruct (ref_iter _ _ _ _ _ _ _ _ A B C) as (d & b & A' & B' & _ & C'). exists d, b. split; [exact A'|]. split; [exact B'|]. now exists n, ia, mac, args.
  Qed.

  (** ** The conditions of a well-formed grammar *)
  Variable wr : option rid.
  Hypothesis Hdir : recursions_direct g wr.
  Hypothesis Hord : ordinary_grammar g.
  Lemma plain_iter r : plain_rule g r <-> plain_rule h r.
  Proof.
    unfold plain_rule. rewrite iterate_nth. split; intros H d Hd.
    - destruct (nth_error g r) as [d0|] eqn:E; [|discriminate]. injection Hd as <-. rewrite (proj1 (iterate_kind r d0)). auto.
    - specialize (H (iterate_rule r d)). rewrite Hd in H. specialize (H eq_refl). now rewrite (proj1 (iterate_kind r d)) in H.
  Qed.
  Lemma ordinary_iter o : ordinary g o = true -> ordinary h o = true.
  Proof.
    induction o using ope_ind'; cbn [ordinary]; auto.
    - intros Ho. apply andb_prop in Ho as [A B]. rewrite A. cbn [andb]. rewrite forallb_forall in B |- *. rewrite Forall_forall in H. auto.
    - intros Ho. apply andb_prop in Ho as [A B]. rewrite A. cbn [andb]. rewrite forallb_forall in B |- *. rewrite Forall_forall in H. auto.
    - destruct rl as [r|]; auto. destruct m; auto. destruct args; auto. rewrite iterate_nth. destruct (nth_error g r) as [d|]; [|auto]. cbn. now rewrite (proj1 (iterate_kind r d)).
  Qed.
  Lemma ordinary_grammar_iter : ordinary_grammar h.
  Proof.
    intros d' Hd' Hm. apply In_nth_error in Hd' as [r Hd']. rewrite iterate_nth in Hd'. destruct (nth_error g r) as [d|] eqn:Hd; [|discriminate]. injection Hd' as <-.
    rewrite (proj1 (iterate_kind r d)) in Hm. pose proof (Hord d (nth_error_In _ _ Hd) Hm) as Ho. unfold iterate_rule. destruct (r_lr d) eqn:Hl.
    - destruct (rd_rules _ _ Hdir r d Hd Hm Hl) as (fl & fs & l & a & c & Hb & Hn & Es & Ha & Hc & Ht & _). cbn [set_body r_body]. rewrite Hb in *. rewrite Hm, Hn, Es. cbn [orb].
      cbn [ordinary] in Ho. apply andb_prop in Ho as [_ Ho]. rewrite forallb_forall in Ho. destruct (split_lr_In _ _ _ _ Es) as [S1 S2].
      unfold iteration. cbn [ordinary forallb negb andb]. rewrite !andb_true_r. apply andb_true_intro. split; apply andb_true_intro; split.
      + destruct c; [congruence|reflexivity].
      + apply forallb_forall. intros o Hi. apply ordinary_iter, Ho, S1, Hi.
      + destruct a; [congruence|reflexivity].
      + apply forallb_forall. intros o Hi. apply in_map_iff in Hi as (t & <- & Hi). cbn [ordinary]. apply andb_true_intro. split.
        * destruct t; [|reflexivity]. destruct (Ht [] Hi). constructor. constructor.
        * destruct (S2 t Hi) as (kg & n & ia & mac & Hin). specialize (Ho _ Hin). cbn [ordinary forallb] in Ho. apply andb_prop in Ho as [_ Ho]. apply andb_prop in Ho as [_ Ho].
          rewrite forallb_forall in Ho |- *. intros o Hi'. apply ordinary_iter, Ho, Hi'.
    - destruct (r_body d) as [b|]; [|destruct Ho]. now apply ordinary_iter.
  Qed.
  Lemma named_iter : (forall d b, In d g -> r_is_macro d = false -> r_body d = Some b -> named_refs g b) -> forall d b, In d h -> r_is_macro d = false -> r_body d = Some b -> named_refs h b.
  Proof.
    intros H d' b' Hd' Hm Hb n r ia mac args Hi. apply In_nth_error in Hd' as [k Hd']. destruct (ref_iter _ _ _ _ _ _ _ _ Hd' Hb Hi) as (d & b & A & B & K & C).
    destruct (H d b (nth_error_In _ _ A) ltac:(congruence) B n r ia mac args C) as (d2 & D & E). exists (iterate_rule r d2). rewrite iterate_nth, D. split; [reflexivity|].
    now rewrite (proj1 (proj2 (iterate_kind r d2))).
  Qed.
  Lemma ws_iter : ws_expr h wr = ws_expr g wr.
  Proof.
    unfold ws_expr. destruct wr as [w|] eqn:E; [|reflexivity]. rewrite iterate_nth. destruct (nth_error g w) as [d|] eqn:Hd; [|reflexivity]. cbn. unfold iterate_rule.
    now rewrite (rd_ws _ _ Hdir w d eq_refl Hd).
  Qed.
  Lemma length_iter : List.length h = List.length g.
  Proof. clear. unfold iterate. generalize 0. induction g as [|d g' IH]; intros k; cbn; [reflexivity|]. now rewrite IH. Qed.
  Lemma loops_iter r d' b' e mn sp : nth_error h r = Some d' -> r_body d' = Some b' -> r_is_macro d' = false -> inside [] b' (Rep e mn None sp) ->
    (exists d b, nth_error g r = Some d /\ r_body d = Some b /\ inside [] b (Rep e mn None sp)) \/ ~ may_be_empty h e.
  Proof.
    intros Hd Hb Hm Hi. destruct (iterate_body _ _ _ Hd Hb) as (d & b & A & B & K & [(_ & _ & ->)|(Hl & _ & _ & X)]); [left; eauto|].
    destruct (inside_iter r d b b' _ A B X Hi) as [Y|(fl & fs & l & a & c & -> & Es & [Y|[Y|[Y|[Y|(t & _ & Y)]]]])]; try discriminate; [left; eauto|right].
    injection Y as -> ->. intros He. apply me_iter in He. inversion He as [|? ? ? o Hin Ho| | | | | | | | | | | | | | | |]; subst. apply in_map_iff in Hin as (t & <- & Ht).
    destruct (rd_rules _ _ Hdir r d A ltac:(congruence) Hl) as (fl' & fs' & l' & a' & c' & Hb' & _ & Es' & _ & _ & Hn & _). rewrite B in Hb'. injection Hb' as <- <- <-. rewrite Es in Es'. injection Es' as <- <-.
    exact (Hn t Ht Ho).
  Qed.
  Lemma words_iter r d' b' x w : nth_error h r = Some d' -> r_body d' = Some b' -> inside [] b' x -> word_of x w ->
    exists d b, nth_error g r = Some d /\ r_body d = Some b /\ inside [] b x.
  Proof.
    intros Hd Hb Hi Hw. destruct (iterate_body _ _ _ Hd Hb) as (d & b & A & B & K & [(_ & _ & ->)|(Hl & _ & _ & X)]); [eauto|].
    destruct (inside_iter r d b b' _ A B X Hi) as [Y|(fl & fs & l & a & c & -> & Es & [Y|[Y|[Y|[Y|(t & _ & Y)]]]])]; subst; try (destruct Hw; fail). eauto.
  Qed.
End LrWf.

(** ** Rules that do not call themselves first *)
Section NoCycle.
  Variable g : grammar.
  Lemma left_reaches_step r r1 r' : first_call g r r1 -> left_reaches g r1 r' -> left_reaches g r r'.
  Proof. intros (d & b & A & B & C) H. eapply lr_more; [eapply lr_one; eauto|exact H]. Qed.
  Variable R : rid -> Prop.
  Hypothesis Rin : forall r, R r -> r < List.length g.
  Hypothesis Rcl : forall r r', R r -> first_call g r r' -> R r'.
  Hypothesis Rno : forall r, R r -> ~ left_reaches g r r.
  Lemma acyclic_acc : forall k seen r, NoDup seen -> (forall s, In s seen -> s < List.length g /\ left_reaches g s r) -> List.length g <= List.length seen + k -> R r ->
    Acc (fun r' r => first_call g r r') r.
  Proof.
    induction k as [|k IH]; intros seen r Hnd Hs Hk Hr.
    - exfalso. assert (Hin : incl (List.seq 0 (List.length g)) seen).
      { apply NoDup_length_incl; [exact Hnd|rewrite seq_length; lia|]. intros s Hi. apply in_seq. destruct (Hs s Hi). lia. }
      apply (Rno r Hr). apply Hs, Hin, in_seq. specialize (Rin r Hr). lia.
    - constructor. intros r' Hf. apply (IH (r :: seen)).
      + constructor; [|exact Hnd]. intros Hi. apply (Rno r Hr). now apply Hs.
      + intros s [<- |Hi]; [split; [now apply Rin|]|].
        * destruct Hf as (d & b & A & B & C). eapply lr_one; eauto.
        * destruct (Hs s Hi) as [A B]. split; [exact A|]. eapply lr_more; [exact B|]. destruct Hf as (d & b & X & Y & Z). eapply lr_one; eauto.
      + cbn. lia.
      + eapply Rcl; eauto.
  Qed.
  Lemma no_cycle_acc r : R r -> Acc (fun r' r => first_call g r r') r.
  Proof. intros Hr. apply (acyclic_acc (List.length g) [] r); [constructor|intros s []|cbn; lia|exact Hr]. Qed.
End NoCycle.
