(** * C39: what a parse leaves behind does not change later parses. *)
From Verif Require Import Base BaseLemmas Utf8 Escape TrieM LineInfo Ope Ctx ErrLog Engine EngineLemmas Frame Scope Top IdsFacts Sim IndepSpec SimTop Indep PackratFilter SessionM.

Lemma marked_from_nth mk g : forall i r, nth_error (marked_from i mk g) r = option_map (with_mark (mk (i + r))) (nth_error g r).
Proof.
  induction g as [|d g IH]; intros i [|r]; cbn; try reflexivity; [now rewrite Nat.add_0_r|].
  rewrite IH. now rewrite Nat.add_succ_r.
Qed.
Lemma marked_nth mk g r : nth_error (marked mk g) r = option_map (with_mark (mk r)) (nth_error g r).
Proof. apply (marked_from_nth mk g 0 r). Qed.
Lemma marked_body mk g r d' b : nth_error (marked mk g) r = Some d' -> r_body d' = Some b ->
  exists d, nth_error g r = Some d /\ r_body d = Some b /\ d' = with_mark (mk r) d.
Proof. rewrite marked_nth. destruct (nth_error g r) as [d|]; cbn; [|discriminate]. intros H Hb. inv H. eauto. Qed.
Lemma reachable_marked mk g s ws wd r : reachable g s ws wd r <-> reachable (marked mk g) s ws wd r.
Proof.
  split.
  - induction 1; [constructor|eapply rc_ws; eauto|eapply rc_word; eauto|].
    eapply (rc_rule _ _ _ _ q (with_mark (mk q) d)); eauto. rewrite marked_nth, H0. reflexivity.
  - induction 1; [constructor|eapply rc_ws; eauto|eapply rc_word; eauto|].
    destruct (marked_body _ _ _ _ _ H0 H1) as (d0 & Hd & Hb & _). eapply rc_rule; eauto.
Qed.
Lemma names_marked mk g s ws wd : names_reachable g s ws wd -> names_reachable (marked mk g) s ws wd.
Proof.
  intros [H1 H2]. split.
  - intros w Hw. eapply Forall_impl; [|apply (H1 w Hw)]. intros a Ha. now apply reachable_marked.
  - intros r d b Hr Hd Hb. destruct (marked_body _ _ _ _ _ Hd Hb) as (d0 & Hd0 & Hb0 & _). apply reachable_marked in Hr.
    eapply Forall_impl; [|apply (H2 r d0 b Hr Hd0 Hb0)]. intros a Ha. now apply reachable_marked.
Qed.
Lemma index_of_in r l : In r l -> exists i, index_of r l = Some i /\ nth_error l i = Some r.
Proof.
  induction l as [|x l IH]; [contradiction|]. cbn. destruct (x =? r) eqn:Hx; [apply Nat.eqb_eq in Hx; subst; exists 0; auto|].
  intros [-> | H]; [now rewrite Nat.eqb_refl in Hx|]. destruct (IH H) as (i & -> & Hi). exists (S i). auto.
Qed.
Lemma index_of_some r l i : index_of r l = Some i -> In r l /\ nth_error l i = Some r.
Proof.
  revert i. induction l as [|x l IH]; cbn; intros i H; [discriminate|]. destruct (x =? r) eqn:Hx.
  - apply Nat.eqb_eq in Hx. subst. inv H. auto.
  - destruct (index_of r l) as [j|]; [|discriminate]. inv H. destruct (IH j eq_refl). auto.
Qed.

Section Session.
  Context {V U : Type}.
  Variable g : grammar.
  Variable cfg : rid -> pobj V U.
  Variable sig : ope -> ope -> bool.
  Notation prepare := (prepare g cfg sig).
  Notation one := (one g cfg sig).
  Notation run := (run g cfg sig).
  Notation alone := (alone g cfg sig).

  (** ** Always the same start rule *)
  Lemma prepare_id s se : nmem s (s_done se) = true -> (p_packrat (cfg s) = true -> nfind (s_index se) s <> None) -> prepare s se = se.
  Proof.
    intros H1 H2. unfold SessionM.prepare, assign_ids. rewrite H1. unfold assign_filter.
    destruct (p_packrat (cfg s)); cbn [negb]; [|reflexivity]. destruct (nfind (s_index se) s); [reflexivity|]. now contradiction H2.
  Qed.
  Lemma prepare_done s se : nmem s (s_done (prepare s se)) = true.
  Proof.
    unfold SessionM.prepare, assign_filter, assign_ids.
    destruct (nmem s (s_done se)) eqn:Hd; destruct (p_packrat (cfg s)); cbn [negb]; cbn [s_done s_index];
      repeat match goal with |- context [match ?x with Some _ => _ | None => _ end] => destruct x end; cbn [s_done nmem existsb]; rewrite ?Nat.eqb_refl; auto.
  Qed.
  Lemma prepare_index s se : p_packrat (cfg s) = true -> nfind (s_index (prepare s se)) s <> None.
  Proof.
    intros Hp. unfold SessionM.prepare, assign_filter. rewrite Hp. cbn [negb].
    destruct (nfind (s_index (assign_ids g cfg s se)) s) eqn:Hn; [congruence|]. cbn [s_index]. unfold nfind. cbn. rewrite Nat.eqb_refl. discriminate.
  Qed.
  Lemma prepare_twice s se : prepare s (prepare s se) = prepare s se.
  Proof. apply prepare_id; [apply prepare_done|apply prepare_index]. Qed.
  Theorem same_start fuel s cs : Forall (fun c => fst (fst c) = s) cs ->
    run fuel sess0 cs = map (alone fuel) cs.
  Proof.
    intros H.
    assert (Hg : forall se, se = sess0 \/ se = prepare s sess0 -> run fuel se cs = map (alone fuel) cs).
    { induction H as [|[[s' t] dt] cs Hc H IH]; intros se Hse; [reflexivity|]. cbn in Hc. subst s'.
      cbn [SessionM.run map fst]. f_equal.
      - destruct Hse as [-> | ->]; [reflexivity|]. unfold SessionM.alone, SessionM.one. now rewrite prepare_twice.
      - apply IH. destruct Hse as [-> | ->]; [now right|]. rewrite prepare_twice. now right. }
    apply Hg. now left.
  Qed.

  (** ** Any start rules, without packrat parsing *)
  Definition marks_right (se : sess) : Prop :=
    forall s r, nmem s (s_done se) = true -> In r (id_list (scan g cfg s)) -> s_mark se r = mark_of g r.
  Lemma assign_marks s se : marks_right se -> marks_right (assign_ids g cfg s se).
  Proof.
    intros H. unfold assign_ids. destruct (nmem s (s_done se)) eqn:Hd; [assumption|].
    intros s' r Hs Hr. cbn [s_done s_mark] in *. destruct (index_of r (id_list (scan g cfg s))) as [i|] eqn:Hi; [reflexivity|].
    cbn [nmem existsb] in Hs. destruct (s' =? s) eqn:He.
    - apply Nat.eqb_eq in He. subst s'. destruct (index_of_in _ _ Hr) as (i & Hi' & _). congruence.
    - apply (H s' r); assumption.
  Qed.
  Lemma prepare_marks s se : marks_right se -> marks_right (prepare s se).
  Proof.
    intros H. apply (assign_marks s) in H. unfold SessionM.prepare, assign_filter. destruct (negb _); [assumption|].
    destruct (nfind _ _); assumption.
  Qed.
  Theorem any_start fuel cs :
    (forall c, In c cs -> p_packrat (cfg (fst (fst c))) = false /\
       names_reachable g (fst (fst c)) (p_ws (cfg (fst (fst c)))) (p_word (cfg (fst (fst c))))) ->
    map view (run fuel sess0 cs) = map (fun c => view (alone fuel c)) cs.
  Proof.
    intros H.
    assert (Hg : forall se, marks_right se -> map view (run fuel se cs) = map (fun c => view (alone fuel c)) cs).
    { induction cs as [|c cs IH]; intros se Hse; [reflexivity|]. cbn [SessionM.run map]. f_equal.
      2:{ apply IH; [intros c' Hc; apply H; now right|]. now apply prepare_marks. }
      destruct (H c (or_introl eq_refl)) as [Hp Hn]. clear H IH. destruct c as [[s t] dt]. cbn [fst] in *.
      unfold SessionM.alone, SessionM.one.
      assert (M0 : marks_right sess0) by (intros s' r Hs; discriminate).
      pose proof (prepare_marks s se Hse) as M1. pose proof (prepare_marks s sess0 M0) as M2.
      pose proof (prepare_done s se) as D1. pose proof (prepare_done s sess0) as D2.
      apply unreachable_irrelevant.
      - constructor; cbn [start_at p_g p_start p_ws p_word p_packrat p_slot p_cached p_eoi p_tracer p_verbose p_log p_u0 p_action p_pred p_enter p_leave p_user]; auto.
        + now rewrite Hp.
        + intros r Hr. apply reachable_marked in Hr. apply reachable_ids in Hr.
          rewrite !marked_nth. rewrite (M1 s r D1 Hr), (M2 s r D2 Hr). rewrite Hp. auto 8.
      - cbn [start_at p_g p_start p_ws p_word]. now apply names_marked. }
    apply Hg. intros s r Hs. discriminate.
  Qed.

  (** ** The packrat slots of a fresh object are numbered injectively on the rules that
      can be reached. *)
  Lemma NoDup_ids s : NoDup (id_list (scan g cfg s)).
  Proof.
    unfold scan, definition_ids.
    assert (Ho : forall en, (forall r st, NoDup (id_list st) -> NoDup (id_list (en r st))) -> forall o st, NoDup (id_list st) -> NoDup (id_list (ids_ope en o st))).
    { intros en He. assert (Hl : forall l, Forall (fun o => forall st, NoDup (id_list st) -> NoDup (id_list (ids_ope en o st))) l ->
        forall st, NoDup (id_list st) -> NoDup (id_list (fold_left (fun s x => ids_ope en x s) l st))).
      { induction 1; cbn; auto. }
      induction o using ope_ind'; intros st Hs; try (rewrite ids_ope_seq; now auto); try (rewrite ids_ope_cho; now auto);
        try (destruct rl; [|exact Hs]; rewrite ids_ope_ref; now auto); cbn [ids_ope]; auto. }
    assert (He : forall fuel r st, NoDup (id_list st) -> NoDup (id_list (ids_enter fuel g r st))).
    { induction fuel as [|k IH]; intros r st Hs; cbn [ids_enter]; [assumption|]. destruct (mem_rid r (id_list st)) eqn:Hm; [assumption|].
      assert (Hn : NoDup (id_list st ++ [r])).
      { apply not_true_iff_false in Hm. assert (~ In r (id_list st)) by (intros Hi; apply Hm; now apply mem_rid_in).
        clear - Hs H. induction Hs; cbn; [repeat constructor; auto|]. constructor; [|apply IHHs; cbn in *; tauto].
        intros Hi. apply in_app_or in Hi as [Hi | [-> | []]]; [contradiction|]. apply H. now left. }
      destruct (nth_error g r) as [d|]; [|assumption]. destruct (r_body d); [|assumption]. apply Ho; auto. }
    destruct (p_word (cfg s)), (p_ws (cfg s)); try apply Ho; auto; try apply Ho; auto; apply He; constructor.
  Qed.
  Lemma fresh_id s r : nmem s (s_done sess0) = false -> In r (id_list (scan g cfg s)) ->
    exists i, s_id (prepare s sess0) r = i /\ nth_error (id_list (scan g cfg s)) i = Some r.
  Proof.
    intros _ Hr. destruct (index_of_in _ _ Hr) as (i & Hi & Hn). exists i. split; [|assumption].
    unfold SessionM.prepare, assign_filter, assign_ids. cbn [sess0 s_done nmem existsb].
    destruct (negb _); cbn [s_id s_index]; [now rewrite Hi|]. cbn [nfind find s_index]. unfold nfind. cbn. now rewrite Hi.
  Qed.
  Theorem fresh_slots s : p_packrat (cfg s) = true ->
    let P := start_at g cfg s (prepare s sess0) in
    forall r q k, reachable g s (p_ws (cfg s)) (p_word (cfg s)) r -> reachable g s (p_ws (cfg s)) (p_word (cfg s)) q ->
      p_slot P r = Some k -> k < p_cached P /\ (p_slot P q = Some k -> q = r).
  Proof.
    intros Hp P r q k Hr Hq. apply reachable_ids in Hr, Hq. fold (scan g cfg s) in Hr, Hq.
    destruct (fresh_id s r eq_refl Hr) as (i & Hi & Ni). destruct (fresh_id s q eq_refl Hq) as (j & Hj & Nj).
    subst P. cbn [start_at p_slot p_cached]. rewrite Hp. cbn beta.
    assert (Hx : exists idm n, nfind (s_index (prepare s sess0)) s = Some (packrat_filter g idm n sig s (p_ws (cfg s)) (p_word (cfg s)) (id_list (scan g cfg s)))).
    { unfold SessionM.prepare, assign_filter, assign_ids. rewrite Hp. cbn. unfold nfind. cbn. rewrite Nat.eqb_refl. cbn. eauto. }
    destruct Hx as (idm & n & ->). rewrite Hi, Hj.
    pose proof (packrat_filter_slots g idm n sig s (p_ws (cfg s)) (p_word (cfg s)) (id_list (scan g cfg s))) as Hs.
    destruct (packrat_filter _ _ _ _ _ _ _ _) as [index count]. cbn [fst snd]. intros Hk. destruct (Hs _ _ Hk) as (H1 & _ & H2).
    split; [assumption|]. intros Hk'. apply H2 in Hk'. congruence.
  Qed.

  (** Whatever parses were done before, the marks are right or conservative. *)
  Fixpoint after (se : sess) (starts : list rid) : sess :=
    match starts with [] => se | s :: l => after (prepare s se) l end.
  Lemma calls_marked mk o : calls_macro (marked mk g) o = calls_macro g o.
  Proof.
    assert (Hl : forall l, Forall (fun o => calls_macro (marked mk g) o = calls_macro g o) l -> existsb (calls_macro (marked mk g)) l = existsb (calls_macro g) l).
    { induction 1 as [|x l Hx Hl IH]; cbn; [reflexivity|]. now rewrite Hx, IH. }
    induction o using ope_ind'; cbn [calls_macro]; auto.
    - destruct rl as [r|]; [|reflexivity]. rewrite (Hl _ H), marked_nth. now destruct (nth_error g r).
    - now rewrite IHo1, IHo2.
  Qed.
  Theorem marks_ok starts : (forall r d b, nth_error g r = Some d -> r_body d = Some b -> uses_param b = true -> r_is_macro d = true) ->
    macro_marks (marked (s_mark (after sess0 starts)) g).
  Proof.
    intros Hu. assert (Hm : forall r, s_mark (after sess0 starts) r = true \/ s_mark (after sess0 starts) r = mark_of g r).
    { assert (Hg : forall se, (forall r, s_mark se r = true \/ s_mark se r = mark_of g r) -> forall r, s_mark (after se starts) r = true \/ s_mark (after se starts) r = mark_of g r).
      { induction starts as [|s l IH]; intros se Hse; [assumption|]. cbn [after]. apply IH. intros r.
        assert (Hf : forall x, s_mark (assign_filter g cfg sig s x) = s_mark x).
        { intros x. unfold assign_filter. destruct (negb _); [reflexivity|]. now destruct (nfind _ _). }
        unfold SessionM.prepare. rewrite Hf. unfold assign_ids. destruct (nmem s (s_done se)); [apply Hse|]. cbn [s_mark].
        destruct (index_of _ _); auto. }
      apply Hg. auto. }
    intros r d' b Hd Hb. destruct (marked_body _ _ _ _ _ Hd Hb) as (d & Hd0 & Hb0 & ->). cbn [with_mark r_is_macro r_macro_ref].
    split; [eauto|]. rewrite calls_marked. intros Hc. right. destruct (Hm r) as [-> | ->]; [reflexivity|].
    unfold mark_of. now rewrite Hd0, Hb0.
  Qed.
End Session.
