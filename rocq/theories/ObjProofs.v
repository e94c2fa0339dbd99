(** * C58: what a history leaves behind. *)
From Verif Require Import Base BaseLemmas Utf8 Escape TrieM LineInfo Ope Ctx ErrLog Engine Top IndepSpec PackratFilter SessionM Session ObjM ObjSpec.
From Verif Require PrecM FirstSetup LoadRefs LoadM LoadRefs LoadMain LoadTop MetaM BlobM.

Section Proofs.
  Context {V U : Type}.
  Variable fuel : nat.
  Variable keq : (rid * list ope) -> (rid * list ope) -> bool.
  Variable order : grammar -> grammar.
  Variable border : list rid.
  Variable sig : ope -> ope -> bool.
  Variable G : grammar.
  Variable u0 : U.
  Notation obj := (@obj V U).
  Notation op := (@op V U).
  Notation held := (@held V U).
  Notation step := (@step V U fuel keq order border sig G u0).
  Notation replies := (@replies V U fuel keq order border sig G u0).
  Notation cfg := (@cfg V U u0).

  Lemma replies_app o a b r : replies o (a ++ b) = Ok r ->
    exists r1 r2 o', r = r1 ++ r2 /\ List.length r1 = List.length a /\ replies o a = Ok r1 /\ replies o' b = Ok r2
      /\ (forall c r3, replies o' c = Ok r3 -> replies o (a ++ c) = Ok (r1 ++ r3)).
  Proof.
    revert o r. induction a as [|x a IH]; intros o r H.
    - exists [], r, o. auto 8.
    - cbn [app ObjM.replies] in *. destruct (step o x) as [[o1 y]| | |]; try discriminate. cbn [bind] in *.
      destruct (replies o1 (a ++ b)) as [r0| | |] eqn:E; try discriminate. cbn [bind] in H. inversion H; subst r. clear H.
      destruct (IH o1 r0 E) as (r1 & r2 & o' & -> & Hl & H1 & H2 & H3). exists (y :: r1), r2, o'.
      split; [reflexivity|]. split; [cbn; now rewrite Hl|]. split; [rewrite H1; reflexivity|]. split; [assumption|].
      intros c r3 Hc. rewrite (H3 c r3 Hc). reflexivity.
  Qed.

  (** ** What a parse may leave in the grammar *)
  Definition ids_of (h : held) (s : rid) : sess := assign_ids (h_g h) (cfg h false) s sess0.
  Definition full_of (h : held) (s : rid) : sess :=
    let l := id_list (scan (h_g h) (cfg h false) s) in
    {| s_id := s_id (ids_of h s); s_mark := s_mark (ids_of h s); s_done := [s];
       s_index := [(s, packrat_filter (h_g h) (s_id (ids_of h s)) (List.length l) sig s (p_ws (cfg h false s)) (p_word (cfg h false s)) l)] |}.
  Definition left (h : held) (s : rid) (se : sess) : Prop := se = sess0 \/ se = ids_of h s \/ se = full_of h s.
  Lemma prepare_left h log s se : left h s se ->
    prepare (h_g h) (cfg h log) sig s se = full_of h s \/ (st_packrat (h_set h s) = false /\ prepare (h_g h) (cfg h log) sig s se = ids_of h s).
  Proof.
    assert (Hn : forall l, nmem s (s :: l) = true) by (intros l; unfold nmem; cbn; now rewrite Nat.eqb_refl).
    assert (Hf : forall x l, nfind ((s, x) :: l) s = Some (x : list (option nat) * nat)) by (intros x l; unfold nfind; cbn; now rewrite Nat.eqb_refl).
    assert (Hd : forall se', s_done se' = [s] -> assign_ids (h_g h) (cfg h log) s se' = se').
    { intros se' He. unfold assign_ids. now rewrite He, Hn. }
    intros [-> | [-> | ->]]; unfold prepare.
    - unfold assign_filter. cbn [ObjM.cfg p_packrat]. destruct (st_packrat (h_set h s)); cbn [negb]; [left|right; split]; reflexivity.
    - rewrite Hd by reflexivity. unfold assign_filter. cbn [ObjM.cfg p_packrat]. destruct (st_packrat (h_set h s)); cbn [negb]; [left|right; split]; reflexivity.
    - rewrite Hd by reflexivity. left. unfold assign_filter. destruct (negb _); [reflexivity|]. cbn [full_of s_index]. now rewrite Hf.
  Qed.
  Lemma left_again h log s se : left h s se -> left h s (prepare (h_g h) (cfg h log) sig s se).
  Proof. intros H. destruct (prepare_left h log s se H) as [-> | [_ ->]]; [now right; right|now right; left]. Qed.
  Lemma start_same h log s se se' : left h s se -> left h s se' ->
    start_at (h_g h) (cfg h log) s (prepare (h_g h) (cfg h log) sig s se) = start_at (h_g h) (cfg h log) s (prepare (h_g h) (cfg h log) sig s se').
  Proof.
    intros H H'. destruct (prepare_left h log s se H) as [-> | [Hp ->]], (prepare_left h log s se' H') as [-> | [Hp' ->]]; try reflexivity;
      unfold start_at; cbn [cfg p_packrat]; rewrite ?Hp, ?Hp'; reflexivity.
  Qed.

  (** ** Two objects that differ in what parses left *)
  Definition fine (h : held) (start : bytes) : Prop := forall s, LoadM.rule_named (h_g h) start = Some s -> left h s (h_sess h).
  Definition alike (o o' : obj) : Prop :=
    o_start o = o_start o' /\ o_lr o = o_lr o' /\ o_pk o = o_pk o' /\ o_log o = o_log o'
    /\ match o_held o, o_held o' with
       | None, None => True
       | Some h, Some h' => h' = with_sess h (h_sess h') /\ fine h (o_start o) /\ fine h' (o_start o)
       | _, _ => False
       end.
  Lemma fine_make g m w d k start : fine (make g m w d k) start.
  Proof. intros s _. now left. Qed.
  Notation calm := (@calm V U fuel border).
  Lemma fine_set h start set : fine h start ->
    fine {| h_g := h_g h; h_main := h_main h; h_ws := h_ws h; h_word := h_word h; h_set := set; h_hooks := h_hooks h; h_sess := h_sess h |} start.
  Proof. intros H s Hs. exact (H s Hs). Qed.
  Lemma fine_hooks h start k : fine h start -> fine (with_hooks h k) start.
  Proof. intros H s Hs. exact (H s Hs). Qed.
  Lemma alike_start o o' f : alike o o' -> alike (on_start o f) (on_start o' f).
  Proof.
    intros (H1 & H2 & H3 & H4 & H5). destruct o as [h st lr pk lg], o' as [h' st' lr' pk' lg']. cbn [o_start o_lr o_pk o_log o_held] in *. subst st' lr' pk' lg'.
    destruct h as [h|], h' as [h'|]; try contradiction; [|unfold on_start, alike; cbn; auto].
    destruct H5 as (He & Hf & Hf'). destruct h' as [g' m' w' d' set' hk' se']. unfold with_sess in He. cbn [h_sess] in He. injection He as -> -> -> -> -> ->.
    unfold on_start. cbn [o_held o_start h_g]. destruct (LoadM.rule_named (h_g h) st) as [s|] eqn:Hs.
    - unfold alike, with_held. cbn [o_start o_lr o_pk o_log o_held]. do 4 (split; [reflexivity|]).
      split; [reflexivity|]. split; [now apply fine_set|]. exact (fine_set _ _ _ Hf').
    - unfold alike. cbn [o_start o_lr o_pk o_log o_held]. do 4 (split; [reflexivity|]). auto.
  Qed.
  Lemma step_alike o o' x o1 a : alike o o' -> calm x -> step o x = Ok (o1, a) -> exists o1', step o' x = Ok (o1', a) /\ alike o1 o1'.
  Proof.
    intros Ha Hc H.
    assert (Hset : forall f, alike (on_start o f) (on_start o' f)) by (intros f; now apply alike_start).
    destruct Ha as (H1 & H2 & H3 & H4 & H5). destruct o as [h st lr pk lg], o' as [h' st' lr' pk' lg']. cbn [o_start o_lr o_pk o_log o_held] in *. subst st' lr' pk' lg'.
    assert (Hr : alike {| o_held := None; o_start := []; o_lr := lr; o_pk := false; o_log := lg |} {| o_held := None; o_start := []; o_lr := lr; o_pk := false; o_log := lg |}) by (unfold alike; cbn; auto).
    assert (Hm : forall g m w d k st pk, let y := {| o_held := Some (make g m w d k); o_start := st; o_lr := lr; o_pk := pk; o_log := lg |} in alike y y).
    { intros. unfold y, alike. cbn [o_start o_lr o_pk o_log o_held]. do 4 (split; [reflexivity|]). split; [reflexivity|]. split; apply fine_make. }
    destruct x as [start text|blob|b|b| | | |b|name f|f|input dt]; cbn [ObjM.step o_lr o_log o_held o_start o_pk] in *.
    - destruct (MetaM.load_text fuel keq lr order G lg start text) as [[[[|L]|] k]| | |]; try discriminate; cbn [bind] in *; inversion H; subst; clear H;
        eexists; (split; [reflexivity|]); [exact Hr|apply Hm].
    - destruct (BlobM.load_blob fuel fuel border blob) as [L| | |] eqn:Hl; try discriminate.
      + inversion H; subst. eexists. split; [reflexivity|]. apply Hm.
      + inversion H; subst. eexists. split; [reflexivity|]. destruct Hc as [[L HL]|Hb]; [congruence|]. rewrite Hb.
        unfold alike. cbn [o_start o_lr o_pk o_log o_held]. do 4 (split; [reflexivity|]). exact H5.
    - inversion H; subst. eexists. split; [reflexivity|]. unfold alike. cbn [o_start o_lr o_pk o_log o_held]. auto 6.
    - inversion H; subst. eexists. split; [reflexivity|]. unfold alike. cbn [o_start o_lr o_pk o_log o_held]. auto 6.
    - inversion H; subst. eexists. split; [reflexivity|]. apply Hset.
    - inversion H; subst. eexists. split; [reflexivity|]. apply Hset.
    - inversion H; subst. eexists. split; [reflexivity|]. apply Hset.
    - inversion H; subst. eexists. split; [reflexivity|]. apply Hset.
    - destruct h as [h|], h' as [h'|]; try contradiction; [|discriminate]. destruct H5 as (He & Hf & Hf').
      destruct h' as [g' m' w' d' set' hk' se']. unfold with_sess in He. cbn [h_sess] in He. injection He as -> -> -> -> -> ->. cbn [h_g].
      destruct (LoadM.rule_named (h_g h) name) as [q|]; inversion H; subst; eexists; (split; [reflexivity|]);
        unfold alike, with_held; cbn [o_start o_lr o_pk o_log o_held]; do 4 (split; [reflexivity|]); [|auto].
      split; [reflexivity|]. split; [now apply fine_hooks|exact (fine_hooks _ _ _ Hf')].
    - destruct h as [h|], h' as [h'|]; try contradiction; [|discriminate]. destruct H5 as (He & Hf & Hf').
      destruct h' as [g' m' w' d' set' hk' se']. unfold with_sess in He. cbn [h_sess] in He. injection He as -> -> -> -> -> ->.
      inversion H; subst; eexists; (split; [reflexivity|]).
      unfold alike, with_held; cbn [o_start o_lr o_pk o_log o_held]; do 4 (split; [reflexivity|]).
      split; [reflexivity|]. split; [now apply fine_hooks|exact (fine_hooks _ _ _ Hf')].
    - destruct h as [h|], h' as [h'|]; try contradiction.
      2:{ inversion H; subst. eexists. split; [reflexivity|]. unfold alike. cbn [o_start o_lr o_pk o_log o_held]. auto 6. }
      destruct H5 as (He & Hf & Hf').
      destruct h' as [g' m' w' d' set' hk' se']. unfold with_sess in He. cbn [h_sess] in He. injection He as -> -> -> -> -> ->. cbn [h_g h_sess].
      destruct (LoadM.rule_named (h_g h) st) as [s|] eqn:Hs; [|discriminate].
      assert (L1 : left h s (h_sess h)) by (now apply Hf). assert (L2 : left h s se') by exact (Hf' s Hs).
      pose proof (start_same h lg s _ _ L1 L2) as Hst. cbn [h_g h_main h_ws h_word h_set h_hooks] in *.
      change (ObjM.cfg u0 {| h_g := h_g h; h_main := h_main h; h_ws := h_ws h; h_word := h_word h; h_set := h_set h; h_hooks := h_hooks h; h_sess := se' |} lg) with (cfg h lg).
      rewrite <- Hst. destruct (parser_parse _ _ _ _) as [[[b reps] r]| | |]; try discriminate. cbn [bind] in *. inversion H; subst. clear H.
      eexists. split; [reflexivity|]. unfold alike, with_held; cbn [o_start o_lr o_pk o_log o_held]; do 4 (split; [reflexivity|]).
      split; [reflexivity|]. split; intros q Hq; cbn [with_sess h_g h_sess] in *; assert (q = s) by congruence; subst q.
      + exact (left_again h lg s _ L1).
      + exact (left_again h lg s _ L2).
  Qed.
  Lemma replies_alike l : forall o o' r, alike o o' -> Forall calm l -> replies o l = Ok r -> replies o' l = Ok r.
  Proof.
    induction l as [|x l IH]; intros o o' r Ha Hc H; [exact H|]. inversion Hc; subst. cbn [ObjM.replies] in *.
    destruct (step o x) as [[o1 a]| | |] eqn:Hs; try discriminate. cbn [bind] in H.
    destruct (step_alike o o' x o1 a Ha H2 Hs) as (o1' & -> & Ha'). cbn [bind].
    destruct (replies o1 l) as [r1| | |] eqn:Hr; try discriminate. rewrite (IH o1 o1' r1 Ha' H3 Hr). exact H.
  Qed.
  Lemma parse_alike o input dt o1 a : alike o o -> step o (OParse input dt) = Ok (o1, a) -> alike o1 o.
  Proof.
    intros (_ & _ & _ & _ & H5) H. destruct o as [h st lr pk lg]. cbn [ObjM.step o_lr o_log o_held o_start o_pk] in *.
    destruct h as [h|]; [|inversion H; subst; unfold alike; cbn; auto]. destruct H5 as (_ & Hf & _).
    destruct (LoadM.rule_named (h_g h) st) as [s|] eqn:Hs; [|discriminate].
    destruct (parser_parse _ _ _ _) as [[[b reps] r]| | |]; try discriminate. cbn [bind] in *. inversion H; subst. clear H.
    unfold alike, with_held; cbn [o_start o_lr o_pk o_log o_held]; do 4 (split; [reflexivity|]).
    split; [now destruct h|]. split; [|exact Hf]. intros q Hq. cbn [with_sess h_g h_sess] in *. assert (q = s) by congruence. subst q. exact (left_again h lg s _ (Hf s Hs)).
  Qed.
  Definition sound (o : obj) : Prop := match o_held o with Some h => fine h (o_start o) | None => True end.
  Lemma alike_refl o : sound o -> alike o o.
  Proof.
    intros H. unfold alike. do 4 (split; [reflexivity|]). unfold sound in H. destruct (o_held o) as [h|]; [|exact I]. split; [now destruct h|]. auto.
  Qed.
  Lemma alike_sound o o' : alike o o' -> sound o.
  Proof. intros (_ & _ & _ & _ & H). unfold sound. destruct (o_held o), (o_held o'); try contradiction; [apply H|exact I]. Qed.

  Theorem drop_parse h1 : forall o h2 input dt r, sound o -> Forall calm (h1 ++ h2) ->
    replies o (h1 ++ OParse input dt :: h2) = Ok r ->
    exists r1 a r2, r = r1 ++ a :: r2 /\ List.length r1 = List.length h1 /\ replies o (h1 ++ h2) = Ok (r1 ++ r2).
  Proof.
    induction h1 as [|x h1 IH]; intros o h2 input dt r Ho Hc H.
    - cbn [app] in *. cbn [ObjM.replies] in H. destruct (step o (OParse input dt)) as [[o1 a]| | |] eqn:Hs; try discriminate. cbn [bind] in H.
      destruct (replies o1 h2) as [r2| | |] eqn:Hr; try discriminate. inversion H; subst. exists [], a, r2. split; [reflexivity|]. split; [reflexivity|].
      eapply replies_alike; [eapply parse_alike; [now apply alike_refl|exact Hs]|exact Hc|exact Hr].
    - cbn [app] in *. inversion Hc; subst. cbn [ObjM.replies] in H |- *. destruct (step o x) as [[o1 a]| | |] eqn:Hs; try discriminate. cbn [bind] in *.
      destruct (replies o1 (h1 ++ OParse input dt :: h2)) as [r0| | |] eqn:Hr; try discriminate. inversion H; subst. clear H.
      assert (Ho1 : sound o1).
      { destruct (step_alike o o x o1 a (alike_refl o Ho) H2 Hs) as (o1' & _ & Ha). exact (alike_sound _ _ Ha). }
      destruct (IH o1 h2 input dt r0 Ho1 H3 Hr) as (r1 & b & r2 & -> & Hl & Hr2). exists (a :: r1), b, r2.
      split; [reflexivity|]. split; [cbn; now rewrite Hl|]. now rewrite Hr2.
  Qed.

  (** ** Before a load *)
  Lemma load_forgets o o' start text : o_lr o = o_lr o' -> o_log o = o_log o' -> step o (OLoad start text) = step o' (OLoad start text).
  Proof. intros H1 H2. cbn [ObjM.step]. now rewrite H1, H2. Qed.
  Lemma step_flags o x o1 a : step o x = Ok (o1, a) -> o_lr o1 = last_lr (o_lr o) [x] /\ o_log o1 = last_log (o_log o) [x].
  Proof.
    assert (Hs : forall f, o_lr (on_start o f) = o_lr o /\ o_log (on_start o f) = o_log o).
    { intros f. unfold on_start. destruct (o_held o) as [h|]; [|auto]. destruct (LoadM.rule_named _ _); auto. }
    destruct x as [start text|blob|b|b| | | |b|name f|f|input dt]; cbn [ObjM.step last_lr last_log]; intros H; try (inversion H; subst; try apply Hs; auto; fail).
    - destruct (MetaM.load_text _ _ _ _ _ _ _ _) as [[[[|L]|] k]| | |]; try discriminate; cbn [bind] in H; inversion H; auto.
    - destruct (BlobM.load_blob _ _ _ _) as [L| | |]; try discriminate; inversion H; auto.
    - destruct (o_held o) as [h|]; [|discriminate]. destruct (LoadM.rule_named _ _); inversion H; auto.
    - destruct (o_held o) as [h|]; [|discriminate]. inversion H; auto.
    - destruct (o_held o) as [h|]; [|inversion H; subst; auto]. destruct (LoadM.rule_named _ _); [|discriminate].
      destruct (parser_parse _ _ _ _) as [[[b0 reps0] r0]| | |]; try discriminate. cbn [bind] in *. inversion H; auto.
  Qed.
  Lemma last_lr_cons b (x : op) l : last_lr b (x :: l) = last_lr (last_lr b [x]) l.
  Proof. destruct x; reflexivity. Qed.
  Lemma last_log_cons b (x : op) l : last_log b (x :: l) = last_log (last_log b [x]) l.
  Proof. destruct x; reflexivity. Qed.
  Lemma set_two b c l : replies new_object (OLeftRec b :: OLogger c :: l)
    = let* r := replies {| o_held := None; o_start := []; o_lr := b; o_pk := false; o_log := c |} l in Ok (Done :: Done :: r).
  Proof. cbn [ObjM.replies ObjM.step bind new_object o_held o_start o_pk o_lr]. destruct (replies _ l); reflexivity. Qed.
  Lemma replies_load o o' start text l : o_lr o = o_lr o' -> o_log o = o_log o' -> replies o (OLoad start text :: l) = replies o' (OLoad start text :: l).
  Proof. intros H1 H2. cbn [ObjM.replies]. now rewrite (load_forgets o o' start text H1 H2). Qed.
  Theorem reload h1 : forall o start text h2 r, replies o (h1 ++ OLoad start text :: h2) = Ok r ->
    exists r1 r2, r = r1 ++ r2 /\ List.length r1 = List.length h1
      /\ replies new_object (OLeftRec (last_lr (o_lr o) h1) :: OLogger (last_log (o_log o) h1) :: OLoad start text :: h2) = Ok (Done :: Done :: r2).
  Proof.
    induction h1 as [|x h1 IH]; intros o start text h2 r H.
    - cbn [app] in H. exists [], r. split; [reflexivity|]. split; [reflexivity|].
      rewrite set_two. cbn [last_lr last_log]. erewrite replies_load; [rewrite H; reflexivity| |]; reflexivity.
    - cbn [app ObjM.replies] in H. destruct (step o x) as [[o1 a]| | |] eqn:Hs; try discriminate. cbn [bind] in H.
      destruct (replies o1 (h1 ++ OLoad start text :: h2)) as [r0| | |] eqn:Hr; try discriminate. inversion H; subst. clear H.
      destruct (IH o1 start text h2 r0 Hr) as (r1 & r2 & -> & Hl & Hr2). destruct (step_flags o x o1 a Hs) as [F1 F2].
      exists (a :: r1), r2. split; [reflexivity|]. split; [cbn; now rewrite Hl|].
      rewrite last_lr_cons, last_log_cons, <- F1, <- F2. exact Hr2.
  Qed.

  (** ** After a refused load *)
  Lemma empty_step o x o1 a : o_held o = None -> makes_grammar x = false -> step o x = Ok (o1, a) ->
    o_held o1 = None /\ a = match x with OParse _ _ => Parsed false [] None | _ => Done end.
  Proof.
    intros Ho Hx H. destruct x as [start text|blob|b|b| | | |b|name f|f|input dt]; try discriminate; cbn [ObjM.step] in H; unfold on_start in H; rewrite ?Ho in H; try discriminate; inversion H; subst; cbn [o_held]; auto.
  Qed.
  Lemma empty_replies l : forall o r, o_held o = None -> forallb (fun x => negb (makes_grammar x)) l = true -> replies o l = Ok r ->
    r = map (fun x => match x with OParse _ _ => Parsed false [] None | _ => Done end) l.
  Proof.
    induction l as [|x l IH]; intros o r Ho Hl H; cbn [ObjM.replies] in H; [inversion H; reflexivity|].
    cbn [forallb] in Hl. apply andb_true_iff in Hl as [Hx Hl]. apply negb_true_iff in Hx.
    destruct (step o x) as [[o1 a]| | |] eqn:Hs; try discriminate. cbn [bind] in H.
    destruct (replies o1 l) as [r0| | |] eqn:Hr; try discriminate. inversion H; subst.
    destruct (empty_step o x o1 a Ho Hx Hs) as [Ho1 ->]. cbn [map]. f_equal. exact (IH o1 r0 Ho1 Hl Hr).
  Qed.
  Lemma load_answer o start text o1 a : step o (OLoad start text) = Ok (o1, a) ->
    exists b, a = Answer b /\ (b = false -> o_held o1 = None) /\ (b = true -> o_held o1 <> None).
  Proof.
    cbn [ObjM.step]. destruct (MetaM.load_text _ _ _ _ _ _ _ _) as [[[[|L]|] k]| | |]; try discriminate; cbn [bind]; intros H; inversion H; subst;
      eexists; (split; [reflexivity|]); split; intros; congruence || (cbn; congruence).
  Qed.
  Theorem after_refused h1 : forall o start text h2 r1 r2, replies o (h1 ++ OLoad start text :: h2) = Ok (r1 ++ Answer false :: r2) ->
    List.length r1 = List.length h1 -> forallb (fun x => negb (makes_grammar x)) h2 = true ->
    r2 = map (fun x => match x with OParse _ _ => Parsed false [] None | _ => Done end) h2.
  Proof.
    induction h1 as [|x h1 IH]; intros o start text h2 r1 r2 H Hl Hn.
    - destruct r1; [|discriminate]. cbn [app] in H. cbn [ObjM.replies] in H.
      destruct (step o (OLoad start text)) as [[o1 a]| | |] eqn:Hs; try (cbn [bind] in H; discriminate). cbn [bind] in H.
      destruct (replies o1 h2) as [r0| | |] eqn:Hr; try discriminate. injection H as -> ->.
      destruct (load_answer _ _ _ _ _ Hs) as (b & Hb & Hf & _). injection Hb as <-. exact (empty_replies h2 o1 r2 (Hf eq_refl) Hn Hr).
    - destruct r1 as [|y r1]; [discriminate|]. cbn [app ObjM.replies] in H.
      destruct (step o x) as [[o1 a]| | |]; try discriminate. cbn [bind] in H.
      destruct (replies o1 (h1 ++ OLoad start text :: h2)) as [r0| | |] eqn:Hr; try discriminate. injection H as _ ->.
      cbn in Hl. injection Hl as Hl. eapply IH; eassumption.
  Qed.

  (** ** After an accepted load *)
  Lemma loaded_names fuel' keq' lr is start src L : LoadM.load fuel' keq' lr is start src = Some (LoadM.Accepted L) ->
    map r_name (LoadM.ld_g L) = map r_name src /\ LoadM.rule_named src start = Some (LoadM.ld_start L).
  Proof.
    intros H. destruct (LoadTop.load_final _ _ _ _ _ _ _ H) as (g3 & g4 & H1 & _ & H2 & H3 & _ & Hs). split; [|exact Hs].
    transitivity (map r_name g4).
    { pose proof (f_equal (map r_name) (LoadRefs.setup_strip _ _ _ _ _ H3)) as E. unfold FirstSetup.strip_grammar in E. rewrite !map_map in E. exact E. }
    transitivity (map r_name g3).
    { clear - H2. revert g3 H2. induction is as [|[r i] is IH]; intros g3 H2; cbn [LoadM.instruct_all] in H2; [injection H2 as <-; reflexivity|].
      destruct (nth_error g3 r) as [d|] eqn:Hd; [|discriminate]. destruct (LoadM.instruct r i d) as [d'|] eqn:Hi; [|discriminate].
      rewrite (IH _ H2). eapply LoadMain.set_nth_same; [exact Hd|]. destruct i; cbn in Hi; try (injection Hi as <-; reflexivity).
      destruct (r_body d) as [b|]; [|discriminate]. destruct (PrecM.apply_precedence r (PrecM.prec_table ls) b); [|discriminate]. injection Hi as <-. reflexivity. }
    rewrite <- (LoadMain.g_names src). symmetry. apply (LoadMain.f2_map r_name LoadMain.same_rule); [|exact H1]. intros x y E. apply E.
  Qed.
  Lemma loaded_start fuel' keq' lr ord' G' lg start text L pk : MetaM.load_text fuel' keq' lr ord' G' lg start text = Ok (Some (LoadM.Accepted L), pk) ->
    exists d, nth_error (LoadM.ld_g L) (LoadM.ld_start L) = Some d /\ LoadM.rule_named (LoadM.ld_g L) (r_name d) = Some (LoadM.ld_start L).
  Proof.
    intros H. unfold MetaM.load_text in H. destruct (MetaM.read_text fuel' G' lg text) as [x| | |]; try discriminate H. cbn [bind] in H.
    destruct x as [| |d0]; try discriminate H. cbv zeta in H. match type of H with (if ?b then _ else _) = _ => destruct b; [discriminate H|] end.
    injection H as H _. destruct (loaded_names _ _ _ _ _ _ _ H) as [Hn Hs].
    set (src := ord' (MetaM.d_rules d0)) in *.
    assert (He : forall n, LoadM.rule_named (LoadM.ld_g L) n = LoadM.rule_named src n) by (intros n; unfold LoadM.rule_named; now rewrite Hn).
    rewrite <- He in Hs. destruct (LoadRefs.rule_named_Some _ _ _ Hs) as (d & Hd & Hnm). exists d. split; [exact Hd|]. rewrite Hnm. exact Hs.
  Qed.
  Record state (L : LoadM.loaded) (pk lg : bool) (st : settings) (k : rid -> hooks) (o : obj) : Prop := {
    sa_start : LoadM.rule_named (LoadM.ld_g L) (o_start o) = Some (LoadM.ld_start L);
    sa_pk : o_pk o = pk;
    sa_log : o_log o = lg;
    sa_held : exists set se, o_held o = Some {| h_g := LoadM.ld_g L; h_main := Some (LoadM.ld_start L); h_ws := LoadM.ld_ws L; h_word := LoadM.ld_word L;
                 h_set := set; h_hooks := k; h_sess := se |} /\ set (LoadM.ld_start L) = st
               /\ left {| h_g := LoadM.ld_g L; h_main := Some (LoadM.ld_start L); h_ws := LoadM.ld_ws L; h_word := LoadM.ld_word L;
                     h_set := set; h_hooks := k; h_sess := se |} (LoadM.ld_start L) se }.
  Lemma on_start_state L pk lg st k o f : state L pk lg st k o -> state L pk lg (f st) k (on_start o f).
  Proof.
    intros [H1 H2 H3 (set & se & H4 & H5 & H6)]. destruct o as [h start lr pk' lg']. cbn [o_start o_pk o_log o_held] in *. subst.
    unfold on_start. cbn [o_held o_start h_g]. rewrite H1. constructor; cbn [with_held o_start o_pk o_log o_held]; auto.
    eexists _, se. split; [reflexivity|]. cbn [h_set]. rewrite Nat.eqb_refl. split; [reflexivity|exact H6].
  Qed.
  Lemma step_state L pk lg st k o x o1 a : state L pk lg st k o -> makes_grammar x = false -> step o x = Ok (o1, a) ->
    state L pk (last_log lg [x]) (settings_after pk st [x]) (hooks_after (LoadM.ld_g L) k [x]) o1.
  Proof.
    intros Hst Hx H. pose proof (fun f => on_start_state L pk lg st k o f Hst) as Hset.
    assert (Hpk : o_pk o = pk) by apply Hst.
    destruct x as [start text|blob|b|b| | | |b|name f|f|input dt]; try discriminate; cbn [ObjM.step last_log settings_after hooks_after] in *;
      try (inversion H; subst; apply (Hset (fun s => _)); fail).
    - inversion H; subst. destruct Hst as [H1 H2 H3 H4]. constructor; auto.
    - inversion H; subst. destruct Hst as [H1 H2 H3 H4]. constructor; auto.
    - destruct Hst as [H1 H2 H3 (set & se & H4 & H5 & H6)]. rewrite H4 in H. cbn [h_g] in H.
      destruct (LoadM.rule_named (LoadM.ld_g L) name) as [q|]; inversion H; subst; constructor; cbn [with_held o_start o_pk o_log o_held]; auto; eexists set, se; auto.
    - destruct Hst as [H1 H2 H3 (set & se & H4 & H5 & H6)]. rewrite H4 in H. inversion H; subst. constructor; cbn [with_held o_start o_pk o_log o_held]; auto.
      eexists set, se. split; [reflexivity|]. auto.
    - destruct Hst as [H1 H2 H3 (set & se & H4 & H5 & H6)]. rewrite H4 in H. cbn [h_g h_sess] in H. rewrite H1 in H.
      destruct (parser_parse _ _ _ _) as [[[b0 reps0] r0]| | |]; try discriminate. cbn [bind] in H. inversion H; subst. clear H.
      constructor; cbn [with_held o_start o_pk o_log o_held]; auto. eexists set, _. split; [reflexivity|]. split; [reflexivity|].
      exact (left_again _ (o_log o) _ _ H6).
  Qed.
  Lemma last_log_app (b : bool) (l l' : list op) : last_log b (l ++ l') = last_log (last_log b l) l'.
  Proof. revert b. induction l as [|x l IH]; intros b; [reflexivity|]. destruct x; cbn; auto. Qed.
  Lemma settings_cons pk st (x : op) l : settings_after pk st (x :: l) = settings_after pk (settings_after pk st [x]) l.
  Proof. reflexivity. Qed.
  Lemma hooks_cons g (k : rid -> @hooks V U) (x : op) l : hooks_after g k (x :: l) = hooks_after g (hooks_after g k [x]) l.
  Proof. destruct x; reflexivity. Qed.
  Lemma state_parse L pk lg (l : list op) o input dt o1 a :
    state L pk lg (settings_after pk settings0 l) (hooks_after (LoadM.ld_g L) (fun _ => hooks0) l) o -> step o (OParse input dt) = Ok (o1, a) ->
    exists b reps r, a = Parsed b reps (Some r) /\
      alone (LoadM.ld_g L) (fun _ => described u0 L pk lg l) sig fuel (LoadM.ld_start L, input, dt) = Ok (b, reps, r).
  Proof.
    intros [H1 H2 H3 (set & se & H4 & H5 & H6)] H. cbn [ObjM.step] in H. rewrite H4 in H. cbn [h_g h_sess] in H. rewrite H1 in H.
    rewrite (start_same _ _ _ se sess0 H6 (or_introl eq_refl)) in H. cbn [h_g] in H.
    match type of H with context [start_at _ ?c _ _] => set (cf := c) in * end.
    assert (E : cf (LoadM.ld_start L) = described u0 L pk lg l).
    { unfold cf, ObjM.cfg, described. cbn [h_main h_ws h_word h_set h_hooks h_g]. rewrite Nat.eqb_refl, H5, H3. reflexivity. }
    assert (E2 : start_at (LoadM.ld_g L) cf (LoadM.ld_start L) (prepare (LoadM.ld_g L) cf sig (LoadM.ld_start L) sess0)
      = start_at (LoadM.ld_g L) (fun _ => described u0 L pk lg l) (LoadM.ld_start L) (prepare (LoadM.ld_g L) (fun _ => described u0 L pk lg l) sig (LoadM.ld_start L) sess0)).
    { unfold start_at, prepare, assign_filter, assign_ids, scan. rewrite !E. reflexivity. }
    rewrite E2 in H. unfold alone, one. destruct (parser_parse _ _ _ _) as [[[b reps] r]| | |]; try discriminate. cbn [bind] in H. inversion H; subst.
    eexists _, _, _. split; reflexivity.
  Qed.
  Lemma state_replies L pk input dt : forall h2 lg l o rs, forallb (fun x => negb (makes_grammar x)) h2 = true ->
    state L pk lg (settings_after pk settings0 l) (hooks_after (LoadM.ld_g L) (fun _ => hooks0) l) o ->
    replies o (h2 ++ [OParse input dt]) = Ok rs ->
    exists before b reps r, rs = before ++ [Parsed b reps (Some r)] /\
      alone (LoadM.ld_g L) (fun _ => described u0 L pk (last_log lg h2) (l ++ h2)) sig fuel (LoadM.ld_start L, input, dt) = Ok (b, reps, r).
  Proof.
    induction h2 as [|x h2 IH]; intros lg l o rs Hn Hst H.
    - cbn [app ObjM.replies] in H. destruct (step o (OParse input dt)) as [[o1 a]| | |] eqn:Hs; try discriminate. cbn [bind] in H. inversion H; subst.
      destruct (state_parse L pk lg l o input dt o1 a Hst Hs) as (b & reps & r & -> & Ha). exists [], b, reps, r. split; [reflexivity|].
      rewrite app_nil_r. exact Ha.
    - cbn [app ObjM.replies forallb] in *. apply andb_true_iff in Hn as [Hx Hn]. apply negb_true_iff in Hx.
      destruct (step o x) as [[o1 a]| | |] eqn:Hs; try discriminate. cbn [bind] in H.
      destruct (replies o1 (h2 ++ [OParse input dt])) as [r0| | |] eqn:Hr; try discriminate. inversion H; subst. clear H.
      pose proof (step_state L pk lg _ _ o x o1 a Hst Hx Hs) as Hst1.
      assert (Es : settings_after pk (settings_after pk settings0 l) [x] = settings_after pk settings0 (l ++ [x])).
      { generalize settings0. clear. induction l as [|y l IH]; intros s; [reflexivity|]. cbn [app settings_after]. apply IH. }
      assert (Eh : hooks_after (LoadM.ld_g L) (hooks_after (LoadM.ld_g L) (fun _ => hooks0) l) [x] = hooks_after (LoadM.ld_g L) (fun _ => hooks0) (l ++ [x])).
      { generalize (fun _ : rid => @hooks0 V U). clear. induction l as [|y l IH]; intros s; [reflexivity|]. destruct y; cbn [app]; apply IH. }
      rewrite Es, Eh in Hst1. destruct (IH _ _ o1 r0 Hn Hst1 Hr) as (before & b & reps & r & -> & Ha).
      exists (a :: before), b, reps, r. split; [reflexivity|]. rewrite <- app_assoc in Ha. rewrite last_log_cons. exact Ha.
  Qed.
  Lemma flags_replies h1 : forall o r c, replies o (h1 ++ c) = Ok r ->
    exists o' r1 r2, r = r1 ++ r2 /\ List.length r1 = List.length h1 /\ replies o' c = Ok r2 /\ o_lr o' = last_lr (o_lr o) h1 /\ o_log o' = last_log (o_log o) h1.
  Proof.
    induction h1 as [|x h1 IH]; intros o r c H; [exists o, [], r; auto|].
    cbn [app ObjM.replies] in H. destruct (step o x) as [[o1 a]| | |] eqn:Hs; try discriminate. cbn [bind] in H.
    destruct (replies o1 (h1 ++ c)) as [r0| | |] eqn:Hr; try discriminate. inversion H; subst. destruct (step_flags o x o1 a Hs) as [F1 F2].
    destruct (IH o1 r0 c Hr) as (o' & r1 & r2 & -> & Hl & H1 & H2 & H3). exists o', (a :: r1), r2.
    rewrite last_lr_cons, last_log_cons, <- F1, <- F2. split; [reflexivity|]. split; [cbn; now rewrite Hl|]. auto.
  Qed.
  Theorem history_summary h1 start text h2 input dt rs : forallb (fun x => negb (makes_grammar x)) h2 = true ->
    replies new_object (h1 ++ OLoad start text :: h2 ++ [OParse input dt]) = Ok rs ->
    exists v pk before reply,
      MetaM.load_text fuel keq (last_lr true h1) order G (last_log false h1) start text = Ok (Some v, pk) /\ rs = before ++ [reply] /\
      match v with
      | LoadM.Rejected => reply = Parsed false [] None
      | LoadM.Accepted L => exists b reps r, reply = Parsed b reps (Some r) /\
          alone (LoadM.ld_g L) (fun _ => described u0 L pk (last_log false (h1 ++ h2)) h2) sig fuel (LoadM.ld_start L, input, dt) = Ok (b, reps, r)
      end.
  Proof.
    intros Hn H. destruct (flags_replies h1 new_object rs _ H) as (o & r1 & r2 & -> & Hl & Hr & F1 & F2). cbn [new_object o_lr o_log] in F1, F2.
    cbn [ObjM.replies] in Hr. cbn [ObjM.step] in Hr. rewrite F1, F2 in Hr.
    destruct (MetaM.load_text fuel keq (last_lr true h1) order G (last_log false h1) start text) as [[v pk]| | |] eqn:Hl'; try discriminate. cbn [bind] in Hr.
    destruct v as [[|L]|]; cbn [bind] in Hr; try discriminate.
    - match type of Hr with context [ObjM.replies _ _ _ _ _ _ _ ?x _] => set (o1 := x) in * end.
      destruct (replies o1 (h2 ++ [OParse input dt])) as [r0| | |] eqn:E; try discriminate. cbn [bind] in Hr. injection Hr as <-.
      assert (Hn' : forallb (fun x => negb (makes_grammar x)) (h2 ++ [@OParse V U input dt]) = true) by (rewrite forallb_app, Hn; reflexivity).
      pose proof (empty_replies _ o1 r0 eq_refl Hn' E) as ->. rewrite map_app.
      eexists _, pk, (r1 ++ Answer false :: _), _. split; [reflexivity|]. split; [cbn [map]; rewrite <- app_assoc; reflexivity|reflexivity].
    - match type of Hr with context [ObjM.replies _ _ _ _ _ _ _ ?x _] => set (o1 := x) in * end.
      destruct (replies o1 (h2 ++ [OParse input dt])) as [r0| | |] eqn:E; try discriminate. cbn [bind] in Hr. injection Hr as <-.
      destruct (loaded_start _ _ _ _ _ _ _ _ _ _ Hl') as (d & Hd & Hs).
      assert (Hst : state L pk (last_log false h1) (settings_after pk settings0 ([] : list op)) (hooks_after (LoadM.ld_g L) (fun _ => hooks0) ([] : list op)) o1).
      { unfold o1. rewrite Hd. constructor; cbn [o_start o_pk o_log o_held]; auto. eexists _, _. split; [reflexivity|]. split; [reflexivity|now left]. }
      destruct (state_replies L pk input dt h2 _ [] o1 r0 Hn Hst E) as (before & b & reps & r & -> & Ha).
      eexists _, pk, (r1 ++ Answer true :: before), _. split; [reflexivity|]. split; [rewrite <- app_assoc; reflexivity|].
      exists b, reps, r. split; [reflexivity|]. rewrite last_log_app. exact Ha.
  Qed.
End Proofs.
