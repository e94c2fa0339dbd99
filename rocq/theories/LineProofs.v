From Verif Require Import Base BaseLemmas Utf8 Utf8Spec Utf8Proofs LineInfo LineSpec.

Lemma line_loop_spec : forall todo done p cur col no rest,
  p = List.length done -> cur = p + List.length todo ->
  col <= p ->
  ~ In newline (skipn col done) ->
  (col = 0 \/ exists b, firstn col done = b ++ [newline]) ->
  no = 1 + List.length (filter is_nl done) ->
  exists col',
    line_loop (todo ++ rest) p cur col no = Ok (1 + List.length (filter is_nl (done ++ todo)), col')
    /\ col' <= cur
    /\ ~ In newline (skipn col' (done ++ todo))
    /\ (col' = 0 \/ exists b, firstn col' (done ++ todo) = b ++ [newline]).
Proof.
  induction todo as [|c todo IH]; intros done p cur col no rest Hp Hc Hcol Hn Hb Hno.
  - exists col. cbn [List.length] in Hc. replace (cur - p) with 0 in * by lia.
    rewrite app_nil_r. unfold line_loop. destruct ([] ++ rest); replace (cur - p) with 0 by lia;
      (split; [congruence|]; split; [lia|]; split; assumption).
  - cbn [app line_loop]. cbn [List.length] in Hc.
    destruct (cur - p) eqn:E; [lia|].
    assert (Eapp : done ++ c :: todo = (done ++ [c]) ++ todo) by (rewrite <- app_assoc; reflexivity).
    rewrite Eapp.
    destruct (beq c x0a) eqn:Ec.
    + apply beq_eq in Ec. subst c. apply IH.
      * rewrite app_length. cbn. lia.
      * lia.
      * lia.
      * rewrite Hp. replace (List.length done + 1) with (List.length (done ++ [x0a])) by (rewrite app_length; reflexivity).
        rewrite skipn_all. auto.
      * right. exists done. rewrite Hp.
        replace (List.length done + 1) with (List.length (done ++ [x0a])) by (rewrite app_length; reflexivity).
        apply firstn_all.
      * rewrite filter_app, app_length. cbn. lia.
    + apply IH.
      * rewrite app_length. cbn. lia.
      * lia.
      * lia.
      * rewrite skipn_app. replace (col - List.length done) with 0 by lia. cbn [skipn].
        intro Hin. apply in_app_or in Hin as [Hin|[Hin|[]]]; [contradiction|].
        apply beq_neq in Ec. apply Ec. exact Hin.
      * destruct Hb as [Hb|[b Hb]]; [left; exact Hb|right; exists b].
        rewrite firstn_app. replace (col - List.length done) with 0 by lia.
        rewrite firstn_O, app_nil_r. exact Hb.
      * rewrite filter_app, app_length. cbn [filter].
        change (is_nl c) with (beq c x0a). rewrite Ec. cbn. lia.
Qed.

Lemma line_loop_at s pos : pos <= List.length s -> exists col,
  line_loop s 0 pos 0 1 = Ok (line_no s pos, col) /\ col <= pos
  /\ current_line s pos (skipn col (firstn pos s)).
Proof.
  intro Hp.
  destruct (line_loop_spec (firstn pos s) [] 0 pos 0 1 (skipn pos s)) as (col & A & B & C & D);
    try reflexivity; try (rewrite firstn_length; lia); auto.
  rewrite firstn_skipn in A. cbn [app] in *. exists col. split; [exact A|]. split; [exact B|].
  split; [exact C|]. destruct D as [->|[b D]].
  - left. reflexivity.
  - right. exists b. rewrite <- (firstn_skipn col (firstn pos s)) at 1. rewrite D, <- app_assoc. reflexivity.
Qed.

Lemma current_line_unique s pos a b : current_line s pos a -> current_line s pos b -> a = b.
Proof.
  assert (K : forall pre x (y : bytes), ~ In newline y -> pre ++ newline :: x = y -> False).
  { intros pre x y Hy E. apply Hy. rewrite <- E. apply in_or_app. right. left. reflexivity. }
  assert (M : forall p q (x y : bytes), ~ In newline x -> ~ In newline y ->
     p ++ newline :: x = q ++ newline :: y -> x = y).
  { induction p as [|c p IH]; intros q x y Hx Hy E.
    - destruct q as [|d q]; cbn in E.
      + congruence.
      + injection E as <- E. exfalso. eapply K; [exact Hx|]. symmetry. exact E.
    - destruct q as [|d q]; cbn in E.
      + injection E as -> E. exfalso. eapply K; [exact Hy|]. exact E.
      + injection E as _ E. eapply IH; eauto. }
  intros [Ha [Ea|[p Ea]]] [Hb [Eb|[q Eb]]].
  - congruence.
  - exfalso. eapply K; [exact Ha|]. rewrite <- Ea. symmetry. exact Eb.
  - exfalso. eapply K; [exact Hb|]. rewrite <- Eb. symmetry. exact Ea.
  - eapply M; eauto. rewrite <- Ea. exact Eb.
Qed.

(** codepoint_count only looks at the given length. *)
Lemma codepoint_length_firstn s l : l <= List.length s ->
  codepoint_length (firstn l s) l = codepoint_length s l.
Proof.
  intro H. destruct (decode_safe s l H) as (r & A & B & C & _).
  destruct (decode_safe (firstn l s) l) as (r' & A' & B' & C' & _); [rewrite firstn_length; lia|].
  rewrite A' in B. rewrite C, C'. injection B as ->. reflexivity.
Qed.

Lemma count_loop_firstn fuel : forall s l c, l <= List.length s ->
  codepoint_count_loop fuel (firstn l s) l c = codepoint_count_loop fuel s l c.
Proof.
  induction fuel as [|fuel IH]; intros s l c H; cbn [codepoint_count_loop]; [reflexivity|].
  destruct (0 <? l) eqn:E; [|reflexivity].
  rewrite codepoint_length_firstn by exact H.
  destruct (decode_safe s l H) as (r & A & B & C & Hr). rewrite C. cbn [bind].
  set (n0 := match r with Some (n, _) => n | None => 0 end).
  set (n := if n0 =? 0 then 1 else n0).
  unfold from. rewrite skipn_firstn_comm. apply IH. rewrite skipn_length. lia.
Qed.

Lemma line_info_at s pos cur : pos <= List.length s -> current_line s pos cur ->
  exists k, codepoint_count cur (List.length cur) = Ok k
    /\ line_info s pos = Ok (line_no s pos, 1 + k).
Proof.
  intros Hp Hcur. destruct (line_loop_at s pos Hp) as (col & A & B & C).
  assert (E : cur = skipn col (firstn pos s)) by (eapply current_line_unique; eauto).
  assert (L : List.length cur = pos - col) by (rewrite E, skipn_length, firstn_length; lia).
  destruct (codepoint_count_total cur) as (k & Hk & _). exists k. split; [exact Hk|].
  unfold line_info. rewrite A. cbn [bind].
  replace (codepoint_count (from s col) (pos - col)) with (Ok k).
  - cbn [bind]. rewrite Nat.add_comm. reflexivity.
  - symmetry. rewrite <- Hk. unfold codepoint_count. rewrite L, E. unfold from.
    rewrite skipn_firstn_comm. symmetry. apply count_loop_firstn. rewrite skipn_length. lia.
Qed.

(** The lazily built index. *)
Lemma newlines_from_spec s : forall off p,
  In p (newlines_from s off) <-> off <= p /\ nth_error s (p - off) = Some newline.
Proof.
  induction s as [|c s IH]; intros off p; cbn [newlines_from].
  - split; [contradiction|]. intros [_ H]. destruct (p - off); discriminate.
  - assert (R : In p (newlines_from s (off + 1)) <->
       off + 1 <= p /\ nth_error (c :: s) (p - off) = Some newline).
    { rewrite IH. split; intros [H1 H2]; (split; [exact H1|]).
      - replace (p - off) with (S (p - (off + 1))) by lia. exact H2.
      - replace (p - off) with (S (p - (off + 1))) in H2 by lia. exact H2. }
    destruct (beq c x0a) eqn:E.
    + apply beq_eq in E. subst c. cbn [In]. rewrite R. split.
      * intros [<-|[H1 H2]]; [split; [lia|rewrite Nat.sub_diag; reflexivity]|split; [lia|exact H2]].
      * intros [H1 H2]. destruct (Nat.eq_dec off p) as [->|]; [left; reflexivity|right; split; [lia|exact H2]].
    + rewrite R. apply beq_neq in E. split; intros [H1 H2]; (split; [|exact H2]); [lia|].
      destruct (Nat.eq_dec off p) as [->|]; [|lia]. rewrite Nat.sub_diag in H2.
      injection H2 as ->. exfalso. apply E. reflexivity.
Qed.

Fixpoint incr (lo : nat) (l : list nat) : Prop :=
  match l with [] => True | x :: l' => lo <= x /\ incr (S x) l' end.

Lemma incr_weaken l : forall a b, a <= b -> incr b l -> incr a l.
Proof. destruct l as [|x l]; cbn; intros; [exact I|]. split; [lia|tauto]. Qed.

Lemma newlines_incr s : forall off, incr off (newlines_from s off).
Proof.
  induction s as [|c s IH]; intro off; cbn [newlines_from]; [exact I|].
  destruct (beq c x0a).
  - cbn. split; [lia|]. rewrite <- Nat.add_1_r. apply IH.
  - apply (incr_weaken _ off (off + 1)); [lia|apply IH].
Qed.

Lemma newlines_lt s : forall off p, In p (newlines_from s off) -> p < off + List.length s.
Proof.
  intros off p H. apply newlines_from_spec in H as [H1 H2].
  assert (p - off < List.length s) by (apply nth_error_Some; congruence). lia.
Qed.

Lemma incr_app_last l : forall lo m, incr lo l -> (forall p, In p l -> p < m) -> lo <= m -> incr lo (l ++ [m]).
Proof.
  induction l as [|x l IH]; intros lo m H1 H2 H3; cbn.
  - split; [exact H3|exact I].
  - cbn in H1. destruct H1 as [A B]. split; [exact A|]. apply IH; [exact B| |].
    + intros p Hp. apply H2. right. exact Hp.
    + specialize (H2 x (or_introl eq_refl)). lia.
Qed.

Lemma build_index_incr s : incr 0 (build_index s).
Proof.
  apply incr_app_last; [apply newlines_incr| |lia].
  intros p Hp. apply newlines_lt in Hp. exact Hp.
Qed.

Lemma lower_bound_count l : forall lo v, incr lo l -> lower_bound l v = List.length (filter (fun e => e <? v) l).
Proof.
  induction l as [|x l IH]; intros lo v H; cbn [lower_bound filter]; [reflexivity|].
  cbn in H. destruct H as [H1 H2].
  destruct (x <? v) eqn:E; [cbn; f_equal; eapply IH; eauto|].
  replace (filter (fun e => e <? v) l) with (@nil nat); [reflexivity|].
  apply Nat.ltb_ge in E. clear IH H1. symmetry.
  assert (K : forall q lo2, v <= lo2 -> incr lo2 q -> filter (fun e => e <? v) q = []).
  { induction q as [|y q IHq]; intros lo2 Hl Hq; [reflexivity|]. cbn [incr filter] in Hq |- *. destruct Hq as [Q1 Q2].
    replace (y <? v) with false by (symmetry; apply Nat.ltb_ge; lia). eapply IHq; [|exact Q2]. lia. }
  eapply K; [|exact H2]. lia.
Qed.

(** Characterisation of lower_bound by neighbours (justifies the hint test). *)
Lemma incr_nth l : forall lo i j, incr lo l -> i < j -> j < List.length l -> nth i l 0 < nth j l 0.
Proof.
  induction l as [|x l IH]; intros lo i j H Hij Hj; [cbn in Hj; lia|].
  cbn in H. destruct H as [H1 H2]. destruct j as [|j]; [lia|]. cbn in Hj.
  destruct i as [|i].
  - cbn. clear IH H1.
    assert (K : forall q lo2 k, incr lo2 q -> k < List.length q -> lo2 <= nth k q 0).
    { induction q as [|y q IHq]; intros lo2 k Hq Hk; [cbn in Hk; lia|]. cbn in Hq, Hk.
      destruct Hq as [Q1 Q2]. destruct k; [exact Q1|]. cbn. specialize (IHq (S y) k Q2 ltac:(lia)). lia. }
    specialize (K l (S x) j H2 ltac:(lia)). lia.
  - cbn. eapply IH; eauto; lia.
Qed.

Lemma lower_bound_nbr l v : (forall lo, incr lo l -> True) ->
  (forall i, i < lower_bound l v -> nth i l 0 < v)
  /\ (lower_bound l v < List.length l -> v <= nth (lower_bound l v) l 0)
  /\ lower_bound l v <= List.length l.
Proof.
  intros _. induction l as [|x l IH]; cbn [lower_bound]; [cbn; repeat split; lia|].
  destruct (x <? v) eqn:E.
  - apply Nat.ltb_lt in E. destruct IH as (A & B & C). repeat split.
    + intros [|i] Hi; cbn; [exact E|apply A; lia].
    + cbn. intro H. apply B. lia.
    + cbn. lia.
  - apply Nat.ltb_ge in E. repeat split; [lia|cbn; intros; exact E|cbn; lia].
Qed.

Lemma hint_unique l v h : incr 0 l -> h < List.length l -> v <= nth h l 0 ->
  (h = 0 \/ nth (h - 1) l 0 < v) -> h = lower_bound l v.
Proof.
  intros Hi Hh Hv Hp. destruct (lower_bound_nbr l v ltac:(auto)) as (A & B & C).
  destruct (Nat.lt_trichotomy h (lower_bound l v)) as [L|[E|G]]; [|exact E|].
  - specialize (A h L). lia.
  - destruct Hp as [->|Hp]; [lia|]. specialize (B ltac:(lia)).
    destruct (Nat.eq_dec (lower_bound l v) (h - 1)) as [e|ne]; [rewrite <- e in Hp; lia|].
    pose proof (incr_nth l 0 (lower_bound l v) (h - 1) Hi ltac:(lia) ltac:(lia)). lia.
Qed.

(** Lookup in the index counts newlines before the position. *)
Lemma count_newlines s : forall off pos, pos <= off + List.length s ->
  List.length (filter (fun e => e <? pos) (newlines_from s off))
    = List.length (filter is_nl (firstn (pos - off) s)).
Proof.
  induction s as [|c s IH]; intros off pos Hp; cbn [newlines_from]; [rewrite firstn_nil; reflexivity|].
  cbn [List.length] in Hp.
  destruct (Nat.le_gt_cases pos off) as [L|G].
  - replace (pos - off) with 0 by lia. cbn [firstn filter].
    assert (K : forall l, incr off l -> filter (fun e => e <? pos) l = []).
    { intros l Hl. assert (H : forall q lo, pos <= lo -> incr lo q -> filter (fun e => e <? pos) q = []).
      { induction q as [|y q IHq]; intros lo Hlo Hq; [reflexivity|]. cbn [incr filter] in Hq |- *. destruct Hq as [Q1 Q2].
        replace (y <? pos) with false by (symmetry; apply Nat.ltb_ge; lia). eapply IHq; [|exact Q2]. lia. }
      eapply H; [exact L|exact Hl]. }
    pose proof (newlines_incr (c :: s) off) as HI. cbn [newlines_from] in HI.
    destruct (beq c x0a); rewrite K by exact HI; reflexivity.
  - replace (pos - off) with (S (pos - (off + 1))) by lia. cbn [firstn filter].
    change (is_nl c) with (beq c x0a).
    destruct (beq c x0a).
    + cbn [filter]. replace (off <? pos) with true by (symmetry; apply Nat.ltb_lt; lia).
      cbn [List.length]. f_equal. apply IH. lia.
    + apply IH. lia.
Qed.

Lemma lower_bound_lines s pos : pos <= List.length s ->
  lower_bound (build_index s) pos = List.length (filter is_nl (firstn pos s)).
Proof.
  intro Hp. rewrite (lower_bound_count _ 0) by apply build_index_incr.
  unfold build_index. rewrite filter_app, app_length, count_newlines by lia.
  cbn [filter]. replace (List.length s <? pos) with false by (symmetry; apply Nat.ltb_ge; lia).
  rewrite Nat.sub_0_r. cbn. lia.
Qed.

Definition li_ok (s : bytes) (st : li_state) : Prop :=
  match li_index st with None => True | Some i => i = build_index s end.

Lemma filter_len_app {A} (f : A -> bool) a b :
  List.length (filter f (a ++ b)) = List.length (filter f a) + List.length (filter f b).
Proof. rewrite filter_app, app_length. reflexivity. Qed.

Lemma nth_newline s pos cur before : pos <= List.length s ->
  firstn pos s = before ++ newline :: cur -> ~ In newline cur ->
  nth_error (build_index s) (List.length (filter is_nl (firstn pos s)) - 1) = Some (List.length before).
Proof.
  intros Hp E Hn.
  assert (Hb : List.length before < pos).
  { apply (f_equal (@List.length byte)) in E. rewrite firstn_length, app_length in E. cbn in E. lia. }
  assert (Hnl : nth_error s (List.length before) = Some newline).
  { rewrite <- (firstn_skipn pos s), E. rewrite nth_error_app1 by (rewrite app_length; cbn; lia).
    rewrite nth_error_app2 by lia. rewrite Nat.sub_diag. reflexivity. }
  assert (Hfb : firstn (List.length before) s = before).
  { rewrite <- (firstn_skipn pos s), E. rewrite <- app_assoc.
    rewrite firstn_app, Nat.sub_diag, firstn_all, firstn_O, app_nil_r. reflexivity. }
  assert (Hc : List.length (filter is_nl (firstn pos s)) = S (List.length (filter is_nl before))).
  { rewrite E, filter_len_app. cbn [filter]. replace (is_nl newline) with true by reflexivity. cbn [List.length].
    replace (filter is_nl cur) with (@nil byte); [cbn; lia|].
    clear - Hn. induction cur as [|c cur IH]; [reflexivity|]. cbn [filter].
    destruct (is_nl c) eqn:Ec; [|apply IH; intro; apply Hn; right; assumption].
    exfalso. apply Hn. left. unfold is_nl in Ec. apply Byte.byte_dec_bl in Ec. auto. }
  rewrite Hc. cbn [Nat.sub]. rewrite Nat.sub_0_r.
  pose proof (lower_bound_lines s (List.length before) ltac:(lia)) as LB.
  rewrite Hfb in LB. rewrite <- LB.
  destruct (lower_bound_nbr (build_index s) (List.length before) ltac:(auto)) as (A & B & C).
  assert (Hin : In (List.length before) (build_index s)).
  { unfold build_index. apply in_or_app. left. apply newlines_from_spec. rewrite Nat.sub_0_r. split; [lia|exact Hnl]. }
  apply In_nth_error in Hin as [k Hk].
  assert (Hkl : k < List.length (build_index s)) by (apply nth_error_Some; congruence).
  assert (Ek : nth k (build_index s) 0 = List.length before) by (apply nth_error_nth; exact Hk).
  replace (lower_bound (build_index s) (List.length before)) with k; [exact Hk|].
  apply hint_unique; [apply build_index_incr|exact Hkl|lia|].
  destruct k as [|k]; [left; reflexivity|right].
  pose proof (incr_nth (build_index s) 0 k (S k) (build_index_incr s) ltac:(lia) Hkl).
  replace (S k - 1) with k by lia. lia.
Qed.

Lemma ctx_line_info_at s st pos cur : li_ok s st -> pos <= List.length s ->
  current_line s pos cur ->
  exists st', ctx_line_info s st pos = Ok (st', (line_no s pos, 1 + List.length cur)) /\ li_ok s st'.
Proof.
  intros Hok Hp Hcur. unfold ctx_line_info.
  replace (match li_index st with Some i => i | None => build_index s end) with (build_index s)
    by (unfold li_ok in Hok; destruct (li_index st); [symmetry; exact Hok|reflexivity]).
  set (idx := build_index s). set (h := li_hint st).
  set (ok := (h <? List.length idx) && (pos <=? nth h idx 0) && ((h =? 0) || (nth (h - 1) idx 0 <? pos))).
  assert (Eid : (if ok then h else lower_bound idx pos) = List.length (filter is_nl (firstn pos s))).
  { rewrite <- lower_bound_lines by exact Hp. destruct ok eqn:E; [|reflexivity]. subst ok.
    apply andb_true_iff in E as [E E3]. apply andb_true_iff in E as [E1 E2].
    apply hint_unique; [apply build_index_incr|apply Nat.ltb_lt; exact E1|apply Nat.leb_le; exact E2|].
    apply orb_true_iff in E3 as [E3|E3]; [left; apply Nat.eqb_eq; exact E3|right; apply Nat.ltb_lt; exact E3]. }
  rewrite Eid. destruct Hcur as [Hn [E|[before E]]].
  - replace (List.length (filter is_nl (firstn pos s))) with 0.
    + cbn [Nat.eqb]. exists {| li_index := Some idx; li_hint := 0 |}. split; [|exact eq_refl].
      unfold line_no. rewrite E.
      replace (List.length (filter is_nl cur)) with 0.
      * do 3 f_equal. rewrite <- E, firstn_length. lia.
      * clear - Hn. induction cur as [|c cur IH]; [reflexivity|]. cbn [filter].
        destruct (is_nl c) eqn:Ec; [|apply IH; intro; apply Hn; right; assumption].
        exfalso. apply Hn. left. unfold is_nl in Ec. apply Byte.byte_dec_bl in Ec. auto.
    + rewrite E. clear - Hn. induction cur as [|c cur IH]; [reflexivity|]. cbn [filter].
      destruct (is_nl c) eqn:Ec; [|apply IH; intro; apply Hn; right; assumption].
      exfalso. apply Hn. left. unfold is_nl in Ec. apply Byte.byte_dec_bl in Ec. auto.
  - pose proof (nth_newline s pos cur before Hp E Hn) as Hnth.
    assert (Hpos : List.length (filter is_nl (firstn pos s)) =? 0 = false).
    { apply Nat.eqb_neq. rewrite E, filter_len_app. cbn [filter].
      replace (is_nl newline) with true by reflexivity. cbn. lia. }
    rewrite Hpos. fold idx in Hnth. rewrite Hnth.
    exists {| li_index := Some idx; li_hint := List.length (filter is_nl (firstn pos s)) |}. split; [|exact eq_refl].
    unfold line_no. do 3 f_equal; [lia|].
    apply (f_equal (@List.length byte)) in E. rewrite firstn_length, app_length in E. cbn in E. lia.
Qed.

(** Any sequence of queries against one Context. *)
Fixpoint queries (s : bytes) (st : li_state) (ps : list nat) : outcome (list (nat * nat)) :=
  match ps with
  | [] => Ok []
  | p :: ps' =>
    let* (st', r) := ctx_line_info s st p in
    let* rs := queries s st' ps' in
    Ok (r :: rs)
  end.

Lemma queries_spec s ps : forall st, li_ok s st -> Forall (fun p => p <= List.length s) ps ->
  exists rs, queries s st ps = Ok rs /\
    Forall2 (fun p r => exists cur, current_line s p cur /\ r = (line_no s p, 1 + List.length cur)) ps rs.
Proof.
  induction ps as [|p ps IH]; intros st Hok Hall; cbn [queries].
  - exists []. split; [reflexivity|constructor].
  - apply Forall_cons_iff in Hall as [Hp Hall].
    destruct (line_loop_at s p Hp) as (col & _ & _ & Hcur).
    destruct (ctx_line_info_at s st p _ Hok Hp Hcur) as (st' & E & Hok').
    rewrite E. cbn [bind]. destruct (IH st' Hok' Hall) as (rs & Ers & Hrs).
    rewrite Ers. cbn [bind]. eexists. split; [reflexivity|]. constructor; [|exact Hrs].
    eexists. split; [exact Hcur|reflexivity].
Qed.

Lemma line_info_valid s pos cur cps : pos <= List.length s ->
  current_line s pos cur -> utf8_of cps cur ->
  line_info s pos = Ok (line_no s pos, 1 + List.length cps).
Proof.
  intros Hp Hc Hu. destruct (line_info_at s pos cur Hp Hc) as (k & A & B).
  destruct (count_encoded cps cur Hu) as [C _]. rewrite C in A. injection A as <-. exact B.
Qed.

Lemma current_line_exists s pos : pos <= List.length s ->
  exists cur, current_line s pos cur /\ (forall c, current_line s pos c -> c = cur).
Proof.
  intro Hp. destruct (line_loop_at s pos Hp) as (col & _ & _ & Hcur).
  eexists. split; [exact Hcur|]. intros c Hc. exact (current_line_unique s pos _ _ Hc Hcur).
Qed.
