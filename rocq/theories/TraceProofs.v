(** * The lines printed by enable_tracing are laid out like the calls (for C56). *)
From Verif Require Import Base BaseLemmas Ope Ctx Engine EngineLemmas EngineSpec EventSpec TraceM TraceSpec.

Section Trace.
  Variable name : rid -> bytes.

  Inductive block : nat -> nat -> list tline -> nat -> Prop :=
  | b_nil v n : block v n [] n
  | b_one v n p b nm t inner m q ok rest k :
      block (S v) (S n) inner m -> block v m rest k ->
      block v n (LEnter p b v nm t n :: inner ++ LLeave q ok v nm n :: rest) k.

  Lemma lines_app s a b : trace_lines name s (a ++ b)
    = let* (l1, s1) := trace_lines name s a in let* (l2, s2) := trace_lines name s1 b in Ok (l1 ++ l2, s2).
  Proof.
    revert s. induction a as [|e a IH]; intros s; cbn [trace_lines app bind].
    - destruct (trace_lines name s b) as [[l2 s2]| | |]; reflexivity.
    - destruct (trace_event name s e) as [[l s1]| | |]; cbn [bind]; try reflexivity.
      rewrite IH. destruct (trace_lines name s1 a) as [[l1 s1']| | |]; cbn [bind]; try reflexivity.
      destruct (trace_lines name s1' b) as [[l2 s2]| | |]; reflexivity.
  Qed.

  Lemma nested_block evs : nested evs -> forall s, exists ls p k,
    trace_lines name s evs = Ok (ls, {| t_next := k; t_ids := t_ids s; t_prev := p |})
    /\ block (List.length (t_ids s)) (t_next s) ls k
    /\ forall op rest, read_lines op (ls ++ rest) = match read_lines op rest with Some r => Some (map (view name) evs ++ r) | None => None end.
  Proof.
    induction 1 as [|o pos r inner rest Hi IHi Hr IHr]; intros s.
    - exists [], (t_prev s), (t_next s). split; [destruct s; reflexivity|]. split; [constructor|].
      intros op rest. cbn. now destruct (read_lines op rest).
    - set (s1 := {| t_next := t_next s + 1; t_ids := t_next s :: t_ids s; t_prev := pos |}).
      destruct (IHi s1) as (l1 & p1 & k1 & A1 & B1 & C1).
      set (s2 := {| t_next := k1; t_ids := t_ids s; t_prev := p1 |}).
      destruct (IHr s2) as (l2 & p2 & k2 & A2 & B2 & C2).
      set (L := LLeave (match r with Some k => pos + k | None => pos end + 1) (match r with Some _ => true | None => false end)
                  (List.length (t_ids s)) (ope_name name o) (t_next s)).
      exists (LEnter (pos + 1) (pos <? t_prev s) (List.length (t_ids s)) (ope_name name o) (shown_text o) (t_next s) :: l1 ++ L :: l2), p2, k2.
      split; [|split].
      + cbn [trace_lines trace_event bind]. fold s1. rewrite lines_app, A1. cbn [bind trace_lines trace_event t_ids s1]. 
        replace (List.length (t_next s :: t_ids s) - 1) with (List.length (t_ids s)) by (cbn; lia).
        change ({| t_next := t_next {| t_next := k1; t_ids := t_next s :: t_ids s; t_prev := p1 |}; t_ids := t_ids s;
                   t_prev := t_prev {| t_next := k1; t_ids := t_next s :: t_ids s; t_prev := p1 |} |}) with s2.
        rewrite A2. reflexivity.
      + econstructor; [|exact B2]. unfold s1 in B1. cbn [t_ids t_next List.length] in B1. now rewrite Nat.add_1_r in B1.
      + intros op tl. cbn [app read_lines]. rewrite <- app_assoc. cbn [app]. rewrite C1. unfold L at 1. cbn [read_lines]. rewrite C2.
        destruct (read_lines op tl) as [x|]; [|reflexivity]. cbn [map view app]. rewrite map_app, <- app_assoc. cbn [map view app].
        replace (pos + 1 - 1) with pos by lia.
        replace (if match r with Some _ => true | None => false end then Some (match r with Some k => pos + k | None => pos end + 1 - (pos + 1)) else None) with r; [reflexivity|].
        destruct r; [f_equal; lia|reflexivity].
  Qed.

  Lemma block_bounds v n ls k : block v n ls k -> n <= k /\ forall l, In l ls -> v <= line_level l /\ n <= line_id l.
  Proof.
    induction 1 as [|v n p b nm t inner m q ok rest k Hi [I1 I2] Hr [R1 R2]]; [split; [lia|intros l []]|].
    split; [lia|]. intros l [<-|Hl]; [cbn; lia|]. apply in_app_iff in Hl as [Hl|[<-|Hl]]; [specialize (I2 _ Hl); lia|cbn; lia|specialize (R2 _ Hl); lia].
  Qed.
  Lemma block_ids v n ls k : block v n ls k -> map line_id (filter is_enter_line ls) = List.seq n (k - n).
  Proof.
    induction 1 as [|v n p b nm t inner m q ok rest k Hi IHi Hr IHr]; [now rewrite Nat.sub_diag|].
    cbn [filter is_enter_line map line_id]. rewrite filter_app. cbn [filter is_enter_line]. rewrite map_app, IHi, IHr.
    apply block_bounds in Hi as [Hi _]. apply block_bounds in Hr as [Hr _].
    replace (k - n) with (S ((m - S n) + (k - m))) by lia. cbn [List.seq]. f_equal. rewrite List.seq_app. f_equal. f_equal. lia.
  Qed.
  Lemma count_app f a b : count f (a ++ b) = count f a + count f b.
  Proof. unfold count. now rewrite filter_app, app_length. Qed.
  Lemma block_balance v n ls k : block v n ls k ->
    count is_enter_line ls = count (fun l => negb (is_enter_line l)) ls.
  Proof.
    induction 1 as [|v n p b nm t inner m q ok rest k Hi IHi Hr IHr]; [reflexivity|].
    change (?x :: inner ++ ?y :: rest) with ([x] ++ inner ++ [y] ++ rest). rewrite !count_app, IHi, IHr. cbn. lia.
  Qed.
  Lemma block_levels v n ls k : block v n ls k -> forall i l, nth_error ls i = Some l ->
    let e := count is_enter_line (firstn i ls) in let c := count (fun l => negb (is_enter_line l)) (firstn i ls) in
    c <= e /\ if is_enter_line l then line_level l = v + (e - c) else line_level l + 1 = v + (e - c).
  Proof.
    induction 1 as [|v n p b nm t inner m q ok rest k Hi IHi Hr IHr]; intros i l Hl e c; [now destruct i|].
    destruct i as [|i]; [inv Hl; cbn; lia|]. cbn [nth_error] in Hl. subst e c. cbn [firstn].
    assert (X : forall f x l, count f (x :: l) = (if f x then 1 else 0) + count f l) by (intros f x l0; unfold count; cbn; destruct (f x); reflexivity).
    rewrite !X. cbn [is_enter_line negb].
    destruct (Nat.lt_ge_cases i (List.length inner)) as [Hlt|Hge].
    - rewrite nth_error_app1 in Hl by exact Hlt. specialize (IHi _ _ Hl). cbn zeta in IHi.
      rewrite firstn_app. replace (i - List.length inner) with 0 by lia. cbn [firstn]. rewrite app_nil_r. destruct (is_enter_line l); lia.
    - rewrite nth_error_app2 in Hl by exact Hge. rewrite firstn_app, firstn_all2 by exact Hge.
      rewrite !count_app. rewrite (block_balance _ _ _ _ Hi). destruct (i - List.length inner) as [|j]; cbn [nth_error firstn] in *.
      + injection Hl as <-. cbn [is_enter_line line_level]. change (count is_enter_line []) with 0. change (count (fun l : tline => negb (is_enter_line l)) []) with 0. lia.
      + specialize (IHr _ _ Hl). cbn zeta in IHr. rewrite !X. cbn [is_enter_line negb]. destruct (is_enter_line l); lia.
  Qed.
  Lemma closes_shift pre ls post i j : closes ls i j -> closes (pre ++ ls ++ post) (List.length pre + i) (List.length pre + j).
  Proof.
    intros (p & b & v & nm & t & n & q & ok & A & B & C & D). exists p, b, v, nm, t, n, q, ok.
    assert (N : forall x l, nth_error ls x = Some l -> nth_error (pre ++ ls ++ post) (List.length pre + x) = Some l).
    { intros x l H. rewrite nth_error_app2 by lia. replace (List.length pre + x - List.length pre) with x by lia.
      rewrite nth_error_app1; [exact H|]. apply nth_error_Some. congruence. }
    split; [now apply N|]. split; [now apply N|]. split; [lia|]. intros k l Hk Hl.
    apply (D (k - List.length pre)); [lia|]. rewrite nth_error_app2 in Hl by lia. rewrite nth_error_app1 in Hl; [exact Hl|].
    assert (i < List.length ls) by (apply nth_error_Some; congruence). lia.
  Qed.
  Lemma block_closes v n ls k : block v n ls k -> forall i l, nth_error ls i = Some l ->
    if is_enter_line l then exists j, closes ls j i else exists j, closes ls i j.
  Proof.
    induction 1 as [|v n p b nm t inner m q ok rest k Hi IHi Hr IHr]; intros i l Hl; [now destruct i|].
    set (E := LEnter p b v nm t n) in *. set (Lv := LLeave q ok v nm n) in *.
    assert (X : closes (E :: inner ++ Lv :: rest) (S (List.length inner)) 0).
    { exists p, b, v, nm, t, n, q, ok. split; [reflexivity|]. split.
      - cbn [nth_error]. rewrite nth_error_app2 by lia. now rewrite Nat.sub_diag.
      - split; [lia|]. intros x y Hx Hy. destruct x as [|x]; [lia|]. cbn [nth_error] in Hy. rewrite nth_error_app1 in Hy by lia.
        apply block_bounds in Hi as [_ Hi]. apply nth_error_In in Hy. specialize (Hi _ Hy). lia. }
    destruct i as [|i]; [inv Hl; cbn [E is_enter_line]; eauto|]. cbn [nth_error] in Hl.
    destruct (Nat.lt_ge_cases i (List.length inner)) as [Hlt|Hge].
    - rewrite nth_error_app1 in Hl by exact Hlt. specialize (IHi _ _ Hl).
      destruct (is_enter_line l); destruct IHi as [j Hj]; exists (S j); exact (closes_shift [E] inner (Lv :: rest) _ _ Hj).
    - rewrite nth_error_app2 in Hl by exact Hge. destruct (i - List.length inner) as [|j] eqn:Hj; cbn [nth_error] in Hl.
      + inv Hl. cbn [Lv is_enter_line]. exists 0. replace i with (List.length inner) by lia. exact X.
      + specialize (IHr _ _ Hl). assert (Hs : S i = List.length (E :: inner ++ [Lv]) + j) by (cbn [List.length]; rewrite app_length; cbn [List.length]; lia).
        assert (Q : forall x y, closes rest x y -> closes (E :: inner ++ Lv :: rest) (List.length (E :: inner ++ [Lv]) + x) (List.length (E :: inner ++ [Lv]) + y)).
        { intros x y Hc. pose proof (closes_shift (E :: inner ++ [Lv]) rest [] _ _ Hc) as Z. rewrite app_nil_r in Z. cbn [app] in Z. rewrite <- app_assoc in Z. exact Z. }
        rewrite Hs. destruct (is_enter_line l); destruct IHr as [z Hz]; eexists; apply Q; exact Hz.
  Qed.
  Lemma star_lines evs : forall s ls s', trace_lines name s evs = Ok (ls, s') -> forall i p b v nm t n,
    nth_error ls i = Some (LEnter p b v nm t n) -> (b = true <-> p < last_entered (t_prev s + 1) (firstn i ls)).
  Proof.
    induction evs as [|e evs IH]; intros s ls s' H i p b v nm t n Hi; cbn [trace_lines] in H.
    - inv H. now destruct i.
    - destruct (trace_event name s e) as [[l s1]| | |] eqn:He; try discriminate H. cbn [bind] in H.
      destruct (trace_lines name s1 evs) as [[ls1 s2]| | |] eqn:Ht; try discriminate H. cbn [bind] in H. inv H.
      destruct e as [o pos|o pos len]; cbn [trace_event] in He.
      + inv He. destruct i as [|i]; cbn [nth_error firstn last_entered] in *.
        * inv Hi. rewrite Nat.ltb_lt. lia.
        * exact (IH _ _ _ Ht _ _ _ _ _ _ _ Hi).
      + destruct (t_ids s) as [|x ids]; [discriminate|]. inv He. destruct i as [|i]; cbn [nth_error firstn last_entered] in *; [discriminate|].
        exact (IH _ _ _ Ht _ _ _ _ _ _ _ Hi).
  Qed.
End Trace.
