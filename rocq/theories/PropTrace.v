(** * C56: the trace printed by enable_tracing. *)
From Verif Require Import Base BaseLemmas Utf8 Escape TrieM LineInfo Ope Ctx ErrLog Engine EngineLemmas EngineSpec EventSpec Events Top Frame TopFacts Samples TraceM TraceSpec TraceProofs PropProfile.

(** Whatever the parse, the printer does not go wrong, and the lines printed for it can be
    read: opening a call at every E line and closing the last one at every L line gives
    back exactly the calls that were made, which operator or rule, where, and with what
    result and length. *)
Theorem C56_trace_can_be_read_back :
  forall (V U : Type) (fuel : nat) (P : pobj V U) (input : bytes) (dt : U) r,
  def_parse fuel P input dt = Ok r ->
  let evs := rev (rs_evs r) in
  exists ls s, trace_lines (rule_name P) tstate0 evs = Ok (ls, s)
    /\ List.length ls = List.length evs
    /\ read_lines [] ls = Some (map (view (rule_name P)) evs).
Proof.
  intros V U fuel P input dt r H evs. destruct (nested_block (rule_name P) evs (def_parse_nested _ _ _ _ _ H) tstate0) as (ls & p & k & A & B & C).
  exists ls, {| t_next := k; t_ids := t_ids tstate0; t_prev := p |}. split; [exact A|].
  specialize (C [] []). cbn [read_lines] in C. rewrite !app_nil_r in C. split; [|exact C].
  clear - A. remember {| t_next := k; t_ids := t_ids tstate0; t_prev := p |} as s' eqn:Hs. clear Hs. revert A. generalize tstate0 as s. intros s A. revert ls s s' A. induction evs as [|e evs IH]; intros ls s s' A; cbn [trace_lines] in A; [inv A; reflexivity|].
  destruct (trace_event _ s e) as [[l s1]| | |]; try discriminate A. cbn [bind] in A.
  destruct (trace_lines _ s1 evs) as [[l1 s2]| | |] eqn:E; try discriminate A. inv A. cbn. f_equal. eapply IH; eauto.
Qed.
Print Assumptions C56_trace_can_be_read_back.

(** The lines are numbered and indented by the calls: the E lines have the numbers 0, 1, 2,
    ... in order; every E line is closed by an L line and every L line closes an E line,
    with the same number, the same number of bars and the same operator, and only deeper
    and later numbered lines between them; the number of bars is the number of calls then
    open around it. *)
Theorem C56_lines_show_the_nesting :
  forall (V U : Type) (fuel : nat) (P : pobj V U) (input : bytes) (dt : U) r ls s,
  def_parse fuel P input dt = Ok r ->
  trace_lines (rule_name P) tstate0 (rev (rs_evs r)) = Ok (ls, s) ->
  map line_id (filter is_enter_line ls) = List.seq 0 (count is_enter_line ls)
  /\ forall i l, nth_error ls i = Some l ->
     (is_enter_line l = true -> (exists j, closes ls j i) /\ line_level l = open_after i ls)
     /\ (is_enter_line l = false -> (exists j, closes ls i j) /\ line_level l + 1 = open_after i ls).
Proof.
  intros V U fuel P input dt r ls s H Hl.
  destruct (nested_block (rule_name P) _ (def_parse_nested _ _ _ _ _ H) tstate0) as (ls' & p & k & A & B & C).
  rewrite Hl in A. inv A. cbn [tstate0 t_ids t_next List.length] in B.
  pose proof (block_ids _ _ _ _ B) as I. split.
  - rewrite I. f_equal. apply (f_equal (@List.length nat)) in I. rewrite map_length, seq_length in I. unfold count. congruence.
  - intros i l Hi. pose proof (block_levels _ _ _ _ B _ _ Hi) as Lv. pose proof (block_closes _ _ _ _ B _ _ Hi) as Cl. cbn zeta in Lv.
    unfold open_after. split; intros E; rewrite E in *; (split; [assumption|lia]).
Qed.
Print Assumptions C56_lines_show_the_nesting.

(** An E line is marked with a star exactly if it shows a position before the one of the
    E line preceding it. *)
Theorem C56_star_marks_backtracking :
  forall (name : rid -> bytes) evs ls s i p b v nm t n,
  trace_lines name tstate0 evs = Ok (ls, s) -> nth_error ls i = Some (LEnter p b v nm t n) ->
  (b = true <-> p < last_entered 1 (firstn i ls)).
Proof. intros name evs ls s i p b v nm t n H. exact (star_lines name evs tstate0 ls s H i p b v nm t n). Qed.
Print Assumptions C56_star_marks_backtracking.

(** A trace with backtracking, as printed (the ends of the leave lines left out). *)
Definition c56_text : bytes := bs "E 1	"%string ++ [xe2; x94; x8c] ++ bs "[S] #0
".
Example C56_meets : exists r ls s,
  def_parse 20 (sample g_choice None None true true) (bs "ac") tt = Ok r
  /\ trace_lines (rule_name (sample g_choice None None true true)) tstate0 (rev (rs_evs r)) = Ok (ls, s)
  /\ List.length ls = 20 /\ (exists i p v nm t n, nth_error ls i = Some (LEnter p true v nm t n))
  /\ firstn (List.length c56_text) (trace_text (fun _ => []) 0 ls) = c56_text.
Proof.
  eexists. eexists. eexists. split; [vm_compute; reflexivity|]. split; [vm_compute; reflexivity|]. split; [reflexivity|]. split.
  - first [exists 9; do 5 eexists; vm_compute; reflexivity | exists 10; do 5 eexists; vm_compute; reflexivity | exists 11; do 5 eexists; vm_compute; reflexivity | exists 12; do 5 eexists; vm_compute; reflexivity | exists 13; do 5 eexists; vm_compute; reflexivity].
  - vm_compute. reflexivity.
Qed.
