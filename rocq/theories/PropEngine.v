(** * Properties of the operators and of a whole parse: C13, C14, C15, C21, C23,
    C24, C25, C27, C28, C29, C38 (nesting), C40. *)
From Verif Require Import Base BaseLemmas Utf8 Escape TrieM LineInfo Ope Ctx ErrLog Engine EngineLemmas Top Frame Scope Bounds Mono
  EngineSpec Cut EngineFacts EventSpec Events TopFacts Samples.

(** ** C13.  [wfE]: a custom parser stays in the text it is given and packrat slots
    are numbered below their count.  [UB OutOfBounds] is any read outside the
    input (or outside any other text the parser looks at). *)
Theorem C13_match_stays_inside_the_input :
  forall (V U : Type) (fuel : nat) (P : pobj V U) (input : bytes) (dt : U),
  wfE (mk_env P input) ->
  parser_parse fuel P input dt <> UB OutOfBounds
  /\ forall b reps r, parser_parse fuel P input dt = Ok (b, reps, r) ->
       rs_len r <= List.length input
       /\ (forall p, ei_pos (rs_err r) = Some p -> p <= List.length input)
       /\ (forall p, ei_mpos (rs_err r) = Some p -> p <= List.length input).
Proof. intros V U fuel P input dt H. exact (parser_parse_in_input fuel P input dt H). Qed.
Print Assumptions C13_match_stays_inside_the_input.
(** Any expression at any position, not only a whole parse. *)
Theorem C13_every_expression :
  forall (V U : Type) (fuel : nat) (E : env V U) (o : ope) (pos : nat) (vs : sv V) (log : bool) (dt : U),
  wfE E -> pos <= List.length (e_input E) ->
  parse fuel E o pos vs (ctx_new log dt) <> UB OutOfBounds
  /\ forall n vs' c', parse fuel E o pos vs (ctx_new log dt) = Ok (Some n, vs', c') -> pos + n <= List.length (e_input E).
Proof.
  intros V U fuel E o pos vs log dt HE Hp. pose proof (parse_safe fuel E o pos vs (ctx_new log dt) HE Hp (inb_new E log dt)) as H.
  split.
  - intros Hu. rewrite Hu in H. exact H.
  - intros n vs' c' Hr. rewrite Hr in H. destruct H as (H & _). apply H. reflexivity.
Qed.
Print Assumptions C13_every_expression.
Lemma sample_wf g ws word log tracer s : wfE (E_of (sample g ws word log tracer) s).
Proof. constructor; cbn; discriminate. Qed.
Example C13_meets : exists reps r,
  wfE (E_of (sample g_choice None None true false) "ab")
  /\ parser_parse 20 (sample g_choice None None true false) (bs "ab") tt = Ok (true, reps, r) /\ rs_len r = 2.
Proof.
  eexists _, _. split; [apply sample_wf|]. split; [vm_compute; reflexivity|]. reflexivity.
Qed.

(** ** C14.  A choice: every alternative starts from the values and the evaluation
    state the choice started with; nothing of an abandoned alternative is left. *)
Theorem C14_choice_backtracks :
  forall (V U : Type) (fuel : nat) (E : env V U) fl fs l pos vs c r vs' c',
  scoped E -> okargs c -> forallb nopre l = true ->
  parse fuel E (Cho fl fs l) pos vs c = Ok (r, vs', c') ->
  match r with
  | None => vs' = vs /\ view c' = view c
  | Some n => exists f i o c1 vs1 c2, nth_error l i = Some o /\ view c1 = view c
      /\ parse f E o pos vs c1 = Ok (Some n, vs1, c2)
      /\ vs' = set_choice (List.length l) i vs1 /\ view c' = view c2
      /\ forall j oj, j < i -> nth_error l j = Some oj ->
           fs_skip E fs j pos = Ok true
           \/ exists cj vj cj', view cj = view c /\ parse f E oj pos vs cj = Ok (None, vj, cj')
  end.
Proof. exact @choice_inv. Qed.
Print Assumptions C14_choice_backtracks.
(** A repetition: the values and the state after it are those left by its complete
    iterations; the failing last attempt leaves nothing. *)
Theorem C14_repetition_backtracks :
  forall (V U : Type) (fuel : nat) (E : env V U) e mn mx pos vs c j vs' c',
  scoped E -> okargs c -> nopre e = true ->
  parse fuel E (Rep e mn mx None) pos vs c = Ok (Some j, vs', c') ->
  exists f c0 n c1, view c0 = view c /\ iterations E f e n pos vs c0 (pos + j) vs' c1 /\ view c' = view c1.
Proof.
  intros V U fuel E e mn mx pos vs c j vs' c' H1 H2 H3 H.
  destruct (repetition_inv _ _ _ _ _ _ _ _ _ _ _ H1 H2 H3 H) as (f & c0 & Hv & n & c1 & Hi & Hv' & _).
  exists f, c0, n, c1. auto.
Qed.
Print Assumptions C14_repetition_backtracks.
Lemma sample_scoped g ws word log tracer s :
  forallb (fun d => match r_body d with Some b => nopre b | None => true end) g = true ->
  match ws with Some w => nopre w | None => true end = true ->
  scoped (E_of (sample g ws word log tracer) s).
Proof.
  intros Hg Hw. constructor.
  - cbn. intros id pos vs u r vs' u' [= <- <- <-]. constructor; apply prefix_refl || reflexivity.
  - cbn. intros r d body Hd Hb _. apply nth_error_In in Hd. rewrite forallb_forall in Hg.
    specialize (Hg d Hd). now rewrite Hb in Hg.
  - cbn. intros w ->. exact Hw.
Qed.
(** On "ac" the first alternative captures x and fails; the second matches. *)
Example C14_meets : exists vs' c',
  scoped (E_of (sample g_choice None None true false) "ac") /\ forallb nopre [o_choice] = true
  /\ parse 20 (E_of (sample g_choice None None true false) "ac") o_choice 0 sv_new (c_of (sample g_choice None None true false))
     = Ok (Some 2, vs', c') /\ v_ch vs' = 1 /\ c_caps c' = [].
Proof.
  eexists _, _. split; [apply sample_scoped; reflexivity|]. split; [reflexivity|].
  split; [vm_compute; reflexivity|]. split; reflexivity.
Qed.

(** ** C15.  *)
Theorem C15_and_predicate :
  forall (V U : Type) (fuel : nat) (E : env V U) e pos vs c r vs' c',
  scoped E -> okargs c -> nopre e = true ->
  parse fuel E (And e) pos vs c = Ok (r, vs', c') ->
  vs' = vs /\ view c' = view c
  /\ exists f c1 re v2 c2, view c1 = view c /\ parse f E e pos vs c1 = Ok (re, v2, c2)
       /\ r = match re with Some _ => Some 0 | None => None end.
Proof. exact @and_inv. Qed.
Print Assumptions C15_and_predicate.
Theorem C15_not_predicate :
  forall (V U : Type) (fuel : nat) (E : env V U) e pos vs c r vs' c',
  scoped E -> okargs c -> nopre e = true ->
  parse fuel E (Not e) pos vs c = Ok (r, vs', c') ->
  vs' = vs /\ view c' = view c
  /\ exists f c1 re v2 c2, view c1 = view c /\ parse f E e pos vs c1 = Ok (re, v2, c2)
       /\ r = match re with Some _ => None | None => Some 0 end.
Proof. exact @not_inv. Qed.
Print Assumptions C15_not_predicate.
Example C15_meets : exists c1 c2,
  parse 20 (E_of (sample g_choice None None true false) "ab") (And (Cap (bs "x") (lit "a"))) 0 sv_new (c_of (sample g_choice None None true false))
     = Ok (Some 0, sv_new, c1) /\ c_caps c1 = [] /\
  parse 20 (E_of (sample g_choice None None true false) "ab") (Not (Cap (bs "x") (lit "a"))) 0 sv_new (c_of (sample g_choice None None true false))
     = Ok (None, sv_new, c2) /\ c_caps c2 = [].
Proof. eexists _, _. repeat match goal with |- _ /\ _ => split end; vm_compute; reflexivity. Qed.

(** ** C21.  The cut [↑] as item of alternative [j]: if the choice succeeds with an
    alternative after [j], then [j] was not tried (first set) or failed in the
    items before its cut.  [e_has_cut] is set by the grammar scan iff there is a
    cut (or recovery). *)
Theorem C21_cut_commits :
  forall (V U : Type) (fuel : nat) (E : env V U) fs l pos vs c n vs' c' j l1 l2,
  scoped E -> okargs c -> forallb nopre l = true ->
  nolabels E -> nlargs c -> e_has_cut E = true ->
  parse fuel E (Cho false fs l) pos vs c = Ok (Some n, vs', c') ->
  nth_error l j = Some (Seq None (l1 ++ Cut :: l2)) ->
  forallb nolabel (l1 ++ l2) = true ->
  v_ch vs' <= j
  \/ fs_skip E fs j pos = Ok true
  \/ exists f c1, view c1 = view c /\ fails_in_turn E f l1 pos vs c1.
Proof. exact @cut_commits. Qed.
Print Assumptions C21_cut_commits.
(** ... and no enclosing choice notices. *)
Theorem C21_cut_is_local :
  forall (V U : Type) (fuel : nat) (E : env V U) fs l pos vs c r vs' c', e_has_cut E = true ->
  parse fuel E (Cho false fs l) pos vs c = Ok (r, vs', c') -> c_cut c' = c_cut c.
Proof. exact @cut_local. Qed.
Print Assumptions C21_cut_is_local.
(** On "ad" the second alternative passes its cut and fails: the third, which
    would match, is not tried.  On "ac" it is taken. *)
Example C21_meets : exists vs1 c1 vs2 c2,
  e_has_cut (E_of (sample g_choice None None true false) "ad") = true /\
  parse 20 (E_of (sample g_choice None None true false) "ad") o_choice 0 sv_new (c_of (sample g_choice None None true false)) = Ok (None, vs1, c1) /\
  parse 20 (E_of (sample g_choice None None true false) "ac") o_choice 0 sv_new (c_of (sample g_choice None None true false)) = Ok (Some 2, vs2, c2)
  /\ v_ch vs2 = 1.
Proof. eexists _, _, _, _. repeat match goal with |- _ /\ _ => split end; vm_compute; reflexivity. Qed.

(** ** C23.  Captures are a list, newest last; [last_capture] is the latest entry of
    the name.  A capture adds one entry, with the text matched; a capture scope
    restores the list; a back reference matches like a literal of that text. *)
Theorem C23_capture :
  forall (V U : Type) (fuel : nat) (E : env V U) n e pos vs c r vs' c',
  parse fuel E (Cap n e) pos vs c = Ok (r, vs', c') ->
  exists f c1 c2, view c1 = view c /\ parse f E e pos vs c1 = Ok (r, vs', c2)
    /\ c_caps c' = c_caps c2 ++ match r with Some k => [(n, sub (e_input E) pos k)] | None => [] end.
Proof. exact @cap_inv. Qed.
Print Assumptions C23_capture.
Theorem C23_capture_scope :
  forall (V U : Type) (fuel : nat) (E : env V U) e pos vs c r vs' c',
  parse fuel E (Csc e) pos vs c = Ok (r, vs', c') ->
  view c' = view c /\ exists f c1 c2, view c1 = view c /\ parse f E e pos vs c1 = Ok (r, vs', c2).
Proof. exact @csc_inv. Qed.
Print Assumptions C23_capture_scope.
Theorem C23_back_reference :
  forall (V U : Type) (fuel : nat) (E : env V U) n pos vs c r vs' c', pos <= List.length (e_input E) ->
  parse fuel E (Bkr n) pos vs c = Ok (r, vs', c') ->
  match last_capture (c_caps c) n with
  | None => r = None /\ vs' = vs /\ view c' = view c
  | Some t =>
    match r with
    | Some m => text_at (e_input E) pos t false
        /\ (forall w, e_word E = Some w -> word_at E w t 0 -> no_word_at E w (e_input E) (pos + List.length t))
        /\ exists k, m = List.length t + k /\ skips E (pos + List.length t) vs c k vs' c'
    | None => ~ text_at (e_input E) pos t false
        \/ (exists w, e_word E = Some w /\ word_at E w t 0 /\ word_at E w (e_input E) (pos + List.length t))
        \/ skip_fails E (pos + List.length t) vs c
    end
  end.
Proof. exact @bkr_text. Qed.
Print Assumptions C23_back_reference.
(** [last_capture] is the most recent entry. *)
Theorem C23_most_recent : forall caps n t,
  last_capture caps n = Some t <->
  exists older newer, caps = older ++ (n, t) :: newer /\ (forall m u, In (m, u) newer -> m <> n).
Proof. exact last_capture_spec. Qed.
Print Assumptions C23_most_recent.
(** $x<'a'> ($x<'b'> $x)  on "abb", then $x is undefined outside the scope. *)
Example C23_meets : exists vs c,
  parse 20 (E_of (sample [] None None true false) "abba")
    (seqs [Cap (bs "x") (lit "a"); Csc (seqs [Cap (bs "x") (lit "b"); Bkr (bs "x")]); Bkr (bs "x")]) 0 sv_new
    (c_of (sample [] None None true false)) = Ok (Some 4, vs, c) /\ c_caps c = [(bs "x", bs "a")].
Proof. eexists _, _. split; vm_compute; reflexivity. Qed.

(** ** C24.  A token: [e] runs with whitespace skipping off, the token is the [k]
    bytes [e] matched, and only then whitespace is skipped (if this token is not
    inside another one).  Literals and dictionaries skip after themselves: C25. *)
Theorem C24_token :
  forall (V U : Type) (fuel : nat) (E : env V U) e pos vs c r vs' c',
  parse fuel E (Tok e) pos vs c = Ok (r, vs', c') ->
  exists f c1 m v1 c2, c_tb c1 = S (c_tb c) /\ c_caps c1 = c_caps c /\ c_args c1 = c_args c
    /\ c_rstk c1 = c_rstk c /\ c_inws c1 = c_inws c
    /\ parse f E e pos vs c1 = Ok (m, v1, c2)
    /\ match m with
       | None => r = None
       | Some k => exists c3, c_tb c3 = c_tb c /\ c_caps c3 = c_caps c2 /\ c_args c3 = c_args c
           /\ c_rstk c3 = c_rstk c /\ c_inws c3 = c_inws c /\
           let v2 := if e_recog E then v1 else push_tok (pos, k) v1 in
           match r with
           | Some n => exists j, n = k + j /\ skips E (pos + k) v2 c3 j vs' c'
           | None => skip_fails E (pos + k) v2 c3
           end
       end.
Proof. exact @tok_inv. Qed.
Print Assumptions C24_token.
Definition w_sp : ope := Wsp (Ign (many (lit " "))).
Example C24_meets : exists vs c,
  parse 20 (E_of (sample [] (Some w_sp) None true false) "ab  c") (seqs [Tok (seqs [lit "a"; lit "b"]); lit "c"]) 0 sv_new
    (c_of (sample [] (Some w_sp) None true false)) = Ok (Some 5, vs, c) /\ v_toks vs = [(0, 2)].
Proof. eexists _, _. split; vm_compute; reflexivity. Qed.

(** ** C25.  A literal matches its text, and with %word, if the literal is itself a
    word, no word follows. *)
Theorem C25_literal :
  forall (V U : Type) (fuel : nat) (E : env V U) s ic pos vs c r vs' c', pos <= List.length (e_input E) ->
  parse fuel E (Lit s ic) pos vs c = Ok (r, vs', c') ->
  match r with
  | Some n => text_at (e_input E) pos s ic
      /\ (forall w, e_word E = Some w -> word_at E w s 0 -> no_word_at E w (e_input E) (pos + List.length s))
      /\ exists k, n = List.length s + k /\ skips E (pos + List.length s) vs c k vs' c'
  | None => ~ text_at (e_input E) pos s ic
      \/ (exists w, e_word E = Some w /\ word_at E w s 0 /\ word_at E w (e_input E) (pos + List.length s))
      \/ skip_fails E (pos + List.length s) vs c
  end.
Proof. exact @lit_inv. Qed.
Print Assumptions C25_literal.
(** "no word follows" and "a word follows" exclude each other. *)
Theorem C25_word_exclusive : forall (V U : Type) (E : env V U) w inp pos,
  word_at E w inp pos -> no_word_at E w inp pos -> False.
Proof.
  intros V U E w inp pos (f & n & vs & c & H) (f' & vs' & c' & H').
  pose proof (parse_det _ _ _ _ _ _ _ _ _ H H') as Hd. discriminate.
Qed.
Print Assumptions C25_word_exclusive.
(** A dictionary, [m] being the length of its longest word here. *)
Theorem C25_dictionary :
  forall (V U : Type) (fuel : nat) (E : env V U) t pos vs c r vs' c',
  parse fuel E (Dic t) pos vs c = Ok (r, vs', c') ->
  let m := fst (trie_match t (from (e_input E) pos)) in
  let id := match snd (trie_match t (from (e_input E) pos)) with Some k => k | None => 0 end in
  match r with
  | Some n => 0 < m /\ (forall w, e_word E = Some w -> no_word_at E w (e_input E) (pos + m))
      /\ exists k, n = m + k /\ skips E (pos + m) (set_choice (t_items_count t) id vs) c k vs' c'
  | None => m = 0 \/ (exists w, e_word E = Some w /\ word_at E w (e_input E) (pos + m))
      \/ skip_fails E (pos + m) (set_choice (t_items_count t) id vs) c
  end.
Proof. exact @dic_inv. Qed.
Print Assumptions C25_dictionary.
Definition w_az : ope := Rep (Cls [(97, 122)%N] false false) 1 None None.
Example C25_meets : exists vs1 c1 vs2 c2,
  parse 20 (E_of (sample [] None (Some w_az) true false) "if(") (lit "if") 0 sv_new
    (c_of (sample [] None (Some w_az) true false)) = Ok (Some 2, vs1, c1) /\
  parse 20 (E_of (sample [] None (Some w_az) true false) "iffy") (lit "if") 0 sv_new
    (c_of (sample [] None (Some w_az) true false)) = Ok (None, vs2, c2).
Proof. eexists _, _, _, _. split; vm_compute; reflexivity. Qed.

(** ** C27.  [iterations]: [n] matches in a row.  (With max below min, written
    e{3,2}, the result is min iterations: hence Nat.max.) *)
Theorem C27_repetition :
  forall (V U : Type) (fuel : nat) (E : env V U) e mn mx pos vs c r vs' c',
  scoped E -> okargs c -> nopre e = true ->
  parse fuel E (Rep e mn mx None) pos vs c = Ok (r, vs', c') ->
  exists f c0, view c0 = view c /\
  match r with
  | None => exists n p v1 c1 c2, n < mn /\ iterations E f e n pos vs c0 p v1 c1
              /\ parse f E e p v1 c1 = Ok (None, vs', c2)
  | Some j => exists n c1, iterations E f e n pos vs c0 (pos + j) vs' c1 /\ view c' = view c1
      /\ mn <= n
      /\ (match mx with Some x => n = Nat.max mn x | None => False end
          \/ (match mx with Some x => n < x | None => True end)
             /\ exists v2 c2, parse f E e (pos + j) vs' c1 = Ok (None, v2, c2))
  end.
Proof. exact @repetition_inv. Qed.
Print Assumptions C27_repetition.
Example C27_meets : exists vs1 c1 vs2 c2,
  parse 20 (E_of (sample [] None None true false) "ababab") (Rep (lit "ab") 1 (Some 2) None) 0 sv_new
    (c_of (sample [] None None true false)) = Ok (Some 4, vs1, c1) /\
  parse 20 (E_of (sample [] None None true false) "ababc") (Rep (lit "ab") 3 None None) 0 sv_new
    (c_of (sample [] None None true false)) = Ok (None, vs2, c2).
Proof. eexists _, _, _, _. split; vm_compute; reflexivity. Qed.

(** ** C28.  [leading]: the %whitespace expression took the first [i] bytes (none
    without %whitespace). *)
Theorem C28_whole_input :
  forall (V U : Type) (fuel : nat) (P : pobj V U) (input : bytes) (dt : U) b reps r,
  wfE (mk_env P input) ->
  parser_parse fuel P input dt = Ok (b, reps, r) ->
  (b = true <-> exists i vs1 c1 k vs2 c2, leading fuel P input dt i vs1 c1
     /\ parse fuel (mk_env P input) (Hld (p_start P)) i vs1 c1 = Ok (Some k, vs2, c2)
     /\ (p_eoi P = true -> i + k = List.length input)
     /\ c_rcv c2 = false).
Proof. exact @whole_match. Qed.
Print Assumptions C28_whole_input.
Example C28_meets : exists reps1 r1 reps2 r2,
  parser_parse 20 (sample g_choice None None true false) (bs "ab") tt = Ok (true, reps1, r1) /\
  parser_parse 20 (sample g_choice None None true false) (bs "abx") tt = Ok (false, reps2, r2).
Proof. eexists _, _, _, _. split; vm_compute; reflexivity. Qed.

(** ** C29.  The trace shows every terminal that failed.  The error position is at or
    beyond each of them, and is the position of one of them or of a shortcut that
    stands for one ([blamed]).  Failures inside negative predicates count too: this
    version has no silent predicates. *)
Theorem C29_farthest_failure :
  forall (V U : Type) (fuel : nat) (P : pobj V U) (input : bytes) (dt : U) r,
  wfE (mk_env P input) -> norcv_grammar P ->
  p_tracer P = true -> p_verbose P = true -> p_log P = true ->
  def_parse fuel P input dt = Ok r ->
  match ei_pos (rs_err r) with
  | Some q => q <= List.length input
      /\ (forall e p, In e (rs_evs r) -> failure input e p -> p <= q)
      /\ (exists e, In e (rs_evs r) /\ blamed e q)
  | None => forall e p, In e (rs_evs r) -> ~ failure input e p
  end.
Proof. exact @farthest_failure. Qed.
Print Assumptions C29_farthest_failure.
(** It never moves back, except through error recovery. *)
Theorem C29_never_moves_back :
  forall (V U : Type) (fuel : nat) (E : env V U) o pos vs c r vs' c',
  wfE E -> pos <= List.length (e_input E) -> inb E c ->
  parse fuel E o pos vs c = Ok (r, vs', c') ->
  c_rcv c' = true \/ forall p, ei_pos (c_err c) = Some p -> exists p', ei_pos (c_err c') = Some p' /\ p <= p'.
Proof.
  intros V U fuel E o pos vs c r vs' c' HE Hp Hc H.
  pose proof (parse_safe fuel E o pos vs c HE Hp Hc) as Hs. rewrite H in Hs.
  destruct Hs as (_ & _ & _ & Hm). exact Hm.
Qed.
Print Assumptions C29_never_moves_back.
Example C29_meets : exists r,
  wfE (E_of (sample [plain "S" (seqs [lit "a"; many (lit "b"); lit "c"])] None None true true) "abbd") /\
  norcv_grammar (sample [plain "S" (seqs [lit "a"; many (lit "b"); lit "c"])] None None true true) /\
  def_parse 20 (sample [plain "S" (seqs [lit "a"; many (lit "b"); lit "c"])] None None true true) (bs "abbd") tt = Ok r
  /\ rs_ret r = false /\ ei_pos (rs_err r) = Some 3.
Proof.
  eexists. split; [apply sample_wf|]. split.
  - split; [|discriminate]. intros [|[|r]] d body [= <-] [= <-]; reflexivity.
  - split; [vm_compute; reflexivity|]. split; reflexivity.
Qed.

(** ** C38, nesting: every trace is a sequence of complete, properly nested
    enter/leave pairs.  Any grammar, any parse. *)
Theorem C38_trace_is_nested :
  forall (V U : Type) (fuel : nat) (P : pobj V U) (input : bytes) (dt : U) r,
  def_parse fuel P input dt = Ok r -> nested (rev (rs_evs r)).
Proof. exact @def_parse_nested. Qed.
Print Assumptions C38_trace_is_nested.

Example C38_meets : exists r,
  def_parse 20 (sample g_choice None None true true) (bs "ac") tt = Ok r /\ List.length (rs_evs r) = 20.
Proof. eexists. split; vm_compute; reflexivity. Qed.

(** ** C40.  After any sub-parse, successful or not: token and whitespace nesting, rule
    stack, macro arguments, trace stack, log, outer cut frames and precedence
    scopes are what they were; captures were only added to. *)
Theorem C40_state_is_balanced :
  forall (V U : Type) (fuel : nat) (E : env V U) o pos vs c r vs' c',
  parse fuel E o pos vs c = Ok (r, vs', c') ->
  c_tb c' = c_tb c /\ c_inws c' = c_inws c /\ c_rstk c' = c_rstk c /\ c_args c' = c_args c
  /\ c_ign c' = c_ign c /\ c_tids c' = c_tids c /\ c_log c' = c_log c
  /\ List.length (c_cut c') = List.length (c_cut c) /\ tl (c_cut c') = tl (c_cut c)
  /\ map fst (c_prec c') = map fst (c_prec c)
  /\ exists new, c_caps c' = c_caps c ++ new.
Proof.
  intros V U fuel E o pos vs c r vs' c' H. destruct (parse_frame _ _ _ _ _ _ _ _ _ H).
  repeat (split; [assumption|]). assumption.
Qed.
Print Assumptions C40_state_is_balanced.
Example C40_meets : exists vs' c',
  parse 20 (E_of (sample g_choice (Some w_sp) None true true) "a  c") o_choice 0 sv_new (c_of (sample g_choice None None true true))
  = Ok (Some 4, vs', c') /\ c_tids c' = [].
Proof. eexists _, _. split; vm_compute; reflexivity. Qed.
