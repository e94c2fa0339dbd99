(** * Matching agrees with the textbook PEG semantics (C12); parses terminate (C20). *)
From Verif Require Import Base BaseLemmas Utf8 Utf8Spec Utf8Proofs Escape TrieM TrieSpec LineInfo Ope Ctx ErrLog Engine EngineLemmas Top Frame Scope Bounds Mono TopFacts
  RefSem RefMono Refine TopRef PegSpec PegFacts PegDen PegWord PegRef GrammarCond PegEngine Samples.

(** ** C12.  [core_parser]: core operators only, each rule used in one whitespace
    mode; [bare_parser]: no optimisation data attached (C16, C17 and C26 treat
    those); no semantic predicates.  Everything else (packrat on or off, actions,
    enter/leave callbacks, logging, tracing, recognizer mode, end-of-input check)
    is arbitrary.  [peg_grammar P] is the textbook grammar, see PegDen.v; directly
    left-recursive rules are read as iterations (LrSpec.v).  First without %word. *)
Theorem C12_matching_is_peg_partial :
  forall (V U : Type) (P : pobj V U) (input : bytes) (dt : U) md mm r,
  core_parser md mm P -> bare_parser P -> p_word P = None -> (forall q, p_pred P q = None) ->
  peg (peg_grammar P) (start_of P) input r ->
  exists reps res F, (forall fuel, F <= fuel -> parser_parse fuel P input dt = Ok (accepts P r, reps, res))
    /\ match r with Some t => rs_len res + List.length t = List.length input | None => rs_ret res = false end.
Proof.
  intros V U P input dt md mm r Hc Hb Hw. apply (engine_follows_peg P input dt md mm r Hw Hc). now apply bare_parser_anns.
Qed.
Print Assumptions C12_matching_is_peg_partial.
(** Conversely, whatever result the engine returns is derived: on well-founded
    grammars and well-formed text every result is the textbook one. *)
Theorem C12_every_result_is_peg_partial :
  forall (V U : Type) (P : pobj V U) (input : bytes) (dt : U) md mm R fuel b reps res,
  core_parser md mm P -> bare_parser P -> p_word P = None -> (forall q, p_pred P q = None) ->
  well_formed (peg_grammar P) R -> R (NSkip m_top) -> R (NRule (p_start P) m_top) -> valid_utf8 input ->
  parser_parse fuel P input dt = Ok (b, reps, res) ->
  exists r, peg (peg_grammar P) (start_of P) input r /\ b = accepts P r
    /\ match r with Some t => rs_len res + List.length t = List.length input | None => rs_ret res = false end.
Proof.
  intros V U P input dt md mm R fuel b reps res Hc Hb Hwd Hp Hw H1 H2 Hu Hr.
  eapply engine_peg_iff; eauto; [now apply bare_parser_anns|].
  apply (peg_total (peg_grammar P) R Hw); [exact Hu|]. split; assumption.
Qed.
Print Assumptions C12_every_result_is_peg_partial.
(** With %word: the textbook grammar then has a word boundary after every literal
    that starts with a word (PegWord.v).  [literal_words P isw]: [isw] tells which
    literals do, by the textbook semantics of the %word expression. *)
Theorem C12_matching_with_word_partial :
  forall (V U : Type) (P : pobj V U) (isw : bytes -> option bool) (input : bytes) (dt : U) md mm r,
  core_parser md mm P -> bare_parser P -> (forall q, p_pred P q = None) -> literal_words P isw ->
  peg (word_grammar P isw) (word_start P) input r ->
  exists reps res F, (forall fuel, F <= fuel -> parser_parse fuel P input dt = Ok (accepts P r, reps, res))
    /\ match r with Some t => rs_len res + List.length t = List.length input | None => rs_ret res = false end.
Proof.
  intros V U P isw input dt md mm r Hc Hb. apply (engine_follows_word P isw input dt md mm r Hc). now apply bare_parser_anns.
Qed.
Print Assumptions C12_matching_with_word_partial.
Theorem C12_every_result_with_word_partial :
  forall (V U : Type) (P : pobj V U) (isw : bytes -> option bool) (input : bytes) (dt : U) md mm R fuel b reps res,
  core_parser md mm P -> bare_parser P -> (forall q, p_pred P q = None) -> literal_words P isw ->
  well_formed (word_grammar P isw) R -> R (WMain (NSkip m_top)) -> R (WMain (NRule (p_start P) m_top)) -> valid_utf8 input ->
  parser_parse fuel P input dt = Ok (b, reps, res) ->
  exists r, peg (word_grammar P isw) (word_start P) input r /\ b = accepts P r
    /\ match r with Some t => rs_len res + List.length t = List.length input | None => rs_ret res = false end.
Proof.
  intros V U P isw input dt md mm R fuel b reps res Hc Hb Hp Hwd Hw H1 H2 Hu Hr.
  eapply engine_word_iff; eauto; [now apply bare_parser_anns|].
  apply (peg_total (word_grammar P isw) R Hw); [exact Hu|]. split; assumption.
Qed.
Print Assumptions C12_every_result_with_word_partial.
(** The textbook semantics is unambiguous. *)
Theorem C12_peg_is_deterministic_partial :
  forall (NT : Type) (G : NT -> pexp NT) e s r1 r2, peg G e s r1 -> peg G e s r2 -> r1 = r2.
Proof. intros NT G e s r1 r2 H1. revert r2. now apply peg_det. Qed.
Print Assumptions C12_peg_is_deterministic_partial.

(** ** C20.  *)
Theorem C20_parsing_terminates_partial :
  forall (V U : Type) (P : pobj V U) (input : bytes) (dt : U) md mm R,
  core_parser md mm P -> bare_parser P -> p_word P = None -> (forall q, p_pred P q = None) ->
  well_formed (peg_grammar P) R -> R (NSkip m_top) -> R (NRule (p_start P) m_top) -> valid_utf8 input ->
  exists b reps res F, forall fuel, F <= fuel -> parser_parse fuel P input dt = Ok (b, reps, res).
Proof.
  intros V U P input dt md mm R Hc Hb Hw. eapply engine_terminates; eauto. now apply bare_parser_anns.
Qed.
Print Assumptions C20_parsing_terminates_partial.
Theorem C20_parsing_with_word_terminates_partial :
  forall (V U : Type) (P : pobj V U) (isw : bytes -> option bool) (input : bytes) (dt : U) md mm R,
  core_parser md mm P -> bare_parser P -> (forall q, p_pred P q = None) -> literal_words P isw ->
  well_formed (word_grammar P isw) R -> R (WMain (NSkip m_top)) -> R (WMain (NRule (p_start P) m_top)) -> valid_utf8 input ->
  exists b reps res F, forall fuel, F <= fuel -> parser_parse fuel P input dt = Ok (b, reps, res).
Proof.
  intros V U P isw input dt md mm R Hc Hb. eapply engine_terminates_word; eauto. now apply bare_parser_anns.
Qed.
Print Assumptions C20_parsing_with_word_terminates_partial.

(** *** A concrete grammar meeting the hypotheses:
      E <- T ('+' T)*    T <- < [0-9]+ > / '(' E ')'    %whitespace <- [ ]*  *)
Definition digits : ope := Tok (Rep (Cls [(48, 57)%N] false false) 1 None None).
Definition g_sum : grammar :=
  [plain "E" (seqs [Ref (bs "T") (Some 1) 0 false []; many (seqs [lit "+"; Ref (bs "T") (Some 1) 0 false []])]);
   plain "T" (alts [digits; seqs [lit "("; Ref (bs "E") (Some 0) 0 false []; lit ")"]])].
Definition w_sum : ope := Wsp (Ign (many (Cls [(32, 32)%N] false false))).
Definition P_sum : pobj bytes unit := sample g_sum (Some w_sum) None true false.
Definition R_sum (n : nt) : Prop :=
  n = NRule 0 m_top \/ n = NRule 1 m_top \/ n = NSkip m_top.
Lemma sum_core : core_parser (fun _ => m_top) [m_top] P_sum.
Proof.
  constructor; try reflexivity.
  - split; [reflexivity|]. eexists. split; reflexivity.
  - discriminate.
Qed.
Lemma sum_bare : bare_parser P_sum.
Proof. split; [reflexivity|]. split; reflexivity. Qed.
Lemma sum_formed : well_formed (peg_grammar P_sum) R_sum.
Proof.
  set (G := peg_grammar P_sum).
  assert (Hv : forall b : byte, (bN b <= 127)%N -> valid_utf8 [b]).
  { intros b Hb. exists [bN b]. split; [constructor; [left; lia|constructor]|]. cbn. unfold rfc3629.
    apply N.leb_le in Hb. now rewrite Hb. }
  assert (Hplus : valid_utf8 (bs "+")) by (apply Hv; cbn; lia).
  assert (Hopen : valid_utf8 (bs "(")) by (apply Hv; cbn; lia).
  assert (Hclose : valid_utf8 (bs ")")) by (apply Hv; cbn; lia).
  assert (N2 : Acc (fun n' n => left_call G (G n) n') (NSkip m_top)).
  { constructor. intros y Hy. exfalso. cbn in Hy. tauto. }
  assert (N1 : Acc (fun n' n => left_call G (G n) n') (NRule 1 m_top)).
  { constructor. intros y Hy. cbn in Hy.
    assert (HO : ~ can_be_empty G (PLit false (bs "("))) by apply lit_consumes.
    assert (HC : ~ can_be_empty G (PSeq (PLit false (bs "(")) (PNT (NSkip m_top)))) by (apply seq_consumes, lit_consumes).
    assert (Hy' : NSkip m_top = y) by tauto. subst y. exact N2. }
  assert (N0 : Acc (fun n' n => left_call G (G n) n') (NRule 0 m_top)).
  { constructor. intros y Hy. cbn in Hy.
    assert (HO : ~ can_be_empty G (PLit false (bs "+"))) by apply lit_consumes.
    assert (HC : ~ can_be_empty G (PSeq (PLit false (bs "+")) (PNT (NSkip m_top)))) by (apply seq_consumes, lit_consumes).
    assert (Hy' : NRule 1 m_top = y) by tauto. subst y. exact N1. }
  assert (H0 : ~ can_be_empty G (PSeq (PSeq (PLit false (bs "+")) (PNT (NSkip m_top))) (PSeq (PNT (NRule 1 m_top)) PEps)))
    by (apply seq_consumes, seq_consumes, lit_consumes).
  intros n [ -> | [ -> | -> ]]; (split; [|assumption]); cbn; unfold R_sum; repeat split; auto; apply chr_consumes.
Qed.
Lemma sum_valid : valid_utf8 (bs "1 +(23) ").
Proof. exists (map bN (bs "1 +(23) ")). split; [|reflexivity]. repeat constructor; left; cbn; lia. Qed.
Example C12_meets :
  core_parser (fun _ => m_top) [m_top] P_sum /\ bare_parser P_sum /\ p_word P_sum = None /\ (forall q, p_pred P_sum q = None)
  /\ well_formed (peg_grammar P_sum) R_sum /\ R_sum (NSkip m_top) /\ R_sum (NRule (p_start P_sum) m_top)
  /\ valid_utf8 (bs "1 +(23) ")
  /\ exists reps res, parser_parse 40 P_sum (bs "1 +(23) ") tt = Ok (true, reps, res) /\ rs_len res = 8.
Proof.
  split; [exact sum_core|]. split; [exact sum_bare|]. split; [reflexivity|]. split; [reflexivity|]. split; [exact sum_formed|].
  unfold R_sum. split; [auto|]. split; [auto|]. split; [exact sum_valid|].
  eexists _, _. split; [vm_compute; reflexivity|]. reflexivity.
Qed.
Example C20_meets : exists b reps res F, forall fuel, F <= fuel -> parser_parse fuel P_sum (bs "1 +(23) ") tt = Ok (b, reps, res).
Proof.
  apply (C20_parsing_terminates_partial _ _ P_sum _ tt (fun _ => m_top) [m_top] R_sum);
    [exact sum_core|exact sum_bare|reflexivity|reflexivity|exact sum_formed|unfold R_sum; auto|unfold R_sum; auto|exact sum_valid].
Qed.

(** *** A grammar with %word:
      S <- 'if' < [a-z]+ >    %whitespace <- [ ]*    %word <- [a-z]+  *)
Definition letters : ope := Rep (Cls [(97, 122)%N] false false) 1 None None.
Definition P_kw : pobj bytes unit := sample [plain "S" (seqs [lit "if"; Tok letters])] (Some w_sum) (Some letters) true false.
Definition isw_kw (s : bytes) : option bool := if bytes_eqb s (bs "if") then Some true else None.
Definition R_kw (n : wnt) : Prop :=
  n = WMain (NRule 0 m_top) \/ n = WMain (NSkip m_top) \/ n = WBound (bs "if").
Lemma kw_core : core_parser (fun _ => m_top) [m_top] P_kw.
Proof.
  constructor; try reflexivity.
  - split; [reflexivity|]. eexists. split; reflexivity.
  - cbn. repeat split; try reflexivity.
  - discriminate.
Qed.
Lemma kw_bare : bare_parser P_kw.
Proof. split; [reflexivity|]. split; reflexivity. Qed.
Lemma ascii_one (b : byte) : (bN b <= 127)%N -> scalar (bN b) /\ map bN [b] = rfc3629 (bN b).
Proof. intros Hb. split; [left; lia|]. cbn. unfold rfc3629. apply N.leb_le in Hb. now rewrite Hb. Qed.
Lemma kw_words : literal_words P_kw isw_kw.
Proof.
  intros w s Hw. inversion Hw; subst w. unfold isw_kw. destruct (bytes_eqb s (bs "if")) eqn:Es; [|exact I]. apply bytes_eqb_eq in Es. subst s.
  exists []. set (G := peg_of _ _). unfold word_exp. cbn.
  assert (Hc : forall (b : byte) s, (bN b <= 127)%N -> in_class [(97, 122)%N] false (bN b) = true ->
    peg G (PChr (in_class [(97, 122)%N] false)) (b :: s) (Some s)).
  { intros b s Hb Ho. destruct (ascii_one b Hb) as [A B]. exact (peg_chr G _ (bN b) [b] s A B Ho). }
  eapply peg_seq; [eapply peg_seq; [apply Hc; [cbn; lia|reflexivity]|constructor]|].
  eapply peg_star; [apply Hc; [cbn; lia|reflexivity]|]. apply peg_star_end. constructor.
Qed.
Lemma kw_formed : well_formed (word_grammar P_kw isw_kw) R_kw.
Proof.
  set (G := word_grammar P_kw isw_kw).
  assert (Hif : valid_utf8 (bs "if")).
  { exists [105; 102]%N. split; [constructor; [left; lia|constructor; [left; lia|constructor]]|reflexivity]. }
  assert (N1 : Acc (fun n' n => left_call G (G n) n') (WBound (bs "if"))).
  { constructor. intros y Hy. exfalso. cbn in Hy. tauto. }
  assert (N2 : Acc (fun n' n => left_call G (G n) n') (WMain (NSkip m_top))).
  { constructor. intros y Hy. exfalso. cbn in Hy. tauto. }
  assert (N0 : Acc (fun n' n => left_call G (G n) n') (WMain (NRule 0 m_top))).
  { constructor. intros y Hy. cbn in Hy.
    assert (HL : ~ can_be_empty G (PLit false (bs "if"))) by apply lit_consumes.
    assert (HC : ~ can_be_empty G (PSeq (PLit false (bs "if")) (PNT (WBound (bs "if"))))) by (apply seq_consumes, lit_consumes).
    assert (HD : ~ can_be_empty G (PSeq (PSeq (PLit false (bs "if")) (PNT (WBound (bs "if")))) (PNT (WMain (NSkip m_top))))) by (do 2 apply seq_consumes; apply lit_consumes).
    exfalso. tauto. }
  intros n [ -> | [ -> | -> ]]; (split; [|assumption]); cbn; unfold R_kw; repeat split; auto; apply chr_consumes.
Qed.
Lemma kw_valid : valid_utf8 (bs "if x") /\ valid_utf8 (bs "ifx").
Proof.
  split; [exists [105; 102; 32; 120]%N|exists [105; 102; 120]%N]; (split; [|reflexivity]);
    repeat (constructor; [left; lia|]); constructor.
Qed.
Example C12_word_meets :
  core_parser (fun _ => m_top) [m_top] P_kw /\ bare_parser P_kw /\ (forall q, p_pred P_kw q = None) /\ literal_words P_kw isw_kw
  /\ well_formed (word_grammar P_kw isw_kw) R_kw /\ R_kw (WMain (NSkip m_top)) /\ R_kw (WMain (NRule (p_start P_kw) m_top))
  /\ valid_utf8 (bs "if x") /\ valid_utf8 (bs "ifx")
  /\ (exists reps res, parser_parse 40 P_kw (bs "if x") tt = Ok (true, reps, res) /\ rs_len res = 4)
  /\ (exists reps res, parser_parse 40 P_kw (bs "ifx") tt = Ok (false, reps, res)).
Proof.
  split; [exact kw_core|]. split; [exact kw_bare|]. split; [reflexivity|]. split; [exact kw_words|]. split; [exact kw_formed|].
  unfold R_kw. split; [auto|]. split; [auto|]. split; [apply kw_valid|]. split; [apply kw_valid|]. split.
  - eexists _, _. split; [vm_compute; reflexivity|]. reflexivity.
  - eexists _, _. vm_compute. reflexivity.
Qed.

(** The hypothesis on the text is needed: on the byte 0x80, which is not UTF-8,
    [^a] matches without consuming, so  S <- [^a]*  runs forever although the
    grammar is well-formed. *)
Definition P_loop : pobj bytes unit := sample [plain "S" (many (Cls [(97, 97)%N] true false))] None None true false.
Theorem C20_malformed_text_refuted :
  core_parser (fun _ => m_top) [m_top] P_loop /\ bare_parser P_loop
  /\ (exists R, well_formed (peg_grammar P_loop) R /\ R (NSkip m_top) /\ R (NRule (p_start P_loop) m_top))
  /\ forall fuel, parser_parse fuel P_loop [x80] tt = OutOfFuel.
Proof.
  split. { constructor; try reflexivity; [split; [reflexivity|]; eexists; split; reflexivity|discriminate]. }
  split; [split; [reflexivity|split; exact I]|]. split.
  { exists (fun n => n = NSkip m_top \/ n = NRule 0 m_top). split; [|auto].
    intros n [ -> | -> ].
    - split; [exact I|]. constructor. intros y [].
    - split; [|constructor; intros y Hy; cbn in Hy; tauto]. split; [exact I|]. split; [apply chr_consumes|exact I]. }
  set (E := mk_env P_loop [x80]). set (o := Cls [(97, 97)%N] true false).
  assert (Hone : forall f vs (c : ctx bytes unit), parse (S f) E o 0 vs c = Ok (Some 0, vs, c)).
  { intros f vs c. cbn [parse]. unfold traced, is_traceable. change (e_tracer E) with false. reflexivity. }
  assert (Hrep : forall f g vs (c : ctx bytes unit), rep_more f E (parse g) o None 0 0 vs c = OutOfFuel).
  { induction f as [|f IH]; intros g vs c; [reflexivity|]. cbn [rep_more]. destruct g as [|g]; [reflexivity|].
    cbn [Nat.add]. rewrite Hone. cbn [bind option_map]. apply IH. }
  assert (Hbody : forall f vs (c : ctx bytes unit), parse f E (many o) 0 vs c = OutOfFuel).
  { intros [|f] vs c; [reflexivity|]. cbn [parse]. unfold traced, is_traceable. change (e_tracer E) with false. cbn [andb].
    cbn [parse_core many]. unfold parse_rep. cbn [rep_min bind]. apply Hrep. }
  intros fuel. unfold parser_parse, def_parse. cbv zeta. cbn [p_ws P_loop sample]. fold E. cbn [bind].
  destruct fuel as [|fuel]; [reflexivity|]. cbn [parse]. unfold traced, is_traceable. change (e_tracer E) with false. cbn [andb].
  cbn [parse_core]. unfold parse_hld. change (e_g E) with [plain "S" (many o)].
  cbn [get_rule]. unfold get_rule. cbn.
  unfold guard. cbn. unfold do_parse. cbn. unfold parse_ope_body. cbn.
  rewrite Hbody. reflexivity.
Qed.
Print Assumptions C20_malformed_text_refuted.
