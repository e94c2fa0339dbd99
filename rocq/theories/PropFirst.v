(** * What the load-time analyses attach to a grammar does not change what it parses
    (C16 first-byte filters, C17 class scans, C26 keyword guards).

    [with_grammar P g' (ws_expr g' wr)] is the parser [P] after SetupFirstSets has run
    over its grammar ([setup_first_sets], visiting the rules in any order): choices carry
    first-byte sets, repetitions of ASCII classes a byte set to scan with, and
    !Keyword <identifier> sequences a keyword guard.  [P] itself has none of them. *)
From Verif Require Import Base BaseLemmas Utf8 Utf8Spec Utf8Proofs Escape TrieM TrieSpec LineInfo Ope Ctx ErrLog Engine EngineLemmas Top Frame Scope Bounds Mono TopFacts
  RefSem RefMono Refine RefineMain TopRef RefExt RefStrip GrammarCond FirstSetM FirstSpec FirstSem FirstProofs FirstSetup FirstAnn FirstTop FirstCheck KeywordSpec Keyword SpanRun
  EngineSpec Samples PropPeg PropMemo.

Section Lift.
  Context {V U : Type}.
  Lemma annotated_guarded (P : pobj V U) wr k n order g' input dt md mm odd :
    let P' := with_grammar P g' (ws_expr g' wr) in
    core_parser md mm P -> p_word P = None -> bare_grammar (p_g P) = true -> p_ws P = ws_expr (p_g P) wr ->
    setup_first_sets k n order (p_g P) = Ok g' ->
    no_empty_recursion (p_g P) -> regular_alternatives (p_g P) (is_some (p_ws P)) odd -> regular_spans (p_g P) odd ->
    (forall w, p_ws P = Some w -> never_fails (mk_env P input) w) ->
    regular_guards (p_g P) (fun r => is_some (p_pred P r)) odd input ->
    plain_text input -> (odd = false -> ascii_text input) ->
    pure (mk_env P input) -> (recognize_only P = true -> forall r, p_pred P r = None) ->
    settled P input ->
    same_outcome P' P input dt.
  Proof.
    intros P' Hc Hwd Hb Hws Hset Hne Hal Hsp Hnf Hrg Hpl Hodd Hp Hr Hst.
    assert (Hg : strip_grammar g' = p_g P) by (eapply annotated_g; eauto).
    apply (annotated_same P wr k n order g' input dt md mm odd); auto.
    rewrite <- Hg. apply (guards_agree (mk_env P' input) odd); auto.
    - intros w Hw. pose proof (annotated_stripped P wr k n order g' input Hb Hws Hset Hne Hwd) as S.
      intros j m pos vs. rewrite <- (ref_strip j (mk_env P' input) (mk_env P input) None no_frame m w pos vs S).
      cbn [sfr]. apply Hnf. pose proof (annotated_ws P wr k n order g' Hb Hws Hset Hne) as Hw'.
      change (e_ws (mk_env P' input)) with (p_ws P') in Hw. rewrite <- Hw'. fold P'. rewrite Hw. reflexivity.
    - change (e_g (mk_env P' input)) with g'. rewrite Hg. exact Hrg.
  Qed.
End Lift.

(** ** C16.  [no_empty_recursion], [regular_alternatives], [regular_spans]: FirstSpec.v.
    [plain_text]: no overlong encodings of ASCII (all well-formed text, [utf8_plain]).
    Together with C17, since one pass attaches both; grammars with keyword guards are C26. *)
Theorem C16_first_sets_do_not_change_the_outcome_partial :
  forall (V U : Type) (P : pobj V U) wr k n order g' (input : bytes) (dt : U) md mm odd,
  core_parser md mm P -> p_word P = None -> bare_grammar (p_g P) = true -> p_ws P = ws_expr (p_g P) wr ->
  setup_first_sets k n order (p_g P) = Ok g' ->
  no_empty_recursion (p_g P) -> regular_alternatives (p_g P) (is_some (p_ws P)) odd -> regular_spans (p_g P) odd ->
  no_keyword_guard (p_g P) ->
  plain_text input -> (odd = false -> ascii_text input) ->
  pure (mk_env P input) -> (recognize_only P = true -> forall r, p_pred P r = None) ->
  settled P input ->
  same_outcome (with_grammar P g' (ws_expr g' wr)) P input dt.
Proof.
  intros V U P wr k n order g' input dt md mm odd Hc Hb Hws Hset Hne Hal Hsp Hk. intros.
  eapply (annotated_same P wr k n order g' input dt md mm odd); eauto. now apply no_guards_sound.
Qed.
Print Assumptions C16_first_sets_do_not_change_the_outcome_partial.

(** S <- T ('+' T)* !.    T <- < [0-9]+ > / '(' S ')' / 'x'    %whitespace <- [ ]*  *)
Definition g_first : grammar :=
  [plain "S" (seqs [Ref (bs "T") (Some 1) 0 false []; many (seqs [lit "+"; Ref (bs "T") (Some 1) 0 false []])]);
   plain "T" (alts [digits; seqs [lit "("; Ref (bs "S") (Some 0) 0 false []; lit ")"]; lit "x"]);
   plain "%whitespace" (many (Cls [(32, 32)%N] false false))].
Definition P_first : pobj bytes unit := sample g_first (ws_expr g_first (Some 2)) None false false.
Definition nul_first (r : rid) : bool := Nat.eqb r 2.
Definition lc_first (r r' : rid) : bool := (r =? 0) && (r' =? 1).
Definition od_first (r : rid) (w : oddity) : bool := false.
Lemma first_certified : certified g_first nul_first lc_first od_first true true true = true.
Proof. lazy. reflexivity. Qed.
Definition text_first : bytes := bs "1 +(x + 23) ".
Example C16_meets : exists g' reps res reps' res' fl f1 fs l,
  core_parser (fun _ => m_top) [m_top] P_first /\ bare_grammar (p_g P_first) = true
  /\ setup_first_sets 20 20 [0; 1; 2] (p_g P_first) = Ok g' /\ g' <> g_first
  /\ (exists d, nth_error g' 1 = Some d /\ r_body d = Some (Cho fl (f1 :: fs) l))
  /\ no_empty_recursion (p_g P_first) /\ regular_alternatives (p_g P_first) true true /\ regular_spans (p_g P_first) true
  /\ no_keyword_guard (p_g P_first) /\ plain_text text_first /\ pure (mk_env P_first text_first) /\ settled P_first text_first
  /\ parser_parse 40 P_first text_first tt = Ok (true, reps, res)
  /\ parser_parse 40 (with_grammar P_first g' (ws_expr g' (Some 2))) text_first tt = Ok (true, reps', res').
Proof.
  eexists _, _, _, _, _, _, _, _, _. split.
  { constructor; try reflexivity; [|discriminate]. split; [reflexivity|]. eexists. split; reflexivity. }
  split; [reflexivity|]. split; [vm_compute; reflexivity|]. split; [discriminate|].
  split; [eexists; split; reflexivity|].
  pose proof first_certified as H.
  split; [exact (certified_no_empty_recursion _ _ _ _ _ _ _ H)|]. split; [exact (certified_alternatives _ _ _ _ _ _ _ H)|].
  split; [exact (certified_spans _ _ _ _ _ _ _ H)|]. split; [exact (certified_guards _ _ _ _ _ _ _ H eq_refl)|].
  split. { apply utf8_plain. exists (map bN text_first). split; [|reflexivity]. unfold text_first. cbn. repeat constructor; lia. }
  split. { constructor; cbn; [|discriminate|discriminate]. intros r f inp vs u u' pd Hq. inv Hq. reflexivity. }
  split; [eexists 30, _; vm_compute; reflexivity|]. split; vm_compute; reflexivity.
Qed.

(** Without [no_empty_recursion]:  S <- A 'z' / 'q'   A <- A 'x' / ''  accepts "xz",
    but not once first bytes are used: x is missing from the first bytes of A. *)
Definition g_empty_rec : grammar :=
  [plain "S" (alts [seqs [Ref (bs "A") (Some 1) 0 false []; lit "z"]; lit "q"]);
   {| r_name := bs "A"; r_body := Some (alts [seqs [Ref (bs "A") (Some 1) 0 false []; lit "x"]; lit ""]); r_ignore := false; r_is_macro := false; r_params := [];
      r_disable_action := false; r_lr := true; r_can_be_empty := true; r_macro_ref := false;
      r_error_message := []; r_no_ast_opt := false; r_no_whitespace := false; r_ast_name := bs "A" |}].
Theorem C16_empty_recursion_refuted : exists g' reps res reps' res',
  let P := sample g_empty_rec None None false false in
  setup_first_sets 20 20 [0; 1] g_empty_rec = Ok g' /\ settled P (bs "xz")
  /\ parser_parse 40 P (bs "xz") tt = Ok (true, reps, res)
  /\ parser_parse 40 (with_grammar P g' None) (bs "xz") tt = Ok (false, reps', res').
Proof.
  eexists _, _, _, _, _. cbv zeta. split; [vm_compute; reflexivity|]. split; [eexists 30, _; vm_compute; reflexivity|].
  split; vm_compute; reflexivity.
Qed.
(** An alternative that begins with a possibly empty token is followed by white space
    even when the token is empty:  S <- [a] T    T <- < 'b'* > 'x' / 'y'
    %whitespace <- [ ]*  accepts "a x", but not once first bytes are used. *)
Definition g_gap : grammar :=
  [plain "S" (seqs [Cls [(97, 97)%N] false false; Ref (bs "T") (Some 1) 0 false []]);
   plain "T" (alts [seqs [Tok (many (lit "b")); lit "x"]; lit "y"]);
   plain "%whitespace" (many (Cls [(32, 32)%N] false false))].
Theorem C16_empty_token_refuted : exists g' reps res reps' res',
  let P := sample g_gap (ws_expr g_gap (Some 2)) None false false in
  setup_first_sets 20 20 [0; 1; 2] g_gap = Ok g' /\ settled P (bs "a x")
  /\ parser_parse 40 P (bs "a x") tt = Ok (true, reps, res)
  /\ parser_parse 40 (with_grammar P g' (ws_expr g' (Some 2))) (bs "a x") tt = Ok (false, reps', res').
Proof.
  eexists _, _, _, _, _. cbv zeta. split; [vm_compute; reflexivity|]. split; [eexists 30, _; vm_compute; reflexivity|].
  split; vm_compute; reflexivity.
Qed.

(** ** C17.  [s] is the byte set CharacterClass::setup_ascii_bitset computes; the same
    expression, evaluated by the scan and by the general loop, at any position, in any
    state.  [odd = false]: the text is ASCII. *)
Theorem C17_scan_is_the_loop :
  forall (V U : Type) (E : env V U) rs ic s odd fuel mn mx pos vs c,
  ascii_bitset rs false ic = Some s ->
  plain_text (e_input E) -> (odd = false -> ascii_text (e_input E)) ->
  (ic = true -> class_exact rs /\ ascii_text (e_input E)) ->
  (odd = true -> forall lo hi, In (lo, hi) rs -> lo <> 0%N) ->
  (forall q, mx = Some q -> mn <= q) -> pos <= inlen E -> inlen E - pos + 2 <= fuel ->
  exists r c1 c2, parse fuel E (Rep (Cls rs false ic) mn mx None) pos vs c = Ok (r, vs, c1)
    /\ parse fuel E (Rep (Cls rs false ic) mn mx (Some s)) pos vs c = Ok (r, vs, c2).
Proof.
  intros V U E rs ic s odd fuel mn mx pos vs c Hs Hp Ho Hic Hn. apply (span_run_total E rs ic s odd); auto; intros Hi; now apply Hic.
Qed.
Print Assumptions C17_scan_is_the_loop.
Example C17_meets :
  let E := E_of P_first "ab12" in
  exists s c1 c2, ascii_bitset [(97, 122)%N] false false = Some s /\ valid_utf8 (e_input E)
  /\ parse 6 E (Rep (Cls [(97, 122)%N] false false) 1 None None) 0 sv_new (c_of P_first) = Ok (Some 2, sv_new, c1)
  /\ parse 6 E (Rep (Cls [(97, 122)%N] false false) 1 None (Some s)) 0 sv_new (c_of P_first) = Ok (Some 2, sv_new, c2).
Proof.
  eexists _, _, _. split; [vm_compute; reflexivity|]. split.
  { exists [97; 98; 49; 50]%N. split; [repeat constructor; lia|reflexivity]. }
  split; vm_compute; reflexivity.
Qed.
(** Overlong encodings: C1 A1 decodes to 'a', so [a-z] takes both bytes; the scan takes none. *)
Theorem C17_overlong_refuted :
  let E := mk_env P_first [xc1; xa1] in
  exists s c1 c2, ascii_bitset [(97, 122)%N] false false = Some s
  /\ parse 6 E (Rep (Cls [(97, 122)%N] false false) 1 None None) 0 sv_new (c_of P_first) = Ok (Some 2, sv_new, c1)
  /\ parse 6 E (Rep (Cls [(97, 122)%N] false false) 1 None (Some s)) 0 sv_new (c_of P_first) = Ok (None, sv_new, c2).
Proof. eexists _, _, _. split; [vm_compute; reflexivity|]. split; vm_compute; reflexivity. Qed.
(** [A-z]i: the scan accepts the underscore, the general loop does not. *)
Theorem C17_ignore_case_range_refuted :
  let E := E_of P_first "_" in
  exists s c1 c2, ascii_bitset [(65, 122)%N] false true = Some s
  /\ parse 6 E (Rep (Cls [(65, 122)%N] false true) 1 None None) 0 sv_new (c_of P_first) = Ok (None, sv_new, c1)
  /\ parse 6 E (Rep (Cls [(65, 122)%N] false true) 1 None (Some s)) 0 sv_new (c_of P_first) = Ok (Some 1, sv_new, c2).
Proof. eexists _, _, _. split; [vm_compute; reflexivity|]. split; vm_compute; reflexivity. Qed.
(** {3,2}: the general loop takes three, the scan at most two and then fails. *)
Theorem C17_inverted_bounds_refuted :
  let E := E_of P_first "aaa" in
  exists s c1 c2, ascii_bitset [(97, 122)%N] false false = Some s
  /\ parse 6 E (Rep (Cls [(97, 122)%N] false false) 3 (Some 2) None) 0 sv_new (c_of P_first) = Ok (Some 3, sv_new, c1)
  /\ parse 6 E (Rep (Cls [(97, 122)%N] false false) 3 (Some 2) (Some s)) 0 sv_new (c_of P_first) = Ok (None, sv_new, c2).
Proof. eexists _, _, _. split; [vm_compute; reflexivity|]. split; vm_compute; reflexivity. Qed.

(** ** C26.  [regular_guards]: KeywordSpec.v; in particular no keyword is a proper prefix of
    an identifier of the text, and white space cannot fail. *)
Theorem C26_keyword_guard_does_not_change_the_outcome_partial :
  forall (V U : Type) (P : pobj V U) wr k n order g' (input : bytes) (dt : U) md mm odd,
  core_parser md mm P -> p_word P = None -> bare_grammar (p_g P) = true -> p_ws P = ws_expr (p_g P) wr ->
  setup_first_sets k n order (p_g P) = Ok g' ->
  no_empty_recursion (p_g P) -> regular_alternatives (p_g P) (is_some (p_ws P)) odd -> regular_spans (p_g P) odd ->
  (forall w, p_ws P = Some w -> never_fails (mk_env P input) w) ->
  regular_guards (p_g P) (fun r => is_some (p_pred P r)) odd input ->
  plain_text input -> (odd = false -> ascii_text input) ->
  pure (mk_env P input) -> (recognize_only P = true -> forall r, p_pred P r = None) ->
  settled P input ->
  same_outcome (with_grammar P g' (ws_expr g' wr)) P input dt.
Proof. exact @annotated_guarded. Qed.
Print Assumptions C26_keyword_guard_does_not_change_the_outcome_partial.

(** S <- Id+    Id <- !K < [a-z] [a-z0-9]* >    K <- 'if'i / 'end'i 'if'i    %whitespace <- [ ]*  *)
Definition kw_lit (s : string) : ope := Lit (bs s) true.
Definition id_tok : ope := Tok (seqs [Cls [(97, 122)%N] false false; many (Cls [(48, 57); (97, 122)]%N false false)]).
Definition id_seq : ope := seqs [Not (Ref (bs "K") (Some 2) 0 false []); id_tok].
Definition g_kw : grammar :=
  [plain "S" (Rep (Ref (bs "Id") (Some 1) 0 false []) 1 None None);
   plain "Id" id_seq;
   plain "K" (alts [kw_lit "if"; seqs [kw_lit "end"; kw_lit "if"]]);
   plain "%whitespace" (many (Cls [(32, 32)%N] false false))].
Definition P_kw : pobj bytes unit := sample g_kw (ws_expr g_kw (Some 3)) None false false.
Lemma kw_certified : certified g_kw (fun r => r =? 3) (fun r r' => (r =? 0) && (r' =? 1) || (r =? 0) && (r' =? 2) || (r =? 1) && (r' =? 2)) (fun _ _ => false) true true false = true.
Proof. lazy. reflexivity. Qed.
Definition text_kw : bytes := bs "fi x1 ".
Lemma kw_regular : regular_guards g_kw (fun _ => false) true text_kw.
Proof.
  intros r0 d0 b0 kg nm r ia m args kg2 rs1 n1 ic1 rs2 n2 ic2 mn mx sp d fl fs alts [H0 Hb0] Hs [Hd Hb] _.
  assert (Hr : r0 = 1).
  { destruct r0 as [|[|[|[|r0]]]]; cbn in H0; [inv H0; cbn in Hb0; inv Hb0|reflexivity|inv H0; cbn in Hb0; inv Hb0|inv H0; cbn in Hb0; inv Hb0|destruct r0; discriminate H0]; exfalso; cbn in Hs; intuition discriminate. }
  subst r0. inv H0. cbn in Hb0. inv Hb0. cbn in Hs. destruct Hs as [Hs|Hs]; [|exfalso; intuition discriminate].
  inv Hs. inv Hd. cbn in Hb. inv Hb. split; [reflexivity|]. split; [reflexivity|]. split; [reflexivity|]. split; [reflexivity|]. split; [reflexivity|].
  split; [discriminate|]. split; [discriminate|]. split.
  { intros _ lo hi [[E|[]]|[E|[E|[]]]]; inv E; discriminate. }
  intros pos n w _ Hk Ht. exfalso. unfold text_at in Ht.
  assert (Hw : w = bs "if" \/ w = bs "end").
  { destruct Hk as [[H|[H|[]]]|(kg0 & l0 & [H|[H|[]]])]; inv H; auto. }
  destruct Hw as [-> | ->]; revert Ht; do 8 (destruct pos as [|pos]; [vm_compute; discriminate|]); unfold sub, text_kw; rewrite skipn_all2 by (cbn; lia); discriminate.
Qed.
(** White space of the usual form, (...)*, cannot fail. *)
Lemma star_never_fails {V U} (E : env V U) e : never_fails E (Wsp (Ign (many e))).
Proof.
  assert (Hm : forall f run room pos i vs, @ref_more V f run room pos i vs <> Some None).
  { induction f as [|f IH]; intros run room pos i vs; cbn [ref_more]; (destruct room as [[|q]|]; [discriminate| |]); try discriminate.
    all: destruct (run (pos + i) vs) as [[[q' v']|]|]; cbn [obind]; try discriminate; apply IH. }
  assert (Hr : forall k m pos vs, ref k E None no_frame m (many e) pos vs <> Some None).
  { intros [|k] m pos vs; [discriminate|]. cbn [ref ref_core many]. unfold ref_rep. cbn [ref_min obind]. apply Hm. }
  assert (Hi : forall k m pos vs, ref k E None no_frame m (Ign (many e)) pos vs <> Some None).
  { intros [|k] m pos vs; [discriminate|]. cbn [ref ref_core]. pose proof (Hr k m pos sv_new) as X.
    destruct (ref k E None no_frame m (many e) pos sv_new) as [[[q v]|]|]; cbn; [discriminate|intros _; apply X; reflexivity|discriminate]. }
  intros [|k] m pos vs; [discriminate|]. cbn [ref ref_core]. destruct (m_ws m); [discriminate|]. apply Hi.
Qed.
Example C26_meets : exists g' reps res reps' res' kw l,
  core_parser (fun _ => m_top) [m_top] P_kw /\ bare_grammar (p_g P_kw) = true
  /\ setup_first_sets 20 20 [0; 1; 2; 3] (p_g P_kw) = Ok g'
  /\ (exists d, nth_error g' 1 = Some d /\ r_body d = Some (Seq (Some kw) l))
  /\ no_empty_recursion (p_g P_kw) /\ regular_alternatives (p_g P_kw) true true /\ regular_spans (p_g P_kw) true
  /\ (forall w, p_ws P_kw = Some w -> never_fails (mk_env P_kw text_kw) w)
  /\ regular_guards (p_g P_kw) (fun r => is_some (p_pred P_kw r)) true text_kw
  /\ plain_text text_kw /\ pure (mk_env P_kw text_kw) /\ settled P_kw text_kw
  /\ parser_parse 40 P_kw text_kw tt = Ok (true, reps, res)
  /\ parser_parse 40 (with_grammar P_kw g' (ws_expr g' (Some 3))) text_kw tt = Ok (true, reps', res').
Proof.
  eexists _, _, _, _, _, _, _. split.
  { constructor; try reflexivity; [|discriminate]. split; [reflexivity|]. eexists. split; reflexivity. }
  split; [reflexivity|]. split; [vm_compute; reflexivity|]. split; [eexists; split; reflexivity|].
  pose proof kw_certified as H.
  split; [exact (certified_no_empty_recursion _ _ _ _ _ _ _ H)|]. split; [exact (certified_alternatives _ _ _ _ _ _ _ H)|].
  split; [exact (certified_spans _ _ _ _ _ _ _ H)|].
  split. { intros w Hw. inv Hw. apply star_never_fails. }
  split; [exact kw_regular|].
  split. { apply utf8_plain. exists (map bN text_kw). split; [|reflexivity]. unfold text_kw. cbn. repeat constructor; lia. }
  split. { constructor; cbn; [|discriminate|discriminate]. intros r f inp vs u u' pd Hq. inv Hq. reflexivity. }
  split; [eexists 30, _; vm_compute; reflexivity|]. split; vm_compute; reflexivity.
Qed.
(** A keyword that is a proper prefix of the identifier: "iffy" is rejected by the sequence
    (the predicate sees the keyword "if") and accepted by the guard. *)
Theorem C26_keyword_prefix_refuted : exists g' reps res reps' res',
  setup_first_sets 20 20 [0; 1; 2; 3] g_kw = Ok g' /\ settled P_kw (bs "iffy")
  /\ parser_parse 40 P_kw (bs "iffy") tt = Ok (false, reps, res)
  /\ parser_parse 40 (with_grammar P_kw g' (ws_expr g' (Some 3))) (bs "iffy") tt = Ok (true, reps', res').
Proof.
  eexists _, _, _, _, _. split; [vm_compute; reflexivity|]. split; [eexists 30, _; vm_compute; reflexivity|].
  split; vm_compute; reflexivity.
Qed.
