(** * Error reports (C30). *)
From Verif Require Import Base BaseLemmas Utf8 Utf8Spec Utf8Proofs Escape TrieM LineInfo LineSpec LineProofs Ope Ctx ErrLog Engine EngineLemmas Top Frame Scope Bounds TopFacts TopRef
  ReportSpec ReportFacts Samples.

(** ** C30.  Every report made during or at the end of any parse points into the text,
    carries the line and column of that position (C08), and quotes a token of at most
    128 bytes that is literally in the text at that position (shown escaped). *)
Theorem C30_reports_point_into_the_text :
  forall (V U : Type) (fuel : nat) (P : pobj V U) (input : bytes) (dt : U) b reps r rp,
  wfE (mk_env P input) -> parser_parse fuel P input dt = Ok (b, reps, r) -> In rp reps ->
  rp_position rp <= List.length input
  /\ line_info input (rp_position rp) = Ok (rp_line rp, rp_col rp)
  /\ exists raw, token_bytes input (rp_position rp) raw /\ (rp_unexpected rp = escape_characters raw \/ rp_unexpected rp = []).
Proof.
  intros V U fuel P input dt b reps r rp HE H Hin. pose proof (parser_reports fuel P input dt b reps r HE H) as X.
  rewrite Forall_forall in X. exact (report_contents _ _ _ (X rp Hin)).
Qed.
Print Assumptions C30_reports_point_into_the_text.
(** On well-formed text it is the whole token at that position, up to 32 characters. *)
Theorem C30_token_is_whole_up_to_32_characters :
  forall (V U : Type) (fuel : nat) (P : pobj V U) (input : bytes) (dt : U) b reps r rp,
  wfE (mk_env P input) -> parser_parse fuel P input dt = Ok (b, reps, r) -> In rp reps ->
  valid_utf8 (skipn (rp_position rp) input) -> rp_unexpected rp <> [] ->
  exists run raw, token_run_at input (rp_position rp) run /\ first_32 run raw /\ rp_unexpected rp = escape_characters raw.
Proof.
  intros V U fuel P input dt b reps r rp HE H Hin. pose proof (parser_reports fuel P input dt b reps r HE H) as X.
  rewrite Forall_forall in X. exact (report_valid _ _ _ (X rp Hin)).
Qed.
Print Assumptions C30_token_is_whole_up_to_32_characters.

(** The custom message of a failed parse, when there is something at its position: the
    text logged is the message with the placeholders filled in.  Messages with a double
    percent sign and percent signs in the text are excluded: see below. *)
Theorem C30_placeholders_are_replaced :
  forall (V U : Type) (fuel : nat) (P : pobj V U) (input : bytes) (dt : U) b reps r p,
  p_log P = true -> parser_parse fuel P input dt = Ok (b, reps, r) -> rs_ret r = false ->
  ei_mpos (rs_err r) = Some p -> (forall q, ei_last (rs_err r) = Some q -> q < p) ->
  exists l rp, reps = l ++ [rp] /\ rp_position rp = p
    /\ (rp_unexpected rp = [] -> rp_text rp = ei_msg (rs_err r))
    /\ (rp_unexpected rp <> [] -> ~ In x25 (rp_unexpected rp) -> (forall x y, ei_msg (rs_err r) <> x ++ bs "%%" ++ y) ->
        exists n, codepoint_length (rp_unexpected rp) (List.length (rp_unexpected rp)) = Ok n
        /\ filled_in (rp_unexpected rp) (firstn n (rp_unexpected rp)) (ei_msg (rs_err r)) (rp_text rp)).
Proof.
  intros V U fuel P input dt b reps r p Hl H Hr Hm Hlast. unfold parser_parse in H. binv H. binv H. inv H.
  rewrite Hl, Hr in Hm1. cbn in Hm1. binv Hm1. inv Hm1.
  unfold output_log in Hm2. rewrite Hm in Hm2.
  replace (olt (ei_last (rs_err r)) p) with true in Hm2
    by (symmetry; destruct (ei_last (rs_err r)) as [q|]; [apply Nat.ltb_lt; now apply Hlast|reflexivity]).
  cbv zeta in Hm2. binv Hm2. binv Hm2. match goal with H : heuristic_error_token _ _ = Ok ?t |- _ => rename t into tok end. binv Hm2. inv Hm2.
  eexists _, _. split; [reflexivity|]. cbn. split; [reflexivity|]. destruct tok as [|b0 tok].
  - match goal with H : Ok _ = Ok _ |- _ => inv H end. split; [reflexivity|congruence].
  - split; [discriminate|]. intros _ H1 H2. match goal with H : bind (codepoint_length _ _) _ = Ok _ |- _ => binv H; inv H end.
    eexists. split; [eassumption|]. apply message_filled; [exact H1|]. intros x y Hx. exact (H2 x y Hx).
Qed.
Print Assumptions C30_placeholders_are_replaced.

(** S <- 'a' { error_message "%t? (%c)" }  *)
Definition with_message (msg : string) (d : rule) : rule :=
  {| r_name := r_name d; r_body := r_body d; r_ignore := r_ignore d; r_is_macro := r_is_macro d; r_params := r_params d;
     r_disable_action := r_disable_action d; r_lr := r_lr d; r_can_be_empty := r_can_be_empty d; r_macro_ref := r_macro_ref d;
     r_error_message := bs msg; r_no_ast_opt := r_no_ast_opt d; r_no_whitespace := r_no_whitespace d; r_ast_name := r_ast_name d |}.
Definition P_message (msg : string) : pobj bytes unit := sample [with_message msg (plain "S" (lit "a"))] None None true false.
Example C30_meets : exists reps r rp,
  wfE (mk_env (P_message "%t? (%c)") (bs "xyz!")) /\ parser_parse 20 (P_message "%t? (%c)") (bs "xyz!") tt = Ok (false, reps, r)
  /\ rs_ret r = false /\ ei_mpos (rs_err r) = Some 0 /\ ei_last (rs_err r) = None
  /\ reps = [rp] /\ rp_unexpected rp = bs "xyz" /\ rp_text rp = bs "xyz? (x)" /\ valid_utf8 (skipn (rp_position rp) (bs "xyz!")).
Proof.
  eexists _, _, _. split; [constructor; cbn; discriminate|]. split; [vm_compute; reflexivity|]. do 3 (split; [reflexivity|]).
  do 3 (split; [reflexivity|]). exists [120; 121; 122; 33]%N. split; [repeat constructor; lia|reflexivity].
Qed.
(** At the end of the text nothing is replaced: the user sees the placeholders. *)
Theorem C30_end_of_text_refuted : exists reps r rp,
  parser_parse 20 (P_message "%t? (%c)") [] tt = Ok (false, reps, r) /\ reps = [rp] /\ rp_text rp = bs "%t? (%c)".
Proof. eexists _, _, _. split; [vm_compute; reflexivity|]. split; reflexivity. Qed.
(** The second replacement also sees what the first one inserted: with the message "%tc"
    (the token, then a letter c) a percent sign in the text swallows the c. *)
Theorem C30_percent_in_text_refuted : exists reps r rp,
  parser_parse 20 (P_message "%tc") (bs "%") tt = Ok (false, reps, r) /\ reps = [rp] /\ rp_text rp = bs "%"
  /\ ~ filled_in (bs "%") (bs "%") (bs "%tc") (rp_text rp).
Proof.
  eexists _, _, _. split; [vm_compute; reflexivity|]. split; [reflexivity|]. split; [reflexivity|]. cbn [rp_text]. intros H.
  inversion H; subst.
  - match goal with K : filled_in _ _ [x63] _ |- _ => inversion K end.
  - match goal with K : forall r, _ /\ _ |- _ => destruct (K [x63]) as [X _]; apply X; reflexivity end.
Qed.
(** %c of an escaped character is the backslash. *)
Theorem C30_escaped_character_refuted : exists reps r rp,
  parser_parse 20 (P_message "%c") [x0a] tt = Ok (false, reps, r) /\ reps = [rp] /\ rp_text rp = [x5c].
Proof. eexists _, _, _. split; [vm_compute; reflexivity|]. split; reflexivity. Qed.

(** ** C47.  A literal that is not there, tried at or beyond every failure so far while a
    log is kept, is listed as expected, with the outermost token rule being parsed or else
    the innermost rule; what was listed before stays only if it belongs to the same
    position, and does stay while alternatives of one choice are tried. *)
From Verif Require Import Expected.
Theorem C47_expected_literal : forall (V U : Type) (fuel : nat) (E : env V U) s pos vs c r vs' c',
  wfE E -> pos <= List.length (e_input E) -> e_tracer E = false ->
  parse (S fuel) E (Lit s false) pos vs c = Ok (r, vs', c') -> c_log c = true ->
  ~ (exists rest, skipn pos (e_input E) = s ++ rest) ->
  (forall p, ei_pos (c_err c) = Some p -> p <= pos) ->
  r = None /\ ei_pos (c_err c') = Some pos
  /\ (exists q, In (Some s, q) (ei_exp (c_err c')) /\ attributed (e_g E) (rev (c_rstk c)) q)
  /\ (forall x, In x (ei_exp (c_err c')) -> fst x = Some s \/ (ei_pos (c_err c) = Some pos /\ In x (ei_exp (c_err c))))
  /\ (ei_keep (c_err c) = true -> ei_pos (c_err c) = Some pos -> forall x, In x (ei_exp (c_err c)) -> In x (ei_exp (c_err c'))).
Proof. exact @literal_listed. Qed.
Print Assumptions C47_expected_literal.
(** A case: S <- 'a' 'x' / 'a' 'y' / 'a' T, T <- 'y' on the text az: the expected tokens are
    'x', 'y' on behalf of S and 'y' on behalf of T. *)
Definition listed_g : grammar := [plain "S" (alts [seqs [lit "a"; lit "x"]; seqs [lit "a"; lit "y"]; seqs [lit "a"; Ref (bs "T") (Some 1) 0 false []]]); plain "T" (lit "y")].
Example C47_meets : exists r, def_parse 30 (sample listed_g None None true false) (bs "az") tt = Ok r
  /\ ei_pos (rs_err r) = Some 1 /\ ei_exp (rs_err r) = [(Some (bs "x"), Some 0); (Some (bs "y"), Some 0); (Some (bs "y"), Some 1)].
Proof. eexists. split; [vm_compute; reflexivity|]. split; reflexivity. Qed.
