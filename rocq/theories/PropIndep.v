(** * C29 (untraced), C38, C39, C43, C44: what does not influence a parse. *)
From Verif Require Import Base BaseLemmas Utf8 Escape TrieM LineInfo Ope Ctx ErrLog Engine EngineLemmas Frame Scope Bounds EventSpec Events TopFacts Top Samples IndepSpec Sim SimTop Indep PackratFilter SessionM Session.

(** ** C38.  Whatever tracers are attached, and verbose or not, the caller sees the
    same: result, reports, error record, value, user data; and a parse that never
    returns or fails does so with every setting ([view] covers failures as well). *)
Theorem C38_tracing_changes_nothing :
  forall (V U : Type) (fuel : nat) (P : pobj V U) (t v t' v' : bool) (input : bytes) (dt : U),
  macro_marks (p_g P) -> plain_ws (p_g P) (p_ws P) ->
  view (parser_parse fuel (with_trace t v P) input dt) = view (parser_parse fuel (with_trace t' v' P) input dt).
Proof. intros. now apply trace_independent. Qed.
Print Assumptions C38_tracing_changes_nothing.

(** With a log callback the same text matches, the same amount is consumed and the
    same value is produced; only the logging itself can fail. *)
Theorem C38_logging_changes_nothing :
  forall (V U : Type) (fuel : nat) (P : pobj V U) (input : bytes) (dt : U),
  macro_marks (p_g P) -> plain_ws (p_g P) (p_ws P) ->
  (forall x, parser_parse fuel (with_log true P) input dt = Ok x ->
     exists y, parser_parse fuel (with_log false P) input dt = Ok y /\ matched x = matched y) /\
  (forall y, parser_parse fuel (with_log false P) input dt = Ok y ->
     (exists x, parser_parse fuel (with_log true P) input dt = Ok x /\ matched x = matched y) \/
     (exists u, parser_parse fuel (with_log true P) input dt = UB u) \/
     (exists e, parser_parse fuel (with_log true P) input dt = Throw e)).
Proof.
  intros V U fuel P input dt Hm Hw. pose proof (log_independent fuel P input dt Hm Hw) as H. split.
  - intros x Hx. rewrite Hx in H. inversion H; subst. eauto.
  - intros y Hy. rewrite Hy in H. inversion H; subst; eauto.
Qed.
Print Assumptions C38_logging_changes_nothing.

(** The marks the two theorems rely on are right whatever was parsed before. *)
Theorem C38_marks_hold :
  forall (V U : Type) (g : grammar) (cfg : rid -> pobj V U) (sig : ope -> ope -> bool) (starts : list rid),
  (forall r d b, nth_error g r = Some d -> r_body d = Some b -> uses_param b = true -> r_is_macro d = true) ->
  macro_marks (marked (s_mark (after g cfg sig sess0 starts)) g).
Proof. intros. now apply marks_ok. Qed.
Print Assumptions C38_marks_hold.

(** S <- 'a' 'b' / M(A); M(x) <- x 'c'; A <- 'a', with %whitespace. *)
Definition macro1 (name : string) (p : string) (body : ope) : rule :=
  {| r_name := bs name; r_body := Some body; r_ignore := false; r_is_macro := true; r_params := [bs p];
     r_disable_action := false; r_lr := false; r_can_be_empty := false; r_macro_ref := false;
     r_error_message := []; r_no_ast_opt := false; r_no_whitespace := false; r_ast_name := bs name |}.
Definition marks (b : bool) (d : rule) : rule := with_mark b d.
Definition g_macro : grammar :=
  [marks true (plain "S" (alts [seqs [lit "a"; lit "b"]; Ref (bs "M") (Some 1) 0 true [Ref (bs "A") (Some 2) 0 false []]]));
   macro1 "M" "x" (seqs [Ref (bs "x") None 0 false []; lit "c"]);
   plain "A" (lit "a")].
Definition ws_blank : ope := Wsp (many (lit " ")).
Lemma g_macro_marks : macro_marks g_macro.
Proof.
  intros r d b Hd Hb. destruct r as [|[|[|r]]]; [| | |destruct r; discriminate];
    injection Hd as <-; injection Hb as <-; cbn; auto.
Qed.
Lemma ws_blank_plain : plain_ws g_macro (Some ws_blank).
Proof. intros w [= <-]. split; reflexivity. Qed.
Example C38_tracing_meets : exists x y,
  parser_parse 30 (with_trace true true (sample g_macro (Some ws_blank) None true false)) (bs "a c") tt = Ok x /\
  parser_parse 30 (with_trace false false (sample g_macro (Some ws_blank) None true false)) (bs "a c") tt = Ok y /\
  rs_evs (snd x) <> [] /\ rs_evs (snd y) = [] /\ fst (fst x) = true /\ result_value (snd x) = Some (bs "a c").
Proof. do 2 eexists. split; [vm_compute; reflexivity|]. split; [vm_compute; reflexivity|]. repeat split; discriminate. Qed.

(** Without the condition on %whitespace the claim is false: a %whitespace rule that
    calls a macro works while tracing and reads an empty stack otherwise. *)
Definition g_wsmacro : grammar := [plain "S" (seqs [lit "a"; lit "b"]); macro1 "M" "x" (Ref (bs "x") None 0 false [])].
Definition ws_macro : ope := Wsp (many (alts [lit " "; seqs [lit "#"; Ref (bs "M") (Some 1) 0 true [lit "z"]]])).
Theorem C38_tracing_refuted :
  macro_marks g_wsmacro /\
  (exists x, parser_parse 30 (with_trace true true (sample g_wsmacro (Some ws_macro) None false false)) (bs "a #zb") tt = Ok x /\ fst (fst x) = true) /\
  parser_parse 30 (with_trace false false (sample g_wsmacro (Some ws_macro) None false false)) (bs "a #zb") tt = UB EmptyVector.
Proof.
  split.
  { intros r d b Hd Hb. destruct r as [|[|r]]; [| |destruct r; discriminate]; injection Hd as <-; injection Hb as <-; cbn; auto. }
  split; [eexists; split; vm_compute; reflexivity|]. vm_compute. reflexivity.
Qed.
Print Assumptions C38_tracing_refuted.

(** ** C29 without tracers: the error record is the one a traced run of the same
    parse reports, so it too is the farthest failure of that run. *)
Theorem C29_untraced_farthest_failure :
  forall (V U : Type) (fuel : nat) (P : pobj V U) (input : bytes) (dt : U) b reps r,
  macro_marks (p_g P) -> plain_ws (p_g P) (p_ws P) -> p_log P = true ->
  wfE (mk_env (with_trace true true P) input) -> norcv_grammar P ->
  parser_parse fuel P input dt = Ok (b, reps, r) ->
  exists r', def_parse fuel (with_trace true true P) input dt = Ok r' /\ rs_err r' = rs_err r /\
  match ei_pos (rs_err r) with
  | Some q => q <= List.length input
      /\ (forall e p, In e (rs_evs r') -> failure input e p -> p <= q)
      /\ (exists e, In e (rs_evs r') /\ blamed e q)
  | None => forall e p, In e (rs_evs r') -> ~ failure input e p
  end.
Proof.
  intros V U fuel P input dt b reps r Hm Hw Hl HE Hn H.
  assert (Hv : view (parser_parse fuel P input dt) = view (parser_parse fuel (with_trace true true P) input dt)).
  { destruct P. exact (trace_canonical fuel _ p_tracer p_verbose input dt Hm Hw). }
  rewrite H in Hv. unfold view in Hv. cbn [bind seen] in Hv.
  destruct (parser_parse fuel (with_trace true true P) input dt) as [[[b' reps'] r']| | |] eqn:Ht; cbn [bind seen] in Hv; try discriminate.
  injection Hv as _ _ _ _ _ He _ _. exists r'.
  assert (Hd : def_parse fuel (with_trace true true P) input dt = Ok r').
  { unfold parser_parse in Ht. destruct (def_parse fuel (with_trace true true P) input dt) as [r0| | |]; cbn [bind] in Ht; try discriminate.
    destruct (p_log (with_trace true true P) && negb (rs_ret r0)).
    - destruct (output_log _ _ _) as [[e rp]| | |]; cbn [bind] in Ht; try discriminate. now inversion Ht.
    - cbn [bind] in Ht. now inversion Ht. }
  split; [assumption|]. split; [now rewrite He|].
  rewrite He. apply (farthest_failure fuel (with_trace true true P) input dt r'); auto.
Qed.
Print Assumptions C29_untraced_farthest_failure.

(** ** C43.  Rules that cannot be reached from the start rule, %whitespace or %word do
    not influence a parse: they may be changed, added at the end, removed there, or
    given other actions. *)
Theorem C43_unreachable_rules_are_irrelevant :
  forall (V U : Type) (fuel : nat) (P Q : pobj V U) (input : bytes) (dt : U),
  same_reachable P Q -> names_reachable (p_g P) (p_start P) (p_ws P) (p_word P) ->
  view (parser_parse fuel P input dt) = view (parser_parse fuel Q input dt).
Proof. intros. now apply unreachable_irrelevant. Qed.
Print Assumptions C43_unreachable_rules_are_irrelevant.
(** The scan of a parse (peglib.h 4342-4368) finds exactly the rules that can be
    reached. *)
Theorem C43_scan_is_reachability :
  forall g start ws word r,
  In r (id_list (definition_ids g start ws word)) <-> reachable g start ws word r.
Proof. intros. split; [apply ids_reachable|apply reachable_ids]. Qed.
Print Assumptions C43_scan_is_reachability.
Lemma reach_inv g start ws word r : reachable g start ws word r ->
  r = start \/ (exists w, ws = Some w /\ mentions w r) \/ (exists w, word = Some w /\ mentions w r) \/
  exists q d b, reachable g start ws word q /\ nth_error g q = Some d /\ r_body d = Some b /\ mentions b r.
Proof. intros H. destruct H; eauto 12. Qed.
Example C43_meets :
  let P := sample (g_macro ++ [plain "Z" (lit "z")]) (Some ws_blank) None true false in
  let Q := sample g_macro (Some ws_blank) None true false in
  same_reachable P Q /\ names_reachable (p_g P) (p_start P) (p_ws P) (p_word P) /\ p_g P <> p_g Q.
Proof.
  assert (Hr : forall r, reachable (g_macro ++ [plain "Z" (lit "z")]) 0 (Some ws_blank) None r -> r < 3).
  { intros r Hr. apply reachable_ids in Hr. vm_compute in Hr. repeat destruct Hr as [<- | Hr]; try lia. }
  split; [|split; [|discriminate]].
  - constructor; try reflexivity. cbn [p_g p_start p_ws p_word sample]. intros r H. specialize (Hr r H).
    destruct r as [|[|[|r]]]; [repeat split| repeat split|repeat split|lia].
  - split; cbn [p_g p_start p_ws p_word sample].
    + intros w [[= <-] | [=]]. constructor.
    + intros r d b H Hd Hb. specialize (Hr r H). destruct r as [|[|[|r]]]; [| | |lia]; cbn in Hd; inversion Hd; subst; cbn in Hb; inversion Hb; subst; cbn.
      * constructor; [|constructor]. apply ids_reachable. vm_compute. auto.
      * constructor.
      * constructor.
Qed.

(** ** C44.  Semantic actions, enter and leave handlers, and the values they produce,
    cannot influence what is matched, consumed or reported -- provided that predicates
    and custom parsers do not look at the values.  Actions may even produce values of
    another type. *)
Theorem C44_actions_do_not_influence_matching :
  forall (V1 U1 V2 U2 : Type) (fuel : nat) (P : pobj V1 U1) (Q : pobj V2 U2) (input : bytes) (dt1 : U1) (dt2 : U2),
  macro_marks (p_g P) -> plain_ws (p_g P) (p_ws P) -> same_but_actions P Q ->
  outer_view (parser_parse fuel P input dt1) = outer_view (parser_parse fuel Q input dt2).
Proof. intros. now apply actions_irrelevant. Qed.
Print Assumptions C44_actions_do_not_influence_matching.
Definition silent (P : pobj bytes unit) : pobj unit unit :=
  {| p_g := p_g P; p_start := p_start P; p_ws := p_ws P; p_word := p_word P; p_packrat := p_packrat P;
     p_slot := p_slot P; p_cached := p_cached P; p_eoi := p_eoi P; p_tracer := false; p_verbose := false; p_log := p_log P;
     p_u0 := tt; p_action := fun _ => None; p_pred := fun _ => None; p_enter := fun _ => None; p_leave := fun _ => None;
     p_user := fun _ _ _ vs u => (None, vs, u) |}.
Example C44_meets :
  let P := sample g_macro (Some ws_blank) None false false in
  macro_marks (p_g P) /\ plain_ws (p_g P) (p_ws P) /\ same_but_actions P (silent P) /\
  recognize_only P = false /\ recognize_only (silent P) = true /\
  exists x, parser_parse 30 P (bs "a c") tt = Ok x /\ fst (fst x) = true /\ result_value (snd x) = Some (bs "a c").
Proof.
  split; [exact g_macro_marks|]. split; [exact ws_blank_plain|]. split.
  - constructor; try reflexivity.
    + intros id inp pos x y d e Hs. cbn. auto.
    + intros q [(w & [H | H] & Hq) | (r & d & b & Hd & Hb & Hq)].
      * injection H as <-. destruct Hq.
      * discriminate H.
      * destruct r as [|[|[|r]]]; cbn in Hd; inversion Hd; subst; cbn in Hb; inversion Hb; subst; try (destruct Hq); destruct r; discriminate.
  - split; [reflexivity|]. split; [reflexivity|]. eexists. split; [vm_compute; reflexivity|]. split; reflexivity.
Qed.

(** ** C39.  Calls from one start rule: each result is what a fresh grammar object
    gives, with or without packrat parsing. *)
Theorem C39_same_start_rule :
  forall (V U : Type) (g : grammar) (cfg : rid -> pobj V U) (sig : ope -> ope -> bool) (fuel : nat) (s : rid) (calls : list call),
  Forall (fun c => fst (fst c) = s) calls ->
  run g cfg sig fuel sess0 calls = map (alone g cfg sig fuel) calls.
Proof. intros. now apply (same_start g cfg sig fuel s). Qed.
Print Assumptions C39_same_start_rule.
(** Calls from any start rules, without packrat parsing. *)
Theorem C39_any_start_rule :
  forall (V U : Type) (g : grammar) (cfg : rid -> pobj V U) (sig : ope -> ope -> bool) (fuel : nat) (calls : list call),
  (forall c, In c calls -> p_packrat (cfg (fst (fst c))) = false /\
     names_reachable g (fst (fst c)) (p_ws (cfg (fst (fst c)))) (p_word (cfg (fst (fst c))))) ->
  map view (run g cfg sig fuel sess0 calls) = map (fun c => view (alone g cfg sig fuel c)) calls.
Proof. intros. now apply any_start. Qed.
Print Assumptions C39_any_start_rule.

(** With packrat parsing and two start rules the claim is false.
    A <- X 'p' / X 'q' / Y 'p' / Y 'q'; X <- 'x'; Y <- 'y'; B <- Y.
    Parsing from B renumbers Y; afterwards X and Y share a memo slot in parses from A. *)
Definition ref (n : string) (r : rid) : ope := Ref (bs n) (Some r) 0 false [].
Definition g_two : grammar :=
  [plain "A" (alts [seqs [ref "X" 1; lit "p"]; seqs [ref "X" 1; lit "q"]; seqs [ref "Y" 2; lit "p"]; seqs [ref "Y" 2; lit "q"]]);
   plain "X" (lit "x"); plain "Y" (lit "y"); plain "B" (ref "Y" 2)].
Definition sig_of (a b : ope) : bool :=
  match a, b with
  | Ref _ (Some r) _ _ _, Ref _ (Some q) _ _ _ => r =? q
  | Lit s _, Lit t _ => bytes_eqb s t
  | _, _ => false
  end.
Definition packrat_on (g : grammar) (s : rid) : pobj bytes unit :=
  {| p_g := g; p_start := s; p_ws := None; p_word := None; p_packrat := true; p_slot := fun _ => None;
     p_cached := 0; p_eoi := true; p_tracer := false; p_verbose := false; p_log := false; p_u0 := tt;
     p_action := fun _ => None; p_pred := fun _ => None; p_enter := fun _ => None; p_leave := fun _ => None;
     p_user := fun _ _ _ vs u => (None, vs, u) |}.
Definition bools {V U} (l : list (outcome (bool * list report * result V U))) : list bool :=
  map (fun x => match x with Ok y => fst (fst y) | _ => false end) l.
Theorem C39_packrat_two_start_rules_refuted :
  let calls := [(0, bs "yq", tt); (3, bs "y", tt); (0, bs "yq", tt)] in
  bools (run g_two (packrat_on g_two) sig_of 30 sess0 calls) = [true; true; false] /\
  bools (map (alone g_two (packrat_on g_two) sig_of 30) calls) = [true; true; true].
Proof. split; vm_compute; reflexivity. Qed.
Print Assumptions C39_packrat_two_start_rules_refuted.
Example C39_meets :
  let calls := [(0, bs "yq", tt); (0, bs "xx", tt); (0, bs "yq", tt)] in
  Forall (fun c => fst (fst c) = 0) calls /\
  bools (run g_two (packrat_on g_two) sig_of 30 sess0 calls) = [true; false; true].
Proof. split; [repeat constructor|]. vm_compute. reflexivity. Qed.

Definition packrat_off (g : grammar) (s : rid) : pobj bytes unit :=
  {| p_g := g; p_start := s; p_ws := None; p_word := None; p_packrat := false; p_slot := fun _ => None;
     p_cached := 0; p_eoi := true; p_tracer := false; p_verbose := false; p_log := true; p_u0 := tt;
     p_action := fun _ => None; p_pred := fun _ => None; p_enter := fun _ => None; p_leave := fun _ => None;
     p_user := fun _ _ _ vs u => (None, vs, u) |}.
Example C39_any_meets :
  let calls := [(0, bs "yq", tt); (3, bs "y", tt); (0, bs "yq", tt); (0, bs "yy", tt)] in
  (forall c : call, In c calls -> p_packrat (packrat_off g_two (fst (fst c))) = false /\
     names_reachable g_two (fst (fst c)) (p_ws (packrat_off g_two (fst (fst c)))) (p_word (packrat_off g_two (fst (fst c))))) /\
  bools (run g_two (packrat_off g_two) sig_of 30 sess0 calls) = [true; true; true; false].
Proof.
  split; [|vm_compute; reflexivity]. intros c _. split; [reflexivity|]. cbn [packrat_off p_ws p_word]. split.
  - intros w [[=] | [=]].
  - intros r d b _ Hd Hb. destruct r as [|[|[|[|r]]]]; [| | | |destruct r; discriminate]; injection Hd as <-; injection Hb as <-; constructor.
Qed.

(** The memo slots a parse of a fresh object works with are pairwise different on the
    rules it can reach and below their count: the condition on slots of C18. *)
Theorem C18_packrat_slots_are_distinct_partial :
  forall (V U : Type) (g : grammar) (cfg : rid -> pobj V U) (sig : ope -> ope -> bool) (s : rid),
  p_packrat (cfg s) = true ->
  let P := start_at g cfg s (prepare g cfg sig s sess0) in
  forall r q k, reachable g s (p_ws (cfg s)) (p_word (cfg s)) r -> reachable g s (p_ws (cfg s)) (p_word (cfg s)) q ->
    p_slot P r = Some k -> k < p_cached P /\ (p_slot P q = Some k -> q = r).
Proof. intros V U g cfg sig s Hp. now apply fresh_slots. Qed.
Print Assumptions C18_packrat_slots_are_distinct_partial.
Example C18_slots_meet :
  let P := start_at g_two (packrat_on g_two) 0 (prepare g_two (packrat_on g_two) sig_of 0 sess0) in
  p_slot P 1 = Some 0 /\ p_slot P 2 = Some 1 /\ p_slot P 0 = None /\ p_cached P = 2.
Proof. vm_compute. auto. Qed.
