(** * C18 for the memo slots the library itself assigns (enable_packrat_parsing). *)
From Verif Require Import Base BaseLemmas Utf8 Escape TrieM LineInfo Ope Ctx ErrLog Engine EngineLemmas Top Scope TopFacts
  RefSem Refine TopRef RefExt GrammarCond PegDen Samples IndepSpec Indep IdsFacts PackratFilter SessionM Session PropIndep PropPeg PropMemo.

(** The same parser with memo slots only for the rules that can be reached. *)
Definition restrict {V U} (P : pobj V U) : pobj V U :=
  let ids := id_list (definition_ids (p_g P) (p_start P) (p_ws P) (p_word P)) in
  {| p_g := p_g P; p_start := p_start P; p_ws := p_ws P; p_word := p_word P; p_packrat := p_packrat P;
     p_slot := fun r => if mem_rid r ids then p_slot P r else None; p_cached := p_cached P; p_eoi := p_eoi P; p_tracer := p_tracer P; p_verbose := p_verbose P;
     p_log := p_log P; p_u0 := p_u0 P; p_action := p_action P; p_pred := p_pred P; p_enter := p_enter P; p_leave := p_leave P; p_user := p_user P |}.

(** Slots are distinct on the rules that can be reached, and below their count. *)
Definition slots_distinct {V U} (P : pobj V U) : Prop :=
  let R := reachable (p_g P) (p_start P) (p_ws P) (p_word P) in
  forall r q k, R r -> R q -> p_slot P r = Some k -> k < p_cached P /\ (p_slot P q = Some k -> q = r).

Section Slots.
  Context {V U : Type}.
  Implicit Types (P : pobj V U).
  Lemma restrict_same P : same_reachable P (restrict P).
  Proof.
    constructor; try reflexivity. intros r Hr. cbn [restrict p_slot p_g p_action p_pred p_enter p_leave]. apply reachable_ids, mem_rid_in in Hr. rewrite Hr. auto 8.
  Qed.
  Lemma without_same P : same_reachable (without_packrat P) (without_packrat (restrict P)).
  Proof.
    constructor; try reflexivity. intros r Hr. cbn [without_packrat restrict p_slot p_g p_action p_pred p_enter p_leave].
    apply reachable_ids, mem_rid_in in Hr. cbn [without_packrat p_g p_start p_ws p_word] in Hr. rewrite Hr. auto 8.
  Qed.
  Lemma restrict_core md mm P : core_parser md mm (without_packrat P) -> slots_distinct P -> core_parser md mm (restrict P).
  Proof.
    intros [H1 H2 H3 H4 H5 _] Hs. constructor; auto. intros _ r s. cbn [restrict p_slot p_cached].
    destruct (mem_rid r _) eqn:Hm; [|discriminate]. apply mem_rid_in, ids_reachable in Hm. intros Hk. split; [eapply Hs; eassumption|].
    intros q. destruct (mem_rid q _) eqn:Hq; [|discriminate]. apply mem_rid_in, ids_reachable in Hq. eapply Hs; eassumption.
  Qed.
  Lemma slots_same P input dt md mm :
    core_parser md mm (without_packrat P) -> slots_distinct P -> names_reachable (p_g P) (p_start P) (p_ws P) (p_word P) ->
    bare_parser P -> pure (mk_env P input) -> (recognize_only P = true -> forall r, p_pred P r = None) -> settled P input ->
    exists b reps1 res1 reps2 res2 F, forall fuel, F <= fuel ->
      view (parser_parse fuel P input dt) = Ok (b, reps1, rs_ret res1, rs_recovered res1, rs_len res1, rs_err res1, result_value res1, rs_dt res1)
      /\ view (parser_parse fuel (without_packrat P) input dt) = Ok (b, reps2, rs_ret res2, rs_recovered res2, rs_len res2, rs_err res2, result_value res2, rs_dt res2)
      /\ rs_ret res1 = rs_ret res2
      /\ (rs_ret res1 = true -> rs_len res1 = rs_len res2 /\ (recognize_only P = false -> result_value res1 = result_value res2)).
  Proof.
    intros Hc Hs Hn Hb Hp Hr Hx.
    assert (Hrec : recognize_only (restrict P) = recognize_only P) by reflexivity.
    assert (Hp' : pure (mk_env (restrict P) input)) by (destruct Hp; constructor; assumption).
    assert (Hx' : settled (restrict P) input).
    { destruct Hx as (k & x & Hx). exists k, x. rewrite <- Hx. apply ref_top_same. reflexivity. }
    destruct (packrat_same (restrict P) input dt md mm (restrict_core md mm P Hc Hs) Hb Hp' Hr Hx') as (b & r1 & e1 & r2 & e2 & F & H).
    exists b, r1, e1, r2, e2, F. intros fuel Hf. destruct (H fuel Hf) as (A & B & C & D).
    split; [|split; [|split]].
    - rewrite (unreachable_irrelevant fuel P (restrict P) input dt (restrict_same P) Hn), A. reflexivity.
    - rewrite (unreachable_irrelevant fuel (without_packrat P) (without_packrat (restrict P)) input dt (without_same P) Hn), B. reflexivity.
    - exact C.
    - intros Ht. destruct (D Ht) as [D1 D2]. split; [exact D1|]. intros Hq. specialize (D2 Hq). unfold result_value. now rewrite C, D2.
  Qed.
End Slots.

(** An object with packrat parsing enabled, used any number of times from the rule [s]:
    every parse gives what the same parser gives without packrat parsing.  The memo
    slots are those the library computes (initialize_packrat_filter); conditions on the
    grammar as in C18. *)
Theorem C18_enable_packrat_parsing_partial :
  forall (V U : Type) (g : grammar) (cfg : rid -> pobj V U) (sig : ope -> ope -> bool) (s : rid) (input : bytes) (dt : U) md mm,
  p_packrat (cfg s) = true ->
  let P := start_at g cfg s (prepare g cfg sig s sess0) in
  core_parser md mm (without_packrat P) -> bare_parser P -> names_reachable g s (p_ws (cfg s)) (p_word (cfg s)) ->
  pure (mk_env P input) -> (recognize_only P = true -> forall r, p_pred P r = None) -> settled P input ->
  exists b reps1 res1 reps2 res2 F, forall fuel, F <= fuel ->
    (forall earlier, Forall (fun c : call => fst (fst c) = s) earlier ->
       exists x, nth_error (run g cfg sig fuel sess0 (earlier ++ [(s, input, dt)])) (List.length earlier) = Some x
         /\ view x = Ok (b, reps1, rs_ret res1, rs_recovered res1, rs_len res1, rs_err res1, result_value res1, rs_dt res1))
    /\ view (parser_parse fuel (without_packrat P) input dt) = Ok (b, reps2, rs_ret res2, rs_recovered res2, rs_len res2, rs_err res2, result_value res2, rs_dt res2)
    /\ rs_ret res1 = rs_ret res2
    /\ (rs_ret res1 = true -> rs_len res1 = rs_len res2 /\ (recognize_only P = false -> result_value res1 = result_value res2)).
Proof.
  intros V U g cfg sig s input dt md mm Hpk P Hc Hb Hn Hp Hr Hx.
  assert (Hs : slots_distinct P).
  { intros r q k H1 H2. apply reachable_marked in H1, H2. exact (fresh_slots g cfg sig s Hpk r q k H1 H2). }
  assert (Hn' : names_reachable (p_g P) (p_start P) (p_ws P) (p_word P)) by (apply names_marked; exact Hn).
  destruct (slots_same P input dt md mm Hc Hs Hn' Hb Hp Hr Hx) as (b & r1 & e1 & r2 & e2 & F & H).
  exists b, r1, e1, r2, e2, F. intros fuel Hf. destruct (H fuel Hf) as (A & B & C & D). split; [|split; [exact B|split; [exact C|exact D]]].
  intros earlier He. exists (parser_parse fuel P input dt). split; [|exact A].
  rewrite (same_start g cfg sig fuel s); [|apply Forall_app; split; [exact He|constructor; [reflexivity|constructor]]].
  rewrite map_app, nth_error_app2; rewrite map_length; [|lia]. rewrite Nat.sub_diag. reflexivity.
Qed.
Print Assumptions C18_enable_packrat_parsing_partial.
Definition sample_on (s : rid) : pobj bytes unit :=
  {| p_g := g_two; p_start := s; p_ws := None; p_word := None; p_packrat := true; p_slot := fun _ => None;
     p_cached := 0; p_eoi := true; p_tracer := false; p_verbose := true; p_log := true; p_u0 := tt;
     p_action := fun _ => Some (fun inp vs u _ => (Some (sub inp (fst (v_sv vs)) (snd (v_sv vs))), u));
     p_pred := fun _ => None; p_enter := fun _ => None; p_leave := fun _ => None; p_user := fun _ _ _ vs u => (None, vs, u) |}.
(** A <- X 'p' / X 'q' / Y 'p' / Y 'q'  with X and Y memoised. *)
Example C18_enable_meets :
  let cfg := fun s => sample_on s in
  let P := start_at g_two cfg 0 (prepare g_two cfg sig_of 0 sess0) in
  p_packrat (cfg 0) = true /\ core_parser (fun _ => m_top) [m_top] (without_packrat P) /\ bare_parser P
  /\ names_reachable g_two 0 None None /\ pure (mk_env P (bs "yq")) /\ recognize_only P = false /\ settled P (bs "yq")
  /\ (exists r, p_slot P r = Some 1)
  /\ (exists reps res, nth_error (run g_two cfg sig_of 30 sess0 [(0, bs "xx", tt); (0, bs "yq", tt)]) 1 = Some (Ok (true, reps, res)) /\ result_value res = Some (bs "yq")).
Proof.
  intros cfg P. split; [reflexivity|]. split; [|split; [|split; [|split; [|split; [|split; [|split]]]]]].
  - constructor; try reflexivity; try exact I; [split; [reflexivity|]; eexists; split; reflexivity|discriminate].
  - split; [reflexivity|split; exact I].
  - split; [intros w [[=]|[=]]|]. intros r d b _ Hd Hb. destruct r as [|[|[|[|r]]]]; [| | | |destruct r; discriminate]; injection Hd as <-; injection Hb as <-; constructor.
  - constructor; cbn; [|discriminate|discriminate]. intros r f inp vs u u' pd Hq. inv Hq. reflexivity.
  - reflexivity.
  - eexists 20, _. vm_compute. reflexivity.
  - exists 2. vm_compute. reflexivity.
  - eexists _, _. split; [vm_compute; reflexivity|vm_compute; reflexivity].
Qed.
