(** * C53: the counts printed by enable_profiling. *)
From Verif Require Import Base BaseLemmas Utf8 Escape TrieM LineInfo Ope Ctx ErrLog Engine EngineLemmas EngineSpec EventSpec Events Top Frame TopFacts Samples ProfileM ProfileSpec ProfileProofs.

Definition rule_name {V U} (P : pobj V U) (r : rid) : bytes := match nth_error (p_g P) r with Some d => r_name d | None => [] end.

(** Whatever the parse, the profiler does not go wrong; it prints a report whenever the rule
    entered first is left; and what a report shows are the numbers of successes and failures so
    far of every rule entered so far, in the order of their first use. *)
Theorem C53_reports_count_uses :
  forall (V U : Type) (fuel : nat) (P : pobj V U) (input : bytes) (dt : U) r,
  def_parse fuel P input dt = Ok r ->
  let evs := rev (rs_evs r) in
  exists s, profile (rule_name P) stats0 evs
    = Ok (s, map (report_after (rule_name P)) (filter (report_due (rule_name P)) (prefixes evs)))
  /\ st_items s = rows_after (rule_name P) evs.
Proof.
  intros V U fuel P input dt r H evs. destruct (profile_known (rule_name P) evs) as (s & A & B).
  - apply nested_known. eapply def_parse_nested; eauto.
  - exists s. split; [exact A|apply B].
Qed.
Print Assumptions C53_reports_count_uses.

(** In the end every use that was begun is counted once, as a success or as a failure. *)
Theorem C53_uses_are_balanced :
  forall (V U : Type) (fuel : nat) (P : pobj V U) (input : bytes) (dt : U) r,
  def_parse fuel P input dt = Ok r ->
  let evs := rev (rs_evs r) in
  (forall n, times (enters (rule_name P) n) evs = times (succeeds (rule_name P) n) evs + times (fails (rule_name P) n) evs)
  /\ pr_total (report_after (rule_name P) evs) = times is_enter evs.
Proof.
  intros V U fuel P input dt r H evs. assert (N : nested evs) by (eapply def_parse_nested; eauto).
  split; [now apply nested_balanced|now apply nested_totals].
Qed.
Print Assumptions C53_uses_are_balanced.

(** Without %whitespace the last report is made at the very end, so it is complete. *)
Lemma seen_first name evs s p l : evs = TEnter (Hld s) p :: l -> exists t, rules_seen name evs = name s :: t.
Proof.
  intros ->. induction l as [|e l IH] using rev_ind; [now exists []|]. destruct IH as [t IH].
  rewrite app_comm_cons, seen_snoc, IH. destruct e as [[]|]; cbn [add_new]; eauto. destruct (existsb _ _); cbn; eauto.
Qed.
Lemma trace_ends {V U} fuel (P : pobj V U) input dt r : p_ws P = None -> p_tracer P = true -> def_parse fuel P input dt = Ok r ->
  exists inner len, rev (rs_evs r) = TEnter (Hld (p_start P)) 0 :: inner ++ [TLeave (Hld (p_start P)) 0 len].
Proof.
  intros Hw Ht H. unfold def_parse in H. rewrite Hw in H. cbn [bind] in H. destruct fuel as [|fuel]; [discriminate|].
  assert (Hn : norcvs true (mk_env P input)) by (constructor; intros; apply nrv_true).
  destruct (parse (S fuel) (mk_env P input) (Hld (p_start P)) 0 sv_new (ctx_new (p_log P) dt)) as [[[len vs2] c2]| | |] eqn:Hp; try discriminate H. cbn [bind] in H.
  assert (He : exists inner l, c_evs c2 = TLeave (Hld (p_start P)) 0 l :: inner ++ [TEnter (Hld (p_start P)) 0]).
  { cbn [parse] in Hp. unfold traced in Hp.
    assert (Hx : is_traceable (mk_env P input) (Hld (p_start P)) (ctx_new (p_log P) dt : ctx V U) = true) by (unfold is_traceable; cbn [mk_env e_tracer]; rewrite Ht; reflexivity).
    rewrite Hx in Hp. binv Hp. inv Hp.
    apply (ev_core true (parse fuel) (parse_tr true fuel) (parse_frame fuel)) in Hm; auto; [|reflexivity].
    assert (Hm' : trc true (mk_env P input) (Hld (p_start P)) 0 len (set_evs (TEnter (Hld (p_start P)) 0 :: c_evs (ctx_new (p_log P) dt : ctx V U))
                 (set_tnext (S (c_tnext (ctx_new (p_log P) dt : ctx V U))) (set_tids (c_tnext (ctx_new (p_log P) dt : ctx V U) :: c_tids (ctx_new (p_log P) dt : ctx V U)) (ctx_new (p_log P) dt)))) k) by exact Hm.
    destruct Hm' as (_ & _ & evs & A & _). exists (rev evs), len. csimpl. now rewrite A. }
  destruct He as (inner & l & He). exists (rev inner), l.
  assert (Hr : rs_evs r = c_evs c2).
  { destruct len; [|inv H; reflexivity]. destruct (_ && _); inv H; [|reflexivity]. cbn. destruct (olt _ _); reflexivity. }
  rewrite Hr, He. cbn [rev]. rewrite rev_app_distr. reflexivity.
Qed.
Theorem C53_last_report_is_complete :
  forall (V U : Type) (fuel : nat) (P : pobj V U) (input : bytes) (dt : U) r,
  p_ws P = None -> p_tracer P = true -> def_parse fuel P input dt = Ok r ->
  exists s earlier last, profile (rule_name P) stats0 (rev (rs_evs r)) = Ok (s, earlier ++ [last])
    /\ last = report_after (rule_name P) (rev (rs_evs r)) /\ pr_total last = pr_entered last.
Proof.
  intros V U fuel P input dt r Hw Ht H. destruct (trace_ends fuel P input dt r Hw Ht H) as (inner & len & He).
  destruct (C53_reports_count_uses V U fuel P input dt r H) as (s & A & _). destruct (C53_uses_are_balanced V U fuel P input dt r H) as [_ B].
  cbv zeta in *. set (evs := rev (rs_evs r)) in *.
  assert (Hd : report_due (rule_name P) evs = true).
  { destruct (seen_first (rule_name P) evs _ _ _ He) as [t Hs]. unfold report_due. rewrite Hs, He. cbn [rev]. rewrite rev_app_distr. cbn. now apply bytes_eqb_eq. }
  assert (Hpre : exists l, prefixes evs = l ++ [evs]).
  { rewrite He. rewrite app_comm_cons. rewrite prefixes_snoc. eauto. }
  destruct Hpre as [l Hl]. rewrite Hl, filter_app, map_app in A. cbn [filter] in A. rewrite Hd in A. cbn [map] in A.
  eexists s, _, _. split; [exact A|]. split; [reflexivity|]. exact B.
Qed.
Print Assumptions C53_last_report_is_complete.

(** A case: S <- A S / 'b', A <- 'a', on "aab": S is used three times, and three reports are
    printed; in the last one S matched three times, A twice, and A failed once. *)
Definition g_prof : grammar :=
  [plain "S" (alts [seqs [Ref (bs "A") (Some 1) 0 false []; Ref (bs "S") (Some 0) 0 false []]; lit "b"]); plain "A" (lit "a")].
Example C53_meets : let P := sample g_prof None None true true in p_ws P = None /\ p_tracer P = true
  /\ exists r s r1 r2, def_parse 30 P (bs "aab") tt = Ok r /\ profile (rule_name P) stats0 (rev (rs_evs r)) = Ok (s,
    [r1; r2; {| pr_total := 6; pr_success := 5; pr_fail := 1; pr_entered := 6; pr_rows := [(bs "S", 3, 0); (bs "A", 2, 1)] |}]).
Proof. split; [reflexivity|]. split; [reflexivity|]. eexists _, _, _, _. split; vm_compute; reflexivity. Qed.
