(** * Macros (C41). *)
From Verif Require Import Base BaseLemmas Utf8 Utf8Spec Escape TrieM LineInfo Ope Ctx ErrLog Engine EngineLemmas Top Frame Scope Bounds Mono TopFacts
  RefSem RefMono Refine RefineOps RefineMain TopRef RefExt LrSpec LrRef PegSpec PegDen PegRef GrammarCond PegEngine Samples PropPeg PropMemo PropRec MacroSpec MacroRef.

Section Macro.
  Context {V U : Type}.
  Implicit Types (P : pobj V U).

  Lemma ref_top_inlined P g' input k x : match p_word P with Some w => nopre w = true | None => True end -> (forall q, p_pred P q = None) -> named_grammar (p_g P) = true -> inlined (p_g P) g' ->
    match p_ws P with Some w => nopre w = true | None => True end -> ref_top k (mk_env P input) (p_start P) = Some x ->
    exists j y, ref_top j (mk_env (with_grammar P g') input) (p_start P) = Some y /\ eqlen x y.
  Proof.
    intros Hwd Hpr Hn Hi Hw0 H. set (E := mk_env P input) in *.
    pose proof (msims_all E g' Hpr (inlined_words E g' Hpr Hi Hn Hwd) Hi Hn Hw0 k) as Hsim.
    cut (exists j y, ref_top j (with_g E g') (p_start P) = Some y /\ eqlen x y).
    { intros (j & y & A & B). exists j, y. split; [|exact B]. rewrite <- A. symmetry. apply ref_top_same; reflexivity. }
    unfold ref_top in *. change (e_ws (with_g E g')) with (e_ws E).
    destruct (match e_ws E with None => _ | Some w => ref k E None no_frame m_top w 0 sv_new end) as [w|] eqn:Hw; [|discriminate].
    assert (Hw' : exists j y, (match e_ws E with None => Some (Some (0, sv_new)) | Some w => ref j (with_g E g') None no_frame m_top w 0 sv_new end) = Some y /\ eqlen w y).
    { destruct (e_ws E) as [we|] eqn:Hwe; [|inv Hw; exists 0; eexists; split; reflexivity].
      apply (Hsim None None no_frame no_frame m_top we we 0 sv_new sv_new w I); [|exact Hw].
      left. change (p_ws P) with (e_ws E) in Hw0. rewrite ?Hwe in Hw0. auto. }
    destruct Hw' as (j1 & y1 & A & B). cbn [obind] in H. destruct w as [[i vs]|], y1 as [[i' vs1]|]; try discriminate B.
    - inv B. oinv H. destruct (Hsim None None no_frame no_frame m_top (Hld (p_start P)) (Hld (p_start P)) i' vs vs1 a I (corr_same E no_frame (Hld (p_start P)) eq_refl eq_refl) Hm) as (j2 & y2 & C & D).
      exists (j1 + j2).
      assert (A' : match e_ws E with None => Some (Some (0, sv_new)) | Some w => ref (j1 + j2) (with_g E g') None no_frame m_top w 0 sv_new end = Some (Some (i', vs1))).
      { destruct (e_ws E); [|exact A]. eapply ref_mono; [|exact A]. lia. }
      rewrite A'. cbn [obind]. rewrite (ref_mono _ (j1 + j2) _ _ _ _ _ _ _ _ (Nat.le_add_l _ _) C). cbn [obind]. eexists. split; [reflexivity|]. inv H.
      destruct a as [[? ?]|], y2 as [[? ?]|]; try discriminate D; [|reflexivity]. inv D. reflexivity.
    - inv H. exists j1, None. rewrite A. split; reflexivity.
  Qed.

  Lemma same_as_inlined P g' input dt md mm md' mm' :
    core_parser md mm P -> bare_parser P -> (forall q, p_pred P q = None) ->
    core_parser md' mm' (with_grammar P g') -> bare_parser (with_grammar P g') ->
    named_grammar (p_g P) = true -> inlined (p_g P) g' -> settled P input ->
    exists b reps1 res1 reps2 res2 F, forall fuel, F <= fuel ->
      parser_parse fuel P input dt = Ok (b, reps1, res1)
      /\ parser_parse fuel (with_grammar P g') input dt = Ok (b, reps2, res2)
      /\ rs_ret res1 = rs_ret res2 /\ (rs_ret res1 = true -> rs_len res1 = rs_len res2).
  Proof.
    intros Hc Hb Hpr Hc' Hb' Hn Hi (k & x & Hx).
    assert (Hwn : match p_ws P with Some w => nopre w = true | None => True end).
    { pose proof (cp_ws _ _ _ Hc) as Hw. destruct (p_ws P) as [[]|]; cbn [core_ws] in Hw; try discriminate; try exact I.
      apply andb_prop in Hw as [_ Hw]. exact Hw. }
    assert (Hwdn : match p_word P with Some w => nopre w = true | None => True end).
    { pose proof (cp_word _ _ _ Hc) as Hw. destruct (p_word P); [apply Hw|exact I]. }
    destruct (ref_top_inlined P g' input k x Hwdn Hpr Hn Hi Hwn Hx) as (j & y & Hy & He).
    destruct (engine_len P input dt md mm k x Hc Hb Hpr Hx) as (reps1 & res1 & A1 & B1 & C1).
    destruct (engine_len (with_grammar P g') input dt md' mm' j y Hc' Hb' Hpr Hy) as (reps2 & res2 & A2 & B2 & C2).
    assert (Hb2 : match x with Some (n, _) => negb (p_eoi P) || (n =? List.length input) | None => false end
                = match y with Some (n, _) => negb (p_eoi P) || (n =? List.length input) | None => false end).
    { destruct x as [[n v]|], y as [[n' v']|]; try discriminate He; [|reflexivity]. inv He. reflexivity. }
    destruct (ev_and _ _ A1 A2) as [F HF].
    exists (match x with Some (n, _) => negb (p_eoi P) || (n =? List.length input) | None => false end), reps1, res1, reps2, res2, F.
    intros fuel Hf. destruct (HF fuel Hf) as [H1 H2]. change (p_eoi (with_grammar P g')) with (p_eoi P) in *. rewrite Hb2 in *.
    split; [exact H1|]. split; [exact H2|]. split; [congruence|]. intros Ht.
    destruct x as [[n v]|], y as [[n' v']|]; try discriminate He; [|congruence]. unfold eqlen in He. cbn in He. congruence.
  Qed.
End Macro.

(** ** C41.  [inlined (p_g P) g']: [g'] is the grammar with any number of macro calls
    of its ordinary rules replaced by the macro's body with the arguments in place
    of the parameters, repeatedly (MacroSpec.v).  [named_grammar]: parameters are
    referred to by name, no rule is named like a macro's parameter, and a macro call
    inside a macro argument does not mention the enclosing parameters. *)
Theorem C41_macro_call_is_its_body_partial :
  forall (V U : Type) (P : pobj V U) (g' : grammar) (input : bytes) (dt : U) md mm md' mm',
  core_parser md mm P -> bare_parser P -> (forall q, p_pred P q = None) ->
  core_parser md' mm' (with_grammar P g') -> bare_parser (with_grammar P g') ->
  named_grammar (p_g P) = true -> inlined (p_g P) g' -> settled P input ->
  exists b reps1 res1 reps2 res2 F, forall fuel, F <= fuel ->
    parser_parse fuel P input dt = Ok (b, reps1, res1)
    /\ parser_parse fuel (with_grammar P g') input dt = Ok (b, reps2, res2)
    /\ rs_ret res1 = rs_ret res2 /\ (rs_ret res1 = true -> rs_len res1 = rs_len res2).
Proof. exact @same_as_inlined. Qed.
Print Assumptions C41_macro_call_is_its_body_partial.

(** S <- LIST(NUM, ',')   LIST(x, sep) <- x TAIL(sep, x)   TAIL(s, y) <- (s y)*   NUM <- [0-9]
    becomes  S <- NUM (',' NUM)*  *)
Definition macro_rule (name : string) (ps : list string) (body : ope) : rule :=
  {| r_name := bs name; r_body := Some body; r_ignore := false; r_is_macro := true; r_params := map bs ps;
     r_disable_action := false; r_lr := false; r_can_be_empty := false; r_macro_ref := true;
     r_error_message := []; r_no_ast_opt := false; r_no_whitespace := false; r_ast_name := bs name |}.
Definition caller (name : string) (body : ope) : rule :=
  {| r_name := bs name; r_body := Some body; r_ignore := false; r_is_macro := false; r_params := [];
     r_disable_action := false; r_lr := false; r_can_be_empty := false; r_macro_ref := true;
     r_error_message := []; r_no_ast_opt := false; r_no_whitespace := false; r_ast_name := bs name |}.
Definition arg (n : string) (i : nat) : ope := Ref (bs n) None i false [].
Definition app (n : string) (r : rid) (l : list ope) : ope := Ref (bs n) (Some r) 0 true l.
Definition num : ope := Ref (bs "NUM") (Some 3) 0 false [].
Definition g_list : grammar :=
  [caller "S" (app "LIST" 1 [num; lit ","]);
   macro_rule "LIST" (["x"; "sep"]%string) (seqs [arg "x" 0; app "TAIL" 2 [arg "sep" 1; arg "x" 0]]);
   macro_rule "TAIL" (["s"; "y"]%string) (many (seqs [arg "s" 0; arg "y" 1]));
   plain "NUM" (Cls [(48, 57)%N] false false)].
Definition g_list' : grammar :=
  caller "S" (seqs [num; many (seqs [lit ","; num])]) :: tl g_list.
Definition P_list : pobj bytes unit := sample g_list None None true false.
Example C41_meets : exists reps res reps' res',
  core_parser (fun _ => m_top) [m_top] P_list /\ bare_parser P_list
  /\ core_parser (fun _ => m_top) [m_top] (with_grammar P_list g_list') /\ bare_parser (with_grammar P_list g_list')
  /\ named_grammar g_list = true /\ inlined g_list g_list' /\ settled P_list (bs "1,2,3")
  /\ parser_parse 40 P_list (bs "1,2,3") tt = Ok (true, reps, res) /\ rs_len res = 5
  /\ parser_parse 40 (with_grammar P_list g_list') (bs "1,2,3") tt = Ok (true, reps', res').
Proof.
  eexists _, _, _, _.
  split. { constructor; try reflexivity; [|discriminate]. split; [reflexivity|]. eexists. split; reflexivity. }
  split; [split; [reflexivity|split; (reflexivity || exact I)]|].
  split. { constructor; try reflexivity; [|discriminate]. split; [reflexivity|]. eexists. split; reflexivity. }
  split; [split; [reflexivity|split; (reflexivity || exact I)]|]. split; [reflexivity|].
  split.
  { unfold inlined. constructor.
    - repeat (split; [reflexivity|]). cbn [caller r_body r_is_macro].
      eapply il_call; try reflexivity. cbn [fill map]. apply il_seq. constructor; [apply il_same|]. constructor; [|constructor].
      eapply il_call; try reflexivity. apply il_same.
    - repeat (constructor; [repeat (split; [reflexivity|]); cbn; try reflexivity; apply il_same|]). constructor. }
  split; [eexists 20, _; vm_compute; reflexivity|]. split; [vm_compute; reflexivity|]. split; [reflexivity|]. vm_compute. reflexivity.
Qed.

(** The last condition of [named_grammar] is needed: with
    R <- A('a')   A(x) <- B(C(x))   B(y) <- y   C(z) <- z
    substitution would give R <- 'a', but parsing does not return on any input: the
    x in C(x) is looked up when C is called, from B, so C's argument is x itself. *)
Definition g_nested : grammar :=
  [caller "R" (app "A" 1 [lit "a"]);
   macro_rule "A" (["x"]%string) (app "B" 2 [app "C" 3 [arg "x" 0]]);
   macro_rule "B" (["y"]%string) (arg "y" 0);
   macro_rule "C" (["z"]%string) (arg "z" 0)].
Definition g_nested' : grammar := caller "R" (lit "a") :: tl g_nested.
Definition P_nested : pobj bytes unit := sample g_nested None None true false.
Lemma stuck_arg (V U : Type) (E : env V U) n mc l a k : e_tracer E = false -> forall pos vs c,
  c_args c = [Ref n None 0 mc l] :: a -> parse k E (Ref n None 0 mc l) pos vs c = OutOfFuel.
Proof.
  intros Ht. induction k as [|k IH]; intros pos vs c Hc; [reflexivity|]. cbn [parse]. unfold traced, is_traceable. rewrite Ht. cbn [andb].
  cbn [parse_core]. unfold parse_ref. rewrite Ht. unfold parse_dispatch, top_args. rewrite Hc. cbn [nth_error]. now apply IH.
Qed.
Lemma parse_S (V U : Type) (E : env V U) k o pos vs c : parse (S k) E o pos vs c = traced E o pos (parse_core k (parse k) E o pos vs) c.
Proof. reflexivity. Qed.
Lemma nested_stuck input fuel : def_parse fuel P_nested input tt = OutOfFuel.
Proof.
  destruct (le_lt_dec 9 fuel) as [Hf|Hf].
  - assert (X : exists k, fuel = S (S (S (S (S (S (S (S (S k))))))))) by (exists (fuel - 9); lia). destruct X as [k ->]. clear Hf.
    lazy -[parse]. do 9 (rewrite parse_S; lazy -[parse]).
    repeat match goal with |- match ?x with _ => _ end = _ => let X := fresh in cut (x = OutOfFuel); [intros X; rewrite X; reflexivity|] end.
    eapply stuck_arg; reflexivity.
  - do 9 (destruct fuel as [|fuel]; [reflexivity|]). lia.
Qed.
Theorem C41_nested_call_in_argument_refuted :
  core_parser (fun _ => m_top) [m_top] (with_grammar P_nested g_nested') /\ bare_parser P_nested /\ bare_parser (with_grammar P_nested g_nested')
  /\ inlined g_nested g_nested' /\ settled (with_grammar P_nested g_nested') (bs "a")
  /\ (exists reps res, parser_parse 10 (with_grammar P_nested g_nested') (bs "a") tt = Ok (true, reps, res))
  /\ (forall fuel input, parser_parse fuel P_nested input tt = OutOfFuel).
Proof.
  split. { constructor; try reflexivity; [|discriminate]. split; [reflexivity|]. eexists. split; reflexivity. }
  split; [split; [reflexivity|split; (reflexivity || exact I)]|]. split; [split; [reflexivity|split; (reflexivity || exact I)]|].
  split.
  { unfold inlined. constructor.
    - repeat (split; [reflexivity|]). cbn [caller r_body r_is_macro].
      do 3 (eapply il_call; try reflexivity). apply il_same.
    - repeat (constructor; [repeat (split; [reflexivity|]); cbn; reflexivity|]). constructor. }
  split; [eexists 10, _; vm_compute; reflexivity|]. split; [eexists _, _; vm_compute; reflexivity|].
  intros fuel input. unfold parser_parse. now rewrite nested_stuck.
Qed.
Print Assumptions C41_nested_call_in_argument_refuted.
