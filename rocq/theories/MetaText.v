(** * Reading grammar texts: the data at the end. *)
From Verif Require Import Base BaseLemmas Utf8 Utf8Spec Utf8Proofs Escape EscapeSpec EscapeProofs TrieM TrieSpec LineInfo Ope Ctx ErrLog Engine EngineLemmas Scope Bounds EngineFacts Top
  RefSem RefMono Refine RefineOps PegRef PrecSpec PrecM LoadM LoadRefs MetaM MetaSource Run MetaRun MetaJudge MetaDies NotationSpec ReadSpec MetaLex MetaHead MetaChars MetaLits MetaTerms MetaExpr MetaExprs MetaInstr MetaDef.

(** ** Events *)
Fixpoint scopes_of (evs : list event) (sc : list (list bytes)) : list (list bytes) :=
  match evs with
  | [] => sc
  | Bound n :: evs' => scopes_of evs' (match sc with c :: cs => (n :: c) :: cs | [] => [] end)
  | Used _ :: evs' => scopes_of evs' sc
  | Open :: evs' => scopes_of evs' ([] :: sc)
  | Close :: evs' => scopes_of evs' (tl sc)
  end.
Lemma unbound_app : forall a b sc, unbound (a ++ b) sc = unbound a sc ++ unbound b (scopes_of a sc).
Proof. induction a as [|[n|n| |] a IH]; intros b sc; [reflexivity|..]; cbn [app unbound scopes_of]; rewrite IH, ?app_assoc; reflexivity. Qed.
Lemma bmem_existsb n l : bmem n l = existsb (bytes_eqb n) l.
Proof. reflexivity. Qed.
Record same_defs (a b : data) : Prop := {
  sd_rules : d_rules a = d_rules b; sd_start : d_start a = d_start b; sd_dd : d_dup_defs a = d_dup_defs b; sd_di : d_dup_instrs a = d_dup_instrs b;
  sd_ins : d_instrs a = d_instrs b; sd_fail : d_fail a = d_fail b }.
Lemma eff_facts : forall evs d, same_defs (eff evs d) d /\ d_undef (eff evs d) = d_undef d ++ unbound evs (d_caps d) /\ d_caps (eff evs d) = scopes_of evs (d_caps d)
  /\ d_packrat (eff evs d) = d_packrat d && local_refs evs (d_current d).
Proof.
  induction evs as [|e evs IH]; intros d.
  - cbn. rewrite app_nil_r, andb_true_r. split; [constructor; reflexivity|]. auto.
  - change (eff (e :: evs) d) with (eff evs (ev_data e d)). destruct (IH (ev_data e d)) as ([H1 H2 H3 H4 H5 H6] & A & B & C). split.
    + constructor; [rewrite H1|rewrite H2|rewrite H3|rewrite H4|rewrite H5|rewrite H6]; destruct e; reflexivity.
    + rewrite A, B, C. destruct e as [n|n| |]; cbn [ev_data add_capture back_reference with_caps d_undef d_caps d_current d_packrat unbound scopes_of local_refs]; try (split; [reflexivity|split; reflexivity]).
      split; [|split; [reflexivity|]].
      * change (existsb (bmem n) (d_caps d)) with (existsb (existsb (bytes_eqb n)) (d_caps d)). destruct (existsb (existsb (bytes_eqb n)) (d_caps d)); cbn [app]; [reflexivity|now rewrite <- app_assoc].
      * rewrite bmem_existsb. symmetry. apply andb_assoc.
Qed.

(** ** Instructions *)
Lemma type_keyword i : instr_type i = instr_keyword i. Proof. destruct i; reflexivity. Qed.
Lemma binsert_new n i l : ~ In n (map fst l) -> binsert n i l = l ++ [(n, [i])].
Proof.
  induction l as [|[m is] l IH]; intros H; [reflexivity|]. cbn [binsert]. destruct (bytes_eqb m n) eqn:Hb; [apply bytes_eqb_eq in Hb; subst m; destruct H; now left|].
  rewrite IH; [reflexivity|]. intros X. apply H. now right.
Qed.
Lemma binsert_old n i l is : ~ In n (map fst l) -> binsert n i (l ++ [(n, is)]) = l ++ [(n, is ++ [i])].
Proof.
  induction l as [|[m is'] l IH]; intros H; cbn [app binsert].
  - now rewrite (proj2 (bytes_eqb_eq n n) eq_refl).
  - destruct (bytes_eqb m n) eqn:Hb; [apply bytes_eqb_eq in Hb; subst m; destruct H; now left|]. rewrite IH; [reflexivity|]. intros X. apply H. now right.
Qed.
Lemma add_more n is : forall (l : list instr) ts is0 ins dups, ~ In n (map fst ins) -> NoDup (map instr_keyword l) -> (forall i, In i l -> ~ In (instr_keyword i) ts) ->
  is = is0 ++ l -> add_instrs n ts l (ins ++ [(n, is0)]) dups = (ins ++ [(n, is)], dups).
Proof.
  induction l as [|i l IH]; intros ts is0 ins dups H1 H2 H3 ->; [rewrite app_nil_r; reflexivity|]. cbn [add_instrs]. rewrite type_keyword.
  destruct (bmem (instr_keyword i) ts) eqn:Hb; [apply bmem_In in Hb; destruct (H3 i); [now left|exact Hb]|]. rewrite (binsert_old n i ins is0 H1).
  cbn [map] in H2. apply NoDup_cons_iff in H2 as [H2 H2']. apply (IH (instr_keyword i :: ts) (is0 ++ [i]) ins dups H1 H2').
  - intros j Hj [X|X]; [apply H2; rewrite X; now apply in_map|apply (H3 j); [now right|exact X]].
  - now rewrite <- app_assoc.
Qed.
Lemma add_all n l ins dups : ~ In n (map fst ins) -> NoDup (map instr_keyword l) ->
  add_instrs n [] l ins dups = (ins ++ match l with [] => [] | _ => [(n, l)] end, dups).
Proof.
  intros H1 H2. destruct l as [|i l]; [cbn; now rewrite app_nil_r|]. cbn [add_instrs bmem existsb]. rewrite (binsert_new n i ins H1), type_keyword.
  cbn [map] in H2. apply NoDup_cons_iff in H2 as [H2 H2']. apply (add_more n (i :: l) l [instr_keyword i] [i] ins dups H1 H2'); [|reflexivity].
  intros j Hj [X|[]]. apply H2. rewrite X. now apply in_map.
Qed.
Lemma add_dups n : forall l ts ins dups, exists e, snd (add_instrs n ts l ins dups) = dups ++ e /\ (e = [] <-> NoDup (map instr_keyword l) /\ forall i, In i l -> ~ In (instr_keyword i) ts).
Proof.
  induction l as [|i l IH]; intros ts ins dups; cbn [add_instrs].
  - exists []. rewrite app_nil_r. split; [reflexivity|]. split; [|reflexivity]. intros _. split; [constructor|]. intros j [].
  - rewrite type_keyword. destruct (bmem (instr_keyword i) ts) eqn:Hb.
    + destruct (IH ts ins (dups ++ [instr_keyword i])) as (e & -> & _). exists (instr_keyword i :: e). rewrite <- app_assoc. split; [reflexivity|]. split; [discriminate|].
      intros [_ X]. apply bmem_In in Hb. destruct (X i); [now left|exact Hb].
    + destruct (IH (instr_keyword i :: ts) (binsert n i ins) dups) as (e & -> & He). exists e. split; [reflexivity|]. rewrite He. cbn [map]. rewrite NoDup_cons_iff.
      assert (Hn : ~ In (instr_keyword i) ts) by (intros X; apply bmem_In in X; congruence). split.
      * intros [A B]. split; [split; [|exact A]|].
        -- intros X. apply in_map_iff in X as (j & E & Hj). apply (B j Hj). left. now symmetry.
        -- intros j [<- |Hj]; [exact Hn|]. intros X. apply (B j Hj). now right.
      * intros [[A A'] B]. split; [exact A'|]. intros j Hj [X|X]; [apply A; rewrite X; now apply in_map|apply (B j); [now right|exact X]].
Qed.

(** ** Definitions *)
Lemma new_rule_of x : new_rule (df_name x) (df_body x) (df_ignored x) (MetaM.is_some (df_params x)) (match df_params x with Some ps => ps | None => [] end) = rule_of x.
Proof. destruct x as [ig n [ps|] o is]; reflexivity. Qed.
Lemma percent_is n : percent n = match n with x25 :: _ => true | _ => false end.
Proof. destruct n as [|b n]; [reflexivity|]. destruct b; reflexivity. Qed.
Definition ins_of (x : def) : list (bytes * list instr) := match df_instrs x with [] => [] | is => [(df_name x, is)] end.

(** Whatever the definitions are. *)
Lemma def_always x d : d_fail (def_data x d) = d_fail d
  /\ d_undef (def_data x d) = d_undef d ++ unbound (events (df_body x)) (d_caps d)
  /\ d_caps (def_data x d) = scopes_of (events (df_body x)) (d_caps d)
  /\ d_packrat (def_data x d) = d_packrat d && local_refs (events (df_body x)) []
  /\ (exists e, d_dup_instrs (def_data x d) = d_dup_instrs d ++ e /\ (e = [] <-> NoDup (map instr_keyword (df_instrs x))))
  /\ (if bmem (df_name x) (map r_name (d_rules d)) then d_rules (def_data x d) = d_rules d /\ d_dup_defs (def_data x d) = d_dup_defs d ++ [df_name x]
      else d_rules (def_data x d) = d_rules d ++ [rule_of x] /\ d_dup_defs (def_data x d) = d_dup_defs d).
Proof.
  destruct (eff_facts (events (df_body x)) (reset d)) as ([H1 H2 H3 H4 H5 H6] & A & B & C). cbn [reset with_caps d_rules d_start d_dup_defs d_dup_instrs d_instrs d_fail d_undef d_caps d_current d_packrat] in *.
  fold (effo (df_body x)) in *. unfold def_data, add_definition, defined_of. cbn [f_name f_instrs f_ope f_ignore f_params].
  set (d1 := effo (df_body x) (reset d)) in *. rewrite H1, H4, H5.
  destruct (add_dups (df_name x) (df_instrs x) [] (d_instrs d) (d_dup_instrs d)) as (e & He & Hn). destruct (add_instrs (df_name x) [] (df_instrs x) (d_instrs d) (d_dup_instrs d)) as [ins di]. cbn [snd] in He. subst di.
  assert (Hn' : e = [] <-> NoDup (map instr_keyword (df_instrs x))) by (rewrite Hn; split; [now intros []|intros X; split; [exact X|intros i _ []]]).
  rewrite new_rule_of. destruct (bmem (df_name x) (map r_name (d_rules d))); cbn [with_defs d_rules d_start d_dup_defs d_dup_instrs d_instrs d_fail d_undef d_caps d_current d_packrat];
    (split; [exact H6|]; split; [exact A|]; split; [exact B|]; split; [exact C|]; split; [exists e; split; [reflexivity|exact Hn']|]; split; [reflexivity|]; now rewrite H3).
Qed.
(** A definition that is not a duplicate. *)
Lemma def_fresh x d : ~ In (df_name x) (map r_name (d_rules d)) -> NoDup (map instr_keyword (df_instrs x)) -> ~ In (df_name x) (map fst (d_instrs d)) ->
  d_instrs (def_data x d) = d_instrs d ++ ins_of x
  /\ d_start (def_data x d) = match d_start d with [] => if percent (df_name x) then [] else df_name x | s => s end.
Proof.
  intros Hn Hk Hi. destruct (eff_facts (events (df_body x)) (reset d)) as ([H1 H2 H3 H4 H5 H6] & _). cbn [reset with_caps d_rules d_start d_dup_defs d_dup_instrs d_instrs d_fail d_undef d_caps d_current d_packrat] in *.
  fold (effo (df_body x)) in *. unfold def_data, add_definition, defined_of. cbn [f_name f_instrs f_ope f_ignore f_params].
  set (d1 := effo (df_body x) (reset d)) in *. rewrite H1, H2, H4, H5, (add_all _ _ _ _ Hi Hk).
  destruct (bmem (df_name x) (map r_name (d_rules d))) eqn:Hb; [apply bmem_In in Hb; contradiction|]. cbn [with_defs d_instrs d_start].
  split; [unfold ins_of; destruct (df_instrs x); reflexivity|]. rewrite percent_is. destruct (d_start d); [|reflexivity]. destruct (df_name x) as [|b n]; [reflexivity|]. destruct b; reflexivity.
Qed.

Lemma NoDup_cons_end {A} (a : A) l : ~ In a l -> NoDup l -> NoDup (l ++ [a]).
Proof. intros H1 H2. induction H2 as [|b l Hb H2 IH]; cbn [app]; [constructor; [intros []|constructor]|]. constructor; [|apply IH; intros X; apply H1; now right]. rewrite in_app_iff. intros [X|[-> |[]]]; [contradiction|apply H1; now left]. Qed.
Lemma defs_always : forall l d, d_fail (defs_data l d) = d_fail d
  /\ d_undef (defs_data l d) = d_undef d ++ unbound (flat_map (fun x => events (df_body x)) l) (d_caps d)
  /\ d_packrat (defs_data l d) = d_packrat d && forallb (fun x => local_refs (events (df_body x)) []) l
  /\ (exists e, d_dup_instrs (defs_data l d) = d_dup_instrs d ++ e /\ (e = [] <-> Forall (fun x => NoDup (map instr_keyword (df_instrs x))) l))
  /\ (exists e, d_dup_defs (defs_data l d) = d_dup_defs d ++ e /\ (NoDup (map r_name (d_rules d)) -> e = [] <-> NoDup (map r_name (d_rules d) ++ map df_name l))).
Proof.
  induction l as [|x l IH]; intros d.
  - cbn. rewrite !app_nil_r, andb_true_r. split; [reflexivity|]. split; [reflexivity|]. split; [reflexivity|]. split; [exists []; rewrite app_nil_r; split; [reflexivity|]; split; [constructor|reflexivity]|].
    exists []. rewrite app_nil_r. split; [reflexivity|]. intros H. split; [auto|reflexivity].
  - change (defs_data (x :: l) d) with (defs_data l (def_data x d)). destruct (IH (def_data x d)) as (A1 & A2 & A3 & (e & A4 & A4') & (e2 & A5 & A5')).
    destruct (def_always x d) as (B1 & B2 & B3 & B4 & (e3 & B5 & B5') & B6). rewrite A1, A2, A3, A4, A5, B1, B2, B3, B4, B5. cbn [flat_map forallb map].
    split; [reflexivity|]. split; [now rewrite unbound_app, app_assoc|]. split; [symmetry; apply andb_assoc|]. split.
    + exists (e3 ++ e). split; [symmetry; apply app_assoc|]. rewrite Forall_cons_iff, <- A4', <- B5'. split; [now intros X%app_eq_nil|now intros [-> ->]].
    + destruct (bmem (df_name x) (map r_name (d_rules d))) eqn:Hb; destruct B6 as [B6 B7]; rewrite B7.
      * exists (df_name x :: e2). rewrite <- app_assoc. split; [reflexivity|]. intros _. split; [discriminate|]. intros X. apply NoDup_remove_2 in X. destruct X. apply in_or_app. left. now apply bmem_In.
      * exists e2. split; [reflexivity|]. intros Hd. rewrite B6, map_app, <- app_assoc in A5'. apply A5'. cbn [map].
        apply NoDup_cons_end; [|exact Hd]. cbn [rule_of r_name]. intros X. apply bmem_In in X. congruence.
Qed.
Lemma defs_fresh : forall l d, NoDup (map r_name (d_rules d) ++ map df_name l) -> Forall (fun x => NoDup (map instr_keyword (df_instrs x))) l -> Forall (fun x => df_name x <> []) l ->
  (forall n, In n (map fst (d_instrs d)) -> In n (map r_name (d_rules d))) ->
  d_rules (defs_data l d) = d_rules d ++ map rule_of l /\ d_instrs (defs_data l d) = d_instrs d ++ instr_table l
  /\ d_start (defs_data l d) = match d_start d with [] => start_name l | s => s end.
Proof.
  induction l as [|x l IH]; intros d H1 H2 H3 H4.
  - cbn. rewrite !app_nil_r. split; [reflexivity|]. split; [reflexivity|]. destruct (d_start d); reflexivity.
  - change (defs_data (x :: l) d) with (defs_data l (def_data x d)). apply Forall_cons_iff in H2 as [K1 K2]. apply Forall_cons_iff in H3 as [N1 N2]. cbn [map] in H1.
    assert (Hn : ~ In (df_name x) (map r_name (d_rules d))) by (apply NoDup_remove_2 in H1; intros X; apply H1, in_or_app; now left).
    destruct (def_fresh x d Hn K1 (fun X => Hn (H4 _ X))) as [F1 F2]. destruct (def_always x d) as (_ & _ & _ & _ & _ & B6).
    destruct (bmem (df_name x) (map r_name (d_rules d))) eqn:Hb; [apply bmem_In in Hb; contradiction|]. destruct B6 as [B6 _].
    destruct (IH (def_data x d)) as (A1 & A2 & A3).
    + rewrite B6, map_app, <- app_assoc. exact H1.
    + exact K2.
    + exact N2.
    + intros n. rewrite F1, B6, !map_app, !in_app_iff. intros [X|X]; [left; now apply H4|right]. unfold ins_of in X. destruct (df_instrs x); [destruct X|]. destruct X as [<- |[]]. now left.
    + rewrite A1, A2, A3, F1, F2, B6. cbn [map]. rewrite <- !app_assoc. split; [reflexivity|]. split; [reflexivity|]. destruct (d_start d) as [|b s]; [|reflexivity].
      unfold start_name. cbn [find]. destruct (percent (df_name x)); cbn [negb]; [reflexivity|]. destruct (df_name x); [congruence|reflexivity].
Qed.

(** ** The text *)
Lemma definition_named w x r : definition w x r -> df_name x <> [].
Proof. intros [h ig n ps a s w0 l i is r0 (p & s0 & _ & (c & cs & -> & Hs & _) & _) _ _ _ _]. cbn [df_name]. unfold utf8_text. cbn [map List.concat]. apply Forall_inv in Hs.
  destruct (chr_head c (utf8_bytes c) (utf8_chr c Hs)) as (b & y & -> & _). discriminate. Qed.
Lemma definitions_named w l : definitions w l -> Forall (fun x => df_name x <> []) l.
Proof. induction 1 as [w x H|w x w' l H _ IH]; constructor; eauto using definition_named. Qed.

Theorem text_parsed g log text l : meta_annotated g -> grammar_text text l ->
  exists F r, (forall fuel, F <= fuel -> def_parse fuel (meta_parser g log) text data0 = Ok r) /\ rs_ret r = true /\ rs_dt r = reset (defs_data l data0).
Proof.
  intros Hg Ht. destruct (reads_grammar_body g log text text l Ht) as (L & [V1 H1]).
  destruct (meta_runs g log text Hg V1) as (k & x & d & F & r & Hr & HF & Hd & Hret). exists F, r. split; [exact HF|].
  destruct k as [|k]; [contradiction|]. cbn [Run.run] in Hr. destruct Hr as (ig & tag & body & y & d1 & R1 & R2 & R3). unfold meta_rules in R1. rewrite sid_sym in R1. injection R1 as <- <- <-.
  change (enter_dt _ (sid SGrammar) 0 data0) with data0 in R2.
  assert (Ha : at_ text 0 (text ++ [])) by (rewrite app_nil_r; split; [lia|]; split; [reflexivity|exact V1]).
  destruct (H1 _ _ _ _ _ _ Ha R2) as (-> & vs' & -> & _). rewrite act_is in R3. unfold acts in R3. cbn [has_action] in R3.
  rewrite (quiet_leave g log text SGrammar) in R3 by reflexivity. destruct R3 as [-> ->]. rewrite Hret, Nat.eqb_refl. split; [reflexivity|exact Hd].
Qed.
Theorem text_read g log text l : meta_annotated g -> grammar_text text l -> consistent l ->
  exists F d, (forall fuel, F <= fuel -> read_text fuel g log text = Ok (Rules d))
    /\ d_rules d = rule_of recover_def :: map rule_of l /\ d_start d = start_name l /\ d_instrs d = instr_table l
    /\ d_packrat d = forallb (fun x => local_refs (events (df_body x)) []) l.
Proof.
  intros Hg Ht (C1 & C2 & C3). destruct (text_parsed g log text l Hg Ht) as (F & r & H1 & H2 & H3). exists F, (rs_dt r).
  destruct (defs_always l data0) as (A1 & A2 & A3 & (e & A4 & A4') & (e2 & A5 & A5')).
  assert (Hn : Forall (fun x => df_name x <> []) l) by (destruct Ht as (s & w & _ & _ & Hd); eapply definitions_named; exact Hd).
  destruct (defs_fresh l data0 C1 C3 Hn) as (B1 & B2 & B3); [intros n []|].
  assert (E1 : e = []) by now apply A4'. assert (E2 : e2 = []) by (apply A5'; [repeat constructor; intros []|exact C1]). subst e e2.
  cbn [d_caps data0] in A2. rewrite C2 in A2. split.
  - intros fuel Hf. unfold read_text. rewrite (H1 fuel Hf). cbn [bind]. rewrite H2, H3. cbn [reset with_caps d_fail d_dup_defs d_dup_instrs d_undef]. rewrite A1, A2, A4, A5. reflexivity.
  - rewrite H3. cbn [reset with_caps d_rules d_start d_instrs d_packrat]. rewrite B1, B2, B3, A3. repeat split; reflexivity.
Qed.
Theorem text_refused g log text l : meta_annotated g -> grammar_text text l -> ~ consistent l ->
  exists F, forall fuel, F <= fuel -> read_text fuel g log text = Ok Refused.
Proof.
  intros Hg Ht HC. destruct (text_parsed g log text l Hg Ht) as (F & r & H1 & H2 & H3). exists F. intros fuel Hf.
  destruct (defs_always l data0) as (A1 & A2 & A3 & (e & A4 & A4') & (e2 & A5 & A5')).
  unfold read_text. rewrite (H1 fuel Hf). cbn [bind]. rewrite H2, H3. cbn [reset with_caps d_fail d_dup_defs d_dup_instrs d_undef]. rewrite A1, A2, A4, A5. cbn [data0 d_fail d_dup_defs d_dup_instrs d_undef d_caps app negb].
  destruct e2 as [|? ?]; [|reflexivity]. destruct e as [|? ?]; [|reflexivity]. cbn [data0 d_caps] in *. destruct (unbound _ _) eqn:Hu; [|reflexivity].
  destruct HC. split; [apply A5'; [repeat constructor; intros []|reflexivity]|]. split; [exact Hu|now apply A4'].
Qed.
