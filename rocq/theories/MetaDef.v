(** * Reading grammar texts: definitions and the whole text. *)
From Verif Require Import Base BaseLemmas Utf8 Utf8Spec Utf8Proofs Escape EscapeSpec EscapeProofs TrieM TrieSpec LineInfo Ope Ctx ErrLog Engine EngineLemmas Scope Bounds EngineFacts Top
  RefSem RefMono Refine RefineOps PegRef PrecSpec PrecM LoadM MetaM Run MetaRun MetaJudge MetaDies NotationSpec MetaLex MetaHead MetaChars MetaLits MetaTerms MetaExpr MetaExprs MetaInstr.

Definition reset (d : data) : data := with_caps (d_undef d) (d_caps d) [] (d_packrat d) d.
Definition defined_of (x : def) : defined := {| f_ignore := df_ignored x; f_name := df_name x; f_params := df_params x; f_ope := df_body x; f_instrs := df_instrs x |}.
Definition def_data (x : def) (d : data) : data := add_definition (defined_of x) (effo (df_body x) (reset d)).
Definition defs_data (l : list def) (d : data) : data := fold_left (fun d x => def_data x d) l d.

Section Def.
  Variables (g : grammar) (log : bool) (text : bytes).
  Notation E := (mk_env (meta_parser g log) text).
  Notation Reads := (Reads g log text).
  Notation ReadsM := (ReadsM g log text).
  Notation Fails := (Fails g log text).
  Notation vope o := (Some (VOpe o)).

  Definition head_vals (ig : bool) (n : bytes) (ps : option (list bytes)) : vals :=
    Some (VBool ig) :: vstr n :: match ps with Some l => [Some (VStrs l)] | None => [] end.
  Lemma reads_def_body w x r : definition w x r -> exists Li, Reads (sym_body SDefinition) w r None (head_vals (df_ignored x) (df_name x) (df_params x) ++ None :: vope (df_body x) :: Li) [] (effo (df_body x))
    /\ (Li = [] /\ df_instrs x = [] \/ Li = [Some (VInstrs (df_instrs x))]).
  Proof.
    intros [h ig n ps a s w0 l i is r0 (p & s0 & -> & Hn & He & Hp & Hs0 & a' & t' & Ha' & Eq) Ha Hs Hx Hi]. cbn [df_ignored df_name df_params df_body df_instrs].
    destruct (reads_instructions g log text i is r0 Hi) as (Li & HLi & HLv). exists Li. split; [|exact HLv].
    pose proof (rd_reads g log text w0 l (i ++ r0) (proj1 (notation_read g log text) w0 l (i ++ r0) Hx)) as HE.
    set (rest := a ++ s ++ w0 ++ i ++ r0) in *.
    assert (HP : exists Lp, Reads (opt (nt SParameters)) p (s0 ++ rest) None Lp [] keepd /\ Lp = match ps with Some l => [Some (VStrs l)] | None => [] end).
    { destruct ps as [pl|].
      - eexists. split; [|reflexivity]. eapply reads_opt. apply (reads_params g log text p pl _ Hp).
      - subst p. exists []. split; [|reflexivity]. apply reads_opt_none. apply (fails_but g log text [x28]); [vm_compute; reflexivity|]. intros b [<- |[]].
        apply spacing_not; [exact Hs0|reflexivity|discriminate|]. unfold rest. now apply arrow_head. }
    destruct HP as (Lp & HP & ELp).
    assert (Hs' : spacing s (w0 ++ i ++ r0)) by exact Hs.
    eapply reads_eq; [apply reads_seq; eapply rs_c; [apply (reads_ignore g log text ig n (p ++ s0 ++ rest) Hn)|eapply rs_c; [apply (reads_name g log text n (p ++ s0 ++ rest) Hn He)|
      eapply rs_c; [exact HP|eapply rs_c; [apply (reads_spacing g log text s0 rest Hs0)|eapply rs_c; [apply (reads_arrow g log text a s (w0 ++ i ++ r0) Ha Hs')|
      eapply rs_c; [exact HE|eapply rs_c; [exact HLi|apply (rs_nil g log text r0)|nrm]|nrm]|unfold rest; nrm]|nrm]|nrm]|nrm]|nrm]|..].
    - nrm.
    - reflexivity.
    - rewrite ELp. unfold head_vals. destruct ps; cbn [app]; nrm.
    - nrm.
    - nrm.
  Qed.
  Lemma read_definition_is x Li : (Li = [] /\ df_instrs x = [] \/ Li = [Some (VInstrs (df_instrs x))]) ->
    read_definition (head_vals (df_ignored x) (df_name x) (df_params x) ++ None :: vope (df_body x) :: Li) = Some (defined_of x).
  Proof.
    unfold head_vals, defined_of. destruct x as [ig n [ps|] o is]; cbn [df_ignored df_name df_params df_body df_instrs]; intros [[-> ->] | ->]; reflexivity.
  Qed.
  Lemma reads_definition w x r : definition w x r -> Reads (nt SDefinition) w r None [None] [] (def_data x).
  Proof.
    intros H. destruct (reads_def_body w x r H) as (Li & [V1 H1] & HLi). split; [exact V1|]. intros pos vs d k y d' Ha Hr. apply hld_run in Hr as (k' & z & d1 & A & B).
    change (enter_dt E (sid SDefinition) pos d) with (reset d) in A. destruct (H1 _ _ _ _ _ _ Ha A) as (-> & vs1 & -> & G).
    assert (Hs : sees text SDefinition (seen (sid SDefinition) (sym_body SDefinition) pos (List.length w) vs1) w (head_vals (df_ignored x) (df_name x) (df_params x) ++ None :: vope (df_body x) :: Li) [] None) by (eapply seen_sees; eauto).
    destruct Hs as [S1 _ _ _]. unfold acts, run_action in B. cbn [has_action effect_of] in B. rewrite S1, (read_definition_is x Li HLi) in B.
    change (leave_dt E (sid SDefinition)) with (fun (_ : nat) (_ : option nat) (v : option mval) (d : data) => (v, d)) in B. cbn beta iota zeta in B.
    destruct B as [-> ->]. split; [reflexivity|]. eexists. split; [reflexivity|]. constructor; [reflexivity|cbn; now rewrite app_nil_r|discriminate].
  Qed.
  (** At the end of the text a definition fails, after it has forgotten the captures. *)
  Lemma more_end : ReadsM (nt SDefinition) None [] [] [] [] reset.
  Proof.
    split; [apply valid_nil|]. intros pos i vs d k [|fuel] x d' Ha H; [contradiction|]. destruct H as (y & d1 & A & B).
    apply hld_run in A as (k' & z & d2 & A & C). change (enter_dt E (sid SDefinition) (pos + i) d) with (reset d) in A.
    assert (HF : Fails (sym_body SDefinition) []).
    { apply fails_seq. eapply (fs_c g log text _ _ [] []).
      - eapply (reads_nt g log text SIgnore [] [] None [] [] keepd (Some (VBool false)) keepd); [reflexivity| |].
        + apply reads_opt_none. apply (dies_fails g log text 40 None); [vm_compute; reflexivity|reflexivity].
        + intros ws d0 [S1 _ _ _]. unfold acts, run_action, value_of. cbn [has_action effect_of]. rewrite S1. reflexivity.
      - reflexivity.
      - apply fs_head. apply (dies_fails g log text 40 None); [vm_compute; reflexivity|reflexivity].
      - reflexivity. }
    cbn [app] in Ha. destruct (HF _ _ _ _ _ _ Ha A) as [-> ->]. destruct C as [-> ->]. destruct B as [-> ->].
    split; [reflexivity|]. exists vs. rewrite Nat.add_0_r. split; [reflexivity|apply gives_nil].
  Qed.
  Lemma reads_definitions w l : definitions w l -> exists w1 x w2 l' L, w = w1 ++ w2 /\ l = x :: l' /\ Reads (nt SDefinition) w1 w2 None [None] [] (def_data x) /\
    ReadsM (nt SDefinition) None w2 [] L [] (fun d => reset (defs_data l' d)).
  Proof.
    induction 1 as [w x H|w x w' l H H' IH].
    - exists w, x, [], [], []. rewrite app_nil_r. split; [reflexivity|]. split; [reflexivity|]. split; [now apply reads_definition|apply more_end].
    - destruct IH as (w1 & y & w2 & l' & L & -> & -> & A & B). exists w, x, (w1 ++ w2), (y :: l'). eexists. split; [reflexivity|]. split; [reflexivity|]. split; [now apply reads_definition|].
      assert (A' : Reads (nt SDefinition) w1 (w2 ++ []) None [None] [] (def_data y)) by (rewrite app_nil_r; exact A).
      eapply rm_eq1; [eapply rm_c; [discriminate|exact A'|exact B|reflexivity]|reflexivity..].
  Qed.
  Lemma reads_end : Reads (nt SEndOfFile) [] [] None [None] [] keepd.
  Proof.
    apply (reads_nt g log text SEndOfFile [] [] None [] [] keepd None keepd); [reflexivity|apply reads_not; apply fails_dot|].
    intros vs d [S1 _ _ _]. unfold acts. cbn [has_action]. now rewrite S1.
  Qed.
  Lemma reads_grammar_body w l : grammar_text w l -> exists L, Reads (sym_body SGrammar) w [] None L [] (fun d => reset (defs_data l d)).
  Proof.
    intros (s & w' & -> & Hs & Hd). destruct (reads_definitions w' l Hd) as (w1 & x & w2 & l' & L & -> & -> & A & B). eexists.
    assert (A' : Reads (nt SDefinition) w1 (w2 ++ []) None [None] [] (def_data x)) by (rewrite app_nil_r; exact A).
    eapply reads_eq; [apply reads_seq; eapply rs_c; [apply (reads_spacing g log text s (w1 ++ w2)); exact Hs|eapply rs_c; [eapply reads_oom; [exact A'|exact B]|
      eapply rs_c; [apply reads_end|apply (rs_nil g log text [])|nrm]|nrm]|nrm]|..]; [nrm|nrm|reflexivity|nrm|nrm].
  Qed.
End Def.
