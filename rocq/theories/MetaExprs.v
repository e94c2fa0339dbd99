(** * Reading grammar texts: every expression of the notation is read as what it means. *)
From Verif Require Import Base BaseLemmas Utf8 Utf8Spec Utf8Proofs Escape EscapeSpec EscapeProofs TrieM TrieSpec LineInfo Ope Ctx ErrLog Engine EngineLemmas Scope Bounds EngineFacts Top
  RefSem RefMono Refine RefineOps PegRef PrecSpec PrecM LoadM MetaM Run MetaRun MetaJudge MetaDies NotationSpec MetaLex MetaHead MetaChars MetaLits MetaTerms MetaExpr.

Scheme expression_m := Minimality for expression Sort Prop
  with sequence_m := Minimality for sequence Sort Prop
  with element_m := Minimality for element Sort Prop
  with primary_m := Minimality for primary Sort Prop
  with arguments_m := Minimality for arguments Sort Prop.
Combined Scheme notation_ind from expression_m, sequence_m, element_m, primary_m, arguments_m.

Lemma spacing_first s r b : spacing s r -> next_is b (s ++ r) -> blank b = true \/ b = sharp \/ s = [] /\ next_is b r.
Proof.
  intros H X. destruct H as [r H|b' w r H1 H2|body w r H1 H2 H3 H4 H5].
  - right; right. auto.
  - injection X as ->. now left.
  - injection X as ->. right; now left.
Qed.
Lemma arrow_first r : arrow_next r -> next_is x3c r \/ next_is xe2 r \/ next_is x28 r.
Proof.
  intros [(a & t & [-> | ->] & ->)|(p & l & a & t & (s & w & -> & _) & _ & ->)]; [left; reflexivity|right; left; reflexivity|right; right; reflexivity].
Qed.
Lemma loop_events l fl r o : NotationSpec.loop l fl r -> events (fl o) = events o. Proof. intros []; reflexivity. Qed.
Lemma mark_events l fl r o : mark l fl r -> events (fl o) = events o. Proof. intros []; reflexivity. Qed.
Lemma label_events l fl r o : label l fl r -> events (fl o) = events o. Proof. intros []; [reflexivity|]. cbn. apply app_nil_r. Qed.
Lemma sequence_events os : events (sequence_of os) = flat_map events os.
Proof. destruct os as [|o [|o' os]]; [reflexivity|cbn; now rewrite app_nil_r|reflexivity]. Qed.
Lemma choice_events os : events (choice_of os) = flat_map events os.
Proof. destruct os as [|o [|o' os]]; [reflexivity|cbn; now rewrite app_nil_r|reflexivity]. Qed.
Lemma reference_events ig n call os : events (reference ig n call os) = flat_map events os.
Proof. unfold reference. destruct (bytes_eqb n recover), ig; reflexivity. Qed.

(** No primary begins with & or ! or an up arrow. *)
Definition starts_ok (p : bytes) : Prop := (exists c t, p = c :: t /\ c <> x26 /\ c <> x21) /\ forall q t, p ++ q <> MetaM.up_arrow ++ t.
Lemma starts_byte b t : b <> x26 -> b <> x21 -> b <> xe2 -> starts_ok (b :: t).
Proof. intros H1 H2 H3. split; [exists b, t; auto|]. intros q t' X. injection X as X _. now apply H3. Qed.
Lemma starts_name ig n t : name n -> starts_ok (ign_text ig ++ n ++ t).
Proof.
  intros H. destruct ig; cbn [ign_text app]; [apply starts_byte; discriminate|]. split.
  - destruct (name_first n H) as (b & t' & -> & Hb). exists b. eexists. split; [reflexivity|].
    apply name_byte in Hb. split; intros ->; discriminate Hb.
  - intros q t'. rewrite <- app_assoc. now apply name_not_up.
Qed.
Lemma primary_starts p o r : primary p o r -> starts_ok p.
Proof.
  intros H. destruct H; try (apply starts_byte; discriminate); try (now apply starts_name).
  - match goal with X : quoted _ _ _ _ |- _ => destruct (quoted_first _ _ _ _ X) as (q & t & -> & [-> | ->]) end; apply starts_byte; discriminate.
  - match goal with X : bars _ _ _ _ |- _ => destruct (bars_first _ _ _ _ X) as (q & t & -> & [-> | ->]) end; apply starts_byte; discriminate.
  - match goal with X : class_ _ _ _ |- _ => destruct X end. apply starts_byte; discriminate.
Qed.

Section Exprs.
  Variables (g : grammar) (log : bool) (text : bytes).
  Notation E := (mk_env (meta_parser g log) text).
  Notation Reads := (Reads g log text).
  Notation ReadsM := (ReadsM g log text).
  Notation Fails := (Fails g log text).
  Notation vope o := (Some (VOpe o)).

  Lemma reads_element m fm p o l fl b fb r f : starts_ok p -> mark m fm (p ++ l ++ b ++ r) -> Reads (nt SPrimary) p (l ++ b ++ r) None [vope o] [] f ->
    NotationSpec.loop l fl (b ++ r) -> label b fb r -> Reads item (m ++ p ++ l ++ b) r None [vope (fm (fb (fl o)))] [] f.
  Proof.
    intros ((c & t & Hp & Hc1 & Hc2) & Hup) H1 H2 H3 H4. eapply reads_weak. apply reads_cho. apply rc_next.
    - apply fails_nt; [reflexivity|]. apply fails_seq, fs_head. apply fails_lit. intros t'. destruct H1 as [r1|s r1|s r1]; [|discriminate..]. cbn [app]. rewrite <- app_assoc. apply Hup.
    - eapply rc_here. pose proof (reads_suffix g log text p o l fl (b ++ r) f H2 H3) as HS. pose proof (reads_labelled g log text (p ++ l) (fl o) b fb r f HS H4) as HL.
      apply (reads_eq1 g log text _ (m ++ (p ++ l) ++ b) _ r None [vope (fm (fb (fl o)))] _ [] _ f); [|nrm..]. apply (reads_prefix g log text m fm); [| |exact HL].
      + revert H1. nrm. auto.
      + intros b' Hb'. rewrite Hp. cbn [app]. intros X. injection X as X. destruct Hb' as [<- |[<- |[]]]; congruence.
  Qed.
  Lemma item_dies b t : dies 40 (Some b) item = true -> Fails item (b :: t). Proof. apply die. Qed.
  Definition simple (n : bytes) : ope := reference false n false [].
  Lemma reads_simple n s b t : name n -> name_ends (s ++ b :: t) -> spacing s (b :: t) -> In b [x29; x2c] -> Reads (nt SExpression) (n ++ s) (b :: t) None [vope (simple n)] [] keepd.
  Proof.
    intros H1 H2 H3 H4.
    assert (H5 : ~ next_is x28 (s ++ b :: t)).
    { intros X. destruct (spacing_first _ _ _ H3 X) as [Y|[Y|[_ Y]]]; [discriminate Y|discriminate Y|]. injection Y as ->. destruct H4 as [X1|[X1|[]]]; discriminate X1. }
    assert (H6 : ~ arrow_next (b :: t)) by (intros X; destruct (arrow_first _ X) as [Y|[Y|Y]]; injection Y as ->; destruct H4 as [X1|[X1|[]]]; discriminate X1).
    pose proof (reads_reference g log text false n s (b :: t) H1 H2 H5 H3 H6) as HP. cbn [ign_text app] in HP.
    assert (HI : Reads item ([] ++ (n ++ s) ++ [] ++ []) (b :: t) None [vope (simple n)] [] keepd).
    { refine (reads_element [] (fun o => o) (n ++ s) (simple n) [] (fun o => o) [] (fun o => o) (b :: t) keepd _ _ HP _ _).
      - apply (starts_name false n s H1).
      - constructor.
      - constructor. split; [|split; [|split]]; [intros X; injection X as ->; destruct H4 as [X1|[X1|[]]]; discriminate X1..|].
        intros s' t' b' X. injection X as -> _. destruct H4 as [X1|[X1|[]]]; discriminate X1.
      - constructor. split; [intros X; injection X as ->; destruct H4 as [X1|[X1|[]]]; discriminate X1|]. intros t' X. injection X as -> _. destruct H4 as [X1|[X1|[]]]; discriminate X1. }
    cbn [app] in HI. rewrite app_nil_r in HI.
    assert (HS : Reads (nt SSequence) (n ++ s) (b :: t) None [vope (simple n)] [] keepd).
    { apply (reads_sequence g log text (n ++ s) [simple n]). eapply rm_eq1; [eapply rm_c; [discriminate|exact HI|apply (rm_nil g log text item None (b :: t)); apply item_dies; destruct H4 as [<- |[<- |[]]]; vm_compute; reflexivity|nrm]|nrm..]. }
    eapply reads_eq1; [apply (reads_expr g log text (n ++ s) (simple n) [] [] (b :: t)); [exact HS|apply rm_nil; apply fails_slash; intros X; injection X as ->; destruct H4 as [X1|[X1|[]]]; discriminate X1]|nrm..].
  Qed.
  Lemma names_more w l r : names w l r -> exists n s1 w1 s2 l', l = n :: l' /\ w = (n ++ s1) ++ w1 ++ x29 :: s2 /\ name n /\ name_ends (s1 ++ w1 ++ x29 :: s2 ++ r)
    /\ spacing s1 (w1 ++ x29 :: s2 ++ r) /\ spacing s2 r /\ (exists b t, w1 ++ x29 :: s2 ++ r = b :: t /\ In b [x29; x2c]) /\ ReadsM comma_expr None w1 (x29 :: s2 ++ r) (vopes (map simple l')) [] keepd.
  Proof.
    induction 1 as [n s1 s2 r H1 H2 H3 H4|n s1 s2 w l r H1 H2 H3 H4 H5 IH].
    - exists n, s1, [], s2, []. do 6 (split; [first [assumption|nrm]|]). split; [exists x29, (s2 ++ r); split; [reflexivity|now left]|]. apply rm_nil. apply fails_comma_expr. discriminate.
    - destruct IH as (n' & s1' & w1 & s2' & l' & -> & -> & A & B & C & D & (b & t & F1 & F2) & F). exists n, s1, (x2c :: s2 ++ (n' ++ s1') ++ w1), s2', (n' :: l').
      rewrite <- !app_assoc in *. cbn [app] in *. rewrite <- !app_assoc in *. cbn [app] in *.
      split; [reflexivity|]. split; [reflexivity|]. split; [exact H1|]. split; [exact H2|]. split; [exact H3|]. split; [exact D|].
      split; [eexists; eexists; split; [reflexivity|right; now left]|].
      assert (HS : Reads (nt SExpression) (n' ++ s1') (w1 ++ x29 :: s2' ++ r) None [vope (simple n')] [] keepd) by (rewrite F1 in *; apply reads_simple; assumption).
      eapply rm_eq1; [eapply rm_c; [discriminate|apply (reads_comma_expr g log text s2 (n' ++ s1') (simple n') (w1 ++ x29 :: s2' ++ r) keepd); [revert H4; nrm; auto|exact HS]|exact F|nrm]|nrm..].
  Qed.
  Lemma params_args p l r : parameters p l r -> Reads (nt SArguments) p r None [Some (VOpes (map simple l))] [] keepd.
  Proof.
    intros (s & w & -> & Hs & Hn). destruct (names_more w l r Hn) as (n & s1 & w1 & s2 & l' & -> & -> & A & B & C & D & (b & t & F1 & F2) & F).
    assert (HS : Reads (nt SExpression) (n ++ s1) (w1 ++ x29 :: s2 ++ r) None [vope (simple n)] [] keepd) by (rewrite F1 in *; apply reads_simple; assumption).
    apply (reads_args g log text s (n ++ s1) (simple n) w1 (map simple l') s2 r keepd keepd); [revert Hs; nrm; auto|exact HS|exact F|exact D].
  Qed.
  Lemma spacing_not b s r : spacing s r -> blank b = false -> b <> sharp -> ~ next_is b r -> ~ next_is b (s ++ r).
  Proof. intros H1 H2 H3 H4 X. destruct (spacing_first _ _ _ H1 X) as [Y|[Y|[_ Y]]]; [congruence|congruence|auto]. Qed.
  Lemma alts_split : alts = seq [nt SIgnore; nt SIdentCont; opt (nt SArguments); nt SSpacing; npd arrow_ahead] :: tl alts. Proof. reflexivity. Qed.
  Lemma tail_table : forallb (fun b => forallb (dies 40 (Some b)) (tl alts)) (x7e :: name_bytes) = true. Proof. vm_compute. reflexivity. Qed.
  Lemma fc_all (P : ope -> bool) s : (forall o, P o = true -> Fails o s) -> forall l, forallb P l = true -> FailsC g log text l s.
  Proof.
    intros HP. induction l as [|o l IH]; intros H; [apply fc_nil|]. cbn [forallb] in H. apply andb_true_iff in H as [X1 X2]. apply fc_cons; [apply HP; exact X1|apply IH; exact X2].
  Qed.
  Lemma forall_in (P : byte -> bool) l b : forallb P l = true -> In b l -> P b = true. Proof. intros H. now apply forallb_forall. Qed.
  Lemma tail_dies b u : In b (x7e :: name_bytes) -> FailsC g log text (tl alts) (b :: u).
  Proof. intros Hb. apply (fc_all (dies 40 (Some b))); [intros o H; exact (die g log text b o u H)|]. exact (forall_in (fun b => forallb (dies 40 (Some b)) (tl alts)) _ b tail_table Hb). Qed.
  Definition alt0 : list ope := [nt SIgnore; nt SIdentCont; opt (nt SArguments); nt SSpacing; npd arrow_ahead].
  Lemma head_alt0 p s ig n (ps : option (list bytes)) a t' : name n -> name_ends (p ++ s ++ a ++ t') -> match ps with None => p = [] | Some l => parameters p l (s ++ a ++ t') end ->
    spacing s (a ++ t') -> arrow a -> valid_utf8 t' -> FailsS g log text alt0 (ign_text ig ++ n ++ p ++ s ++ a ++ t').
  Proof.
    intros Hn He Hp Hs Ha Vt. destruct (reads_ahead g log text a t' Ha Vt) as (wa & ra & Ea & HA).
    eapply fs_c; [apply (reads_ignore g log text ig n (p ++ s ++ a ++ t') Hn)|reflexivity| |reflexivity].
    eapply fs_c; [apply (reads_name g log text n (p ++ s ++ a ++ t') Hn He)|reflexivity| |reflexivity].
    assert (Hend : FailsS g log text [nt SSpacing; npd arrow_ahead] (s ++ a ++ t')).
    { eapply fs_c; [apply (reads_spacing g log text s _ Hs)|reflexivity| |reflexivity]. apply fs_head. rewrite Ea. eapply fails_not; [exact HA|reflexivity]. }
    destruct ps as [l|]; [|subst p].
    - eapply fs_c; [eapply reads_opt; apply (params_args p l _ Hp)|reflexivity|exact Hend|reflexivity].
    - eapply (fs_c g log text _ _ []); [apply reads_opt_none; apply fails_args|reflexivity|exact Hend|reflexivity].
      apply spacing_not; [exact Hs|reflexivity|discriminate|now apply arrow_head].
  Qed.
  Lemma fails_primary s : FailsS g log text alt0 s -> FailsC g log text (tl alts) s -> Fails (nt SPrimary) s.
  Proof. intros H1 H2. apply fails_nt; [reflexivity|]. apply (fails_cho g log text (seq alt0 :: tl alts)). apply fc_cons; [|exact H2]. apply fails_seq. exact H1. Qed.
  Lemma fails_prefix s : (forall b, In b [x26; x21] -> ~ next_is b s) -> Fails (nt SPrimary) s -> Fails (nt SPrefix) s.
  Proof.
    intros H1 H2. apply fails_nt; [reflexivity|]. apply fails_seq. eapply (fs_c g log text _ _ []); [apply reads_opt_none|reflexivity| |reflexivity].
    - apply (fails_but g log text [x26; x21]); [vm_compute; reflexivity|exact H1].
    - apply fs_head. apply fails_nt; [reflexivity|]. apply fails_seq, fs_head. apply fails_nt; [reflexivity|]. apply fails_seq, fs_head. exact H2.
  Qed.
  Lemma head_valid p s ig n (ps : option (list bytes)) a t' : name n -> name_ends (p ++ s ++ a ++ t') -> match ps with None => p = [] | Some l => parameters p l (s ++ a ++ t') end ->
    spacing s (a ++ t') -> arrow a -> valid_utf8 (ign_text ig ++ n ++ p ++ s ++ a ++ t') -> valid_utf8 t'.
  Proof.
    intros Hn He Hp Hs Ha Hv. assert (Vn : valid_utf8 n) by (eapply reads_valid; apply (reads_name g log text n _ Hn He)).
    assert (Vi : valid_utf8 (ign_text ig)) by (eapply reads_valid; apply (reads_ignore g log text ig n [] Hn)).
    assert (Vs : valid_utf8 s) by (eapply reads_valid; apply (reads_spacing g log text s _ Hs)).
    assert (Vp : valid_utf8 p) by (destruct ps; [eapply reads_valid; apply (reads_params g log text p _ _ Hp)|subst p; apply valid_nil]).
    pose proof (arrow_valid a Ha) as Va. eapply valid_rest; [|exact Va]. eapply valid_rest; [|exact Vs]. eapply valid_rest; [|exact Vp]. eapply valid_rest; [|exact Vn]. eapply valid_rest; [|exact Vi]. exact Hv.
  Qed.
  Lemma head_first ig n u : name n -> exists b t, ign_text ig ++ n ++ u = b :: t /\ In b (x7e :: name_bytes).
  Proof.
    intros Hn. destruct ig; cbn [ign_text app]; [eexists; eexists; split; [reflexivity|apply in_eq]|]. destruct (name_first n Hn) as (b & v & -> & Hb). eexists; eexists. split; [reflexivity|apply in_cons; exact Hb].
  Qed.
  Lemma fails_head w ig n ps t : head w ig n ps t -> Fails item (w ++ t).
  Proof.
    intros (p & s & -> & Hn & He & Hp & Hs & a & t' & Ha & ->). apply fails_valid. rewrite <- !app_assoc. intros Hv.
    pose proof (head_valid p s ig n ps a t' Hn He Hp Hs Ha Hv) as Vt. pose proof (starts_name ig n (p ++ s ++ a ++ t') Hn) as (Hst & Hup).
    apply fails_cho. apply fc_cons; [apply fails_nt; [reflexivity|]; apply fails_seq, fs_head; apply fails_lit; intros u X; apply (Hup [] u); rewrite app_nil_r; exact X|]. apply fc_cons; [|apply fc_nil].
    apply fails_prefix.
    - destruct Hst as (c & u & -> & Hc1 & Hc2). intros b [<- |[<- |[]]] X; injection X as X; congruence.
    - apply fails_primary; [apply (head_alt0 p s ig n ps a t'); assumption|]. destruct (head_first ig n (p ++ s ++ a ++ t') Hn) as (b & u & -> & Hb). apply tail_dies. exact Hb.
  Qed.
  Lemma ends_fails r : sequence_ends r -> Fails item r.
  Proof.
    intros [-> |[(b & Hb & Hi)|(w & ig & n & ps & t & Hh & ->)]].
    - apply (dies_fails g log text 40 None); [vm_compute; reflexivity|reflexivity].
    - apply (dies_fails g log text 40 (Some b)); [|exact Hb]. repeat destruct Hi as [<- |Hi]; try (vm_compute; reflexivity). destruct Hi.
    - eapply fails_head; eauto.
  Qed.

  Lemma reads_cut s r : spacing s r -> Reads item (NotationSpec.up_arrow ++ s) r None [vope Cut] [] keepd.
  Proof.
    intros H. eapply reads_weak. apply reads_cho. eapply rc_here.
    assert (HR : Reads (sym_body SCUT) (NotationSpec.up_arrow ++ s) r None [] [] keepd).
    { eapply reads_eq1; [apply reads_seq; eapply rs_c; [apply (reads_lit g log text NotationSpec.up_arrow (s ++ r)); eapply chr_valid; apply up_chr|eapply rs_c; [apply (reads_spacing g log text s r H)|apply rs_nil|nrm]|nrm]|nrm..]. }
    pose proof (reads_nt g log text SCUT _ _ None [] [] keepd (vope Cut) keepd eq_refl HR) as X. apply X. intros vs d _. reflexivity.
  Qed.
  Definition rd_expr (w : bytes) (l : list ope) (r : bytes) : Prop :=
    exists w1 o w2 l', w = w1 ++ w2 /\ l = o :: l' /\ Reads (nt SSequence) w1 (w2 ++ r) None [vope o] [] (effo o) /\ ReadsM slash_seq None w2 r (vopes l') [] (effs l').
  Lemma rd_reads w l r : rd_expr w l r -> Reads (nt SExpression) w r None [vope (choice_of l)] [] (effo (choice_of l)).
  Proof.
    intros (w1 & o & w2 & l' & -> & -> & H1 & H2). eapply reads_eq1; [apply (reads_expr g log text w1 o w2 l' r _ _ H1 H2)|reflexivity..|].
    intros d. unfold effo, effs. rewrite choice_events. cbn [flat_map]. now rewrite eff_app.
  Qed.
  Theorem notation_read :
    (forall w l r, expression w l r -> rd_expr w l r)
    /\ (forall w os r, sequence w os r -> ReadsM item None w r (vopes os) [] (effs os))
    /\ (forall w o r, element w o r -> Reads item w r None [vope o] [] (effo o))
    /\ (forall w o r, primary w o r -> Reads (nt SPrimary) w r None [vope o] [] (effo o))
    /\ (forall w os r, arguments w os r -> exists w1 o w2 l' s', w = w1 ++ w2 ++ x29 :: s' /\ os = o :: l' /\ Reads (nt SExpression) w1 (w2 ++ x29 :: s' ++ r) None [vope o] [] (effo o)
         /\ ReadsM comma_expr None w2 (x29 :: s' ++ r) (vopes l') [] (effs l') /\ spacing s' r).
  Proof.
    apply notation_ind.
    - intros w os r _ IH Hn. exists w, (sequence_of os), [], []. rewrite app_nil_r. split; [reflexivity|]. split; [reflexivity|]. split; [|apply rm_nil; now apply fails_slash].
      eapply reads_eq1; [apply (reads_sequence g log text w os r _ IH)|reflexivity..|]. intros d. unfold effo, effs. now rewrite sequence_events.
    - intros w os s w' l r _ IH Hs _ (w1 & o & w2 & l' & -> & -> & H1 & H2). exists w, (sequence_of os), (x2f :: s ++ w1 ++ w2), (o :: l'). split; [reflexivity|]. split; [reflexivity|]. split.
      + eapply reads_eq; [apply (reads_sequence g log text w os _ _ IH)|nrm..|]. intros d. unfold effo, effs. now rewrite sequence_events.
      + eapply rm_eq1; [eapply rm_c; [discriminate|apply (reads_slash g log text s w1 o (w2 ++ r) (effo o)); [revert Hs; nrm; auto|exact H1]|exact H2|nrm]|nrm..]. intros d. unfold effo, effs. cbn [flat_map]. now rewrite eff_app.
    - intros r H. apply rm_nil. now apply ends_fails.
    - intros s w os r Hs _ IH. eapply rm_eq1; [eapply rm_c; [discriminate|apply (reads_cut s (w ++ r) Hs)|exact IH|nrm]|nrm..].
    - intros w o w' os r _ IH1 _ IH2. eapply rm_eq1; [eapply rm_c; [discriminate|exact IH1|exact IH2|nrm]|nrm..]. intros d. unfold effo, effs. cbn [flat_map]. now rewrite eff_app.
    - intros m fm p o l fl b fb r Hm Hp IH Hl Hb. eapply reads_eq1; [apply (reads_element m fm p o l fl b fb r _ (primary_starts _ _ _ Hp) Hm IH Hl Hb)|reflexivity..|].
      intros d. unfold effo. now rewrite (mark_events _ _ _ _ Hm), (label_events _ _ _ _ Hb), (loop_events _ _ _ _ Hl).
    - intros ig n s r H1 H2 H3 H4 H5. eapply reads_eq1; [apply (reads_reference g log text ig n s r H1 H2 H3 H4 H5)|reflexivity..|]. intros d. unfold effo. rewrite reference_events. reflexivity.
    - intros ig n s w os r H1 H2 _ (w1 & o & w2 & l' & s' & -> & -> & A & B & C) H4.
      eapply reads_eq1; [apply (reads_call g log text ig n (s ++ w1 ++ w2 ++ x29 :: s') (o :: l') r (effo o >> effs l') H1)|nrm..|].
      + apply (reads_args g log text s w1 o w2 l' s' r (effo o) (effs l')); [revert H2; nrm; auto|exact A|exact B|exact C].
      + eapply spacing_done; exact C.
      + exact H4.
      + intros d. unfold effo, effs. rewrite reference_events. cbn [flat_map]. now rewrite eff_app.
    - intros s w l s' r H1 _ IH H3. apply rd_reads in IH. apply (reads_group g log text s w _ s' r _ H1 IH H3).
    - intros s w l s' r H1 _ IH H3. apply rd_reads in IH. apply (reads_token g log text s w _ s' r _ H1 IH H3).
    - intros s w l s' r H1 _ IH H3. apply rd_reads in IH. eapply reads_eq1; [apply (reads_scope g log text s w _ s' r _ H1 IH H3)|reflexivity..|].
      intros d. unfold effo. cbn [events]. change (Open :: events (choice_of l) ++ [Close]) with ([Open] ++ events (choice_of l) ++ [Close]). rewrite !eff_app. reflexivity.
    - intros n s w l s' r H0 H1 _ IH H3. apply rd_reads in IH. eapply reads_eq1; [apply (reads_capture g log text n s w _ s' r _ H0 H1 IH H3)|reflexivity..|].
      intros d. unfold effo. cbn [events]. rewrite eff_app. reflexivity.
    - intros n s r H1 H2 H3 H4. apply (reads_back g log text n s r H1 H2 H3 H4).
    - intros ic w m r H1 H2. apply (reads_lit_p g log text ic w m r H1 H2).
    - intros ic w ms r H1 H2. apply (reads_dict_p g log text ic w ms r H1 H2).
    - intros w o r H1. destruct H1. eapply reads_eq1; [eapply reads_class_p; constructor; eassumption|nrm..].
    - intros s r H. apply (reads_dot_p g log text s r H).
    - intros w l s r _ IH Hs. apply rd_reads in IH. exists w, (choice_of l), [], [], s. split; [reflexivity|]. split; [reflexivity|]. split; [exact IH|]. split; [|exact Hs]. apply rm_nil. apply fails_comma_expr. discriminate.
    - intros w l s w' os r _ IH1 Hs _ (w1 & o & w2 & l' & s' & -> & -> & A & B & C). apply rd_reads in IH1. exists w, (choice_of l), (x2c :: s ++ w1 ++ w2), (o :: l'), s'. split; [nrm|]. split; [reflexivity|]. split.
      + eapply reads_eq; [exact IH1|nrm..].
      + split; [|exact C]. eapply rm_eq1; [eapply rm_c; [discriminate|apply (reads_comma_expr g log text s w1 o (w2 ++ x29 :: s' ++ r) (effo o)); [revert Hs; nrm; auto|exact A]|exact B|nrm]|nrm..].
        intros d. unfold effo, effs. cbn [flat_map]. now rewrite eff_app.
  Qed.
End Exprs.
