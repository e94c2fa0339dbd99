(** * Reading grammar texts: instructions. *)
From Verif Require Import Base BaseLemmas Utf8 Utf8Spec Utf8Proofs Escape EscapeSpec EscapeProofs TrieM TrieSpec LineInfo Ope Ctx ErrLog Engine EngineLemmas Scope Bounds EngineFacts Top
  RefSem RefMono Refine RefineOps PegRef PrecSpec PrecM LoadM MetaM Run MetaRun MetaJudge MetaDies NotationSpec MetaLex MetaHead MetaChars MetaLits MetaTerms MetaExpr.

Lemma gap_total s : exists w r, s = w ++ r /\ gap w r.
Proof.
  induction s as [|b s (w & r & -> & H1 & H2)]; [exists [], []; split; [reflexivity|]; split; [reflexivity|discriminate]|].
  destruct (blank b) eqn:Hb.
  - exists (b :: w), r. split; [reflexivity|]. split; [cbn [forallb]; now rewrite Hb|exact H2].
  - exists [], (b :: w ++ r). split; [reflexivity|]. split; [reflexivity|]. intros b' X. injection X as <-. exact Hb.
Qed.
Lemma ascii_word w : forallb (fun b => bN b <? 128)%N w = true -> valid_utf8 w.
Proof.
  induction w as [|b w IH]; intros H; [apply valid_nil|]. cbn [forallb] in H. apply andb_true_iff in H as [H1 H2]. apply (valid_app [b] w); [|auto]. eapply chr_valid. apply chr_ascii. lia.
Qed.

Section Instr.
  Variables (g : grammar) (log : bool) (text : bytes).
  Notation E := (mk_env (meta_parser g log) text).
  Notation Reads := (Reads g log text).
  Notation ReadsM := (ReadsM g log text).
  Notation Fails := (Fails g log text).

  (** ** Blanks *)
  Lemma fails_space r : (forall b, next_is b r -> blank b = false) -> Fails (nt SSpace) r.
  Proof.
    intros H. apply (fails_but g log text [x20; x09; x0a; x0d]); [vm_compute; reflexivity|].
    intros b Hin Hb. specialize (H b Hb). destruct Hin as [<- |[<- |[<- |[<- |[]]]]]; discriminate H.
  Qed.
  Lemma blanks_more : forall n s r, List.length s <= n -> gap s r -> s = [] \/ exists e s', s = e ++ s' /\ e <> [] /\ gap s' r /\ Reads (nt SSpace) e (s' ++ r) None [None] [] keepd.
  Proof.
    intros n s r Hl [H1 H2]. destruct s as [|b s]; [now left|right]. cbn [forallb] in H1. apply andb_true_iff in H1 as [Hb H1].
    assert (Hone : forall e s', b :: s = e ++ s' -> e <> [] -> (e = [x20] \/ e = [x09] \/ e = [x0a] \/ e = [x0d; x0a] \/ e = [x0d] /\ ~ next_is x0a (s' ++ r)) -> forallb blank s' = true ->
      exists e s', b :: s = e ++ s' /\ e <> [] /\ gap s' r /\ Reads (nt SSpace) e (s' ++ r) None [None] [] keepd).
    { intros e s' He Hne Hx Hs'. exists e, s'. split; [exact He|]. split; [exact Hne|]. split; [split; assumption|]. now apply reads_space. }
    destruct b; try discriminate Hb.
    - apply (Hone [x09] s); auto. discriminate.
    - apply (Hone [x0a] s); auto. discriminate.
    - destruct s as [|b s].
      + apply (Hone [x0d] []); auto; [discriminate|]. right; right; right; right. split; [reflexivity|]. intros X. specialize (H2 _ X). discriminate H2.
      + destruct (beq b x0a) eqn:Hb1.
        * apply beq_eq in Hb1 as ->. apply (Hone [x0d; x0a] s); auto. discriminate.
        * apply (Hone [x0d] (b :: s)); auto; [discriminate|]. right; right; right; right. split; [reflexivity|]. intros X. injection X as ->. discriminate.
    - apply (Hone [x20] s); auto. discriminate.
  Qed.
  Lemma blanks_zom : forall n s r, List.length s <= n -> gap s r -> exists L, ReadsM (nt SSpace) None s r L [] keepd.
  Proof.
    induction n as [|n IH]; intros s r Hl Hg; (destruct (blanks_more _ s r Hl Hg) as [-> |(e & s' & -> & He & Hg' & HR)]; [exists []; apply rm_nil; apply fails_space; apply Hg|]).
    - destruct e; [congruence|cbn in Hl; lia].
    - destruct (IH s' r) as [L HL]; [rewrite app_length in Hl; destruct e; [congruence|cbn in Hl; lia]|exact Hg'|]. exists (None :: L). eapply rm_eq1; [eapply rm_c; [discriminate|exact HR|exact HL|nrm]|nrm..].
  Qed.
  Lemma reads_gap s r : gap s r -> Reads (nt SSpacesZom) s r None [] [] keepd.
  Proof. intros H. destruct (blanks_zom _ s r (le_n _) H) as [L HL]. eapply (reads_drop g log text SSpacesZom); try reflexivity. apply reads_zom. exact HL. Qed.
  Lemma reads_gap1 s r : gap s r -> s <> [] -> Reads (nt SSpacesOom) s r None [] [] keepd.
  Proof.
    intros H Hs. destruct (blanks_more _ s r (le_n _) H) as [-> |(e & s' & -> & He & Hg' & HR)]; [congruence|]. destruct (blanks_zom _ s' r (le_n _) Hg') as [L HL].
    eapply reads_eq1; [eapply (reads_drop g log text SSpacesOom); try reflexivity; eapply reads_oom; [exact HR|exact HL]|nrm..].
  Qed.
  Lemma fails_gap1 r : (forall b, next_is b r -> blank b = false) -> Fails (nt SSpacesOom) r.
  Proof. intros H. apply fails_nt; [reflexivity|]. apply (fails_rep1 g log text (nt SSpace) 0 None). now apply fails_space. Qed.
  (** What comes after one or more blanks fails. *)
  Lemma fails_after (F : bytes -> Prop) l r : (forall s t, r = s ++ t -> gap s t -> s <> [] -> FailsS g log text l t) -> FailsS g log text (nt SSpacesOom :: l) r.
  Proof.
    intros H. destruct (gap_total r) as (s & t & -> & Hg). destruct s as [|b s].
    - apply fs_head. apply fails_gap1. apply Hg.
    - eapply fs_c; [apply (reads_gap1 (b :: s) t Hg); discriminate|reflexivity| |reflexivity]. apply (H (b :: s) t eq_refl Hg). discriminate.
  Qed.

  (** ** Operators *)
  Definition op_char (q : byte) : ope := seq [npd (cho [nt SSpace; cls [q]]); nt SChar].
  Definition op_plain_char : ope := seq [npd (cho [nt SPrecedenceAssoc; nt SSpace; chr x7d]); dot].
  Lemma op_more q : quote q -> forall l r, Forall char_ok l -> separated (flat_map char_items l) = true -> ~ In (Letter (bN q)) l -> (forall c, In c [32; 9; 10; 13]%N -> ~ In (Letter c) l) ->
    exists L, ReadsM (op_char q) None (chars_text l) (q :: r) L [] keepd.
  Proof.
    intros Hq. induction l as [|c l IH]; intros r H1 H2 H3 H0.
    - exists []. apply rm_nil. apply fails_seq. apply fs_head. apply (fails_not g log text _ [q] r (Some 1) [] [] keepd); [|reflexivity]. apply reads_cho.
      apply rc_next; [apply fails_space; intros b X; injection X as <-; destruct Hq as [-> | ->]; reflexivity|]. eapply rc_here. now apply reads_q.
    - inversion H1 as [|? ? Hc H4]; subst. destruct (sep_head c l q r Hc H2 Hq) as [S1 S2]. destruct (IH r H4 S2) as [L HL]; [intros X; apply H3; now right|intros k Hk X; apply (H0 k Hk); now right|].
      eexists. eapply rm_eq1; [eapply rm_c; [discriminate|apply reads_seq; eapply rs_c; [apply (reads_not g log text (cho [nt SSpace; cls [q]]) (char_text c ++ chars_text l ++ q :: r))|eapply rs_c;
        [eapply (reads_char g log text c (chars_text l ++ q :: r)); assumption|apply (rs_nil g log text (chars_text l ++ q :: r))|nrm]|nrm]|exact HL|nrm]|try nrm; reflexivity..].
      apply fails_cho. apply fc_cons; [|apply fc_cons; [|apply fc_nil]].
      + apply fails_space. intros b X. destruct (char_first c Hc) as (b' & y & Hy & Hb). rewrite Hy in X. injection X as ->. destruct Hb as [-> |(k & -> & [[_ Hk]|[_ Hk]])]; [reflexivity|..].
        * destruct (blank b) eqn:Hbl; [|reflexivity]. exfalso. apply (H0 k); [|now left]. rewrite <- Hk. destruct b; try discriminate Hbl; cbn; auto.
        * destruct b; try reflexivity; cbn in Hk; lia.
      + apply fails_q; [exact Hq|]. apply char_not_q; [exact Hq|exact Hc|]. intros ->. apply H3. now left.
  Qed.
  Lemma stop_dies b : stops b = false -> dies 40 (Some b) (cho [nt SPrecedenceAssoc; nt SSpace; chr x7d]) = true.
  Proof.
    intros H. assert (X : forallb (fun b => if stops b then true else dies 40 (Some b) (cho [nt SPrecedenceAssoc; nt SSpace; chr x7d])) bytes256 = true) by (vm_compute; reflexivity).
    rewrite forallb_forall in X. specialize (X b (bytes256_all b)). now rewrite H in X.
  Qed.
  Lemma stop_reads b r : stops b = true -> exists w t C L T, b :: r = w ++ t /\ Reads (cho [nt SPrecedenceAssoc; nt SSpace; chr x7d]) w t C L T keepd.
  Proof.
    intros H. assert (Ha : forall b, In b [left_; right_] -> exists w t C L T, b :: r = w ++ t /\ Reads (cho [nt SPrecedenceAssoc; nt SSpace; chr x7d]) w t C L T keepd).
    { intros b' Hb. exists [b'], r. eexists. eexists. exists []. split; [reflexivity|]. apply reads_cho. eapply rc_here.
      assert (HR : Reads (sym_body SPrecedenceAssoc) [b'] r None [] [] keepd) by (eapply reads_cls_b; destruct Hb as [<- |[<- |[]]]; reflexivity).
      apply (reads_nt g log text SPrecedenceAssoc _ _ None [] [] keepd (Some (VView [b'])) keepd eq_refl HR). intros vs d [_ S2 S3 _]. unfold acts, run_action, value_of. cbn [has_action effect_of obind].
      unfold token_text. destruct (v_toks vs); [|discriminate S2]. unfold tt in S3. now rewrite S3. }
    unfold stops in H. apply orb_true_iff in H as [H|H]; [apply orb_true_iff in H as [H|H]; [apply orb_true_iff in H as [H|H]|]|].
    - assert (Hs : exists e t, b :: r = e ++ t /\ (e = [x20] \/ e = [x09] \/ e = [x0a] \/ e = [x0d; x0a] \/ e = [x0d] /\ ~ next_is x0a t)).
      { destruct b; try discriminate H; [exists [x09], r; auto|exists [x0a], r; auto| |exists [x20], r; auto].
        destruct r as [|b r]; [exists [x0d], []; split; [reflexivity|]; right; right; right; right; split; [reflexivity|discriminate]|].
        destruct (beq b x0a) eqn:Hb; [apply beq_eq in Hb as ->; exists [x0d; x0a], r; split; [reflexivity|right; right; right; left; reflexivity]|]. exists [x0d], (b :: r). split; [reflexivity|]. right; right; right; right. split; [reflexivity|]. intros X. injection X as ->. discriminate. }
      destruct Hs as (e & t & He & Hx). exists e, t. eexists. eexists. exists []. split; [exact He|]. apply reads_cho. apply rc_next; [|eapply rc_here; apply reads_space; exact Hx].
      rewrite <- He. apply die. destruct b; try discriminate H; vm_compute; reflexivity.
    - apply beq_eq in H as ->. apply Ha. now left.
    - apply beq_eq in H as ->. apply Ha. right; now left.
    - apply beq_eq in H as ->. exists [x7d], r. eexists. eexists. exists []. split; [reflexivity|]. apply reads_cho. do 2 (apply rc_next; [apply die; vm_compute; reflexivity|]). eapply rc_here. apply reads_chr. reflexivity.
  Qed.
  Lemma plain_more : forall n w r, List.length w <= n -> valid_utf8 w -> forallb (fun b => negb (stops b)) w = true -> (forall b, next_is b r -> stops b = true) ->
    w = [] /\ Fails op_plain_char r \/ exists e w', w = e ++ w' /\ Reads op_plain_char e (w' ++ r) None [] [] keepd /\ ReadsM op_plain_char None w' r [] [] keepd.
  Proof.
    induction n as [|n IH]; intros w r Hl Hv Hw Hr.
    - destruct w; [|cbn in Hl; lia]. left. split; [reflexivity|]. apply fails_seq. destruct r as [|b r].
      + eapply (fs_c g log text _ _ [] []); [apply reads_not; apply (dies_fails g log text 40 None); [vm_compute; reflexivity|reflexivity]|reflexivity|apply fs_head, fails_dot|reflexivity].
      + destruct (stop_reads b r (Hr b eq_refl)) as (e & t & C & L & T & -> & HR). apply fs_head. eapply fails_not; [exact HR|reflexivity].
    - destruct (valid_first w Hv) as [-> |(c & x & t & -> & Hc & Ht)]; [apply (IH [] r); [cbn; lia|exact Hv|reflexivity|exact Hr]|]. right.
      destruct (chr_head c x Hc) as (b & y & -> & _). rewrite forallb_app in Hw. apply andb_true_iff in Hw as [Hw1 Hw2]. cbn [app List.length] in Hl. rewrite app_length in Hl.
      exists (b :: y), t. split; [reflexivity|]. split.
      + eapply reads_eq1; [apply reads_seq; eapply rs_c; [apply (reads_not g log text _ ((b :: y) ++ t ++ r))|eapply rs_c; [eapply (reads_dot g log text c (b :: y) (t ++ r)); exact Hc|apply (rs_nil g log text (t ++ r))|nrm]|nrm]|nrm..].
        cbn [app]. apply die. apply stop_dies. cbn in Hw1. destruct (stops b); [discriminate Hw1|reflexivity].
      + destruct (IH t r) as [[-> Hf]|(e & w' & -> & HA & HB)]; [lia|exact Ht|exact Hw2|exact Hr|..].
        * apply rm_nil. exact Hf.
        * eapply rm_eq1; [eapply rm_c; [discriminate|exact HA|exact HB|nrm]|nrm..].
  Qed.
  Definition vview (s : bytes) : option mval := Some (VView s).
  Lemma reads_operator w o r : operator w o r -> Reads (nt SPrecedenceOpe) w r None [vview o] [] keepd.
  Proof.
    intros H. assert (HR : exists C L, Reads (sym_body SPrecedenceOpe) w r C L [o] keepd).
    { destruct H as [w r Hv Hw Hs Hq1 Hq2 Hr|q l r (Hq & (H1 & H2) & H3) H0].
      - destruct (plain_more _ w r (le_n _) Hv Hs Hr) as [[-> _]|(e & w' & -> & HA & HB)]; [congruence|].
        eexists. eexists. apply reads_cho.
        apply rc_next; [apply fails_seq, fs_head; apply fails_q; [now left|]; destruct e as [|b e]; [|intros X; apply Hq1; exact X];
          destruct w' as [|b w']; [now destruct (Hw eq_refl)|intros X; apply Hq1; exact X]|].
        apply rc_next; [apply fails_seq, fs_head; apply fails_q; [now right|]; destruct e as [|b e]; [|intros X; apply Hq2; exact X];
          destruct w' as [|b w']; [now destruct (Hw eq_refl)|intros X; apply Hq2; exact X]|].
        eapply rc_here. eapply reads_eq1; [eapply reads_tok; eapply reads_oom; [exact HA|exact HB]|nrm..].
      - destruct (op_more q Hq l r H1 H2 H3 H0) as [L HL].
        assert (HR : Reads (seq [cls [q]; tok (zom (op_char q)); cls [q]]) (q :: chars_text l ++ [q]) r None L [chars_text l] keepd).
        { eapply reads_eq1; [apply reads_seq; eapply rs_c; [apply (reads_q g log text q (chars_text l ++ q :: r) Hq)|eapply rs_c; [eapply reads_tok; apply reads_zom; exact HL|
            eapply rs_c; [apply (reads_q g log text q r Hq)|apply rs_nil|nrm]|nrm]|nrm]|nrm..]. }
        destruct Hq as [-> | ->].
        + eexists. exists L. apply reads_cho. eapply rc_here. exact HR.
        + eexists. exists L. apply reads_cho. apply rc_next; [apply fails_seq, fs_head; apply fails_q; [now left|discriminate]|]. eapply rc_here. exact HR. }
    destruct HR as (C & L & HR). pose proof (reads_nt g log text SPrecedenceOpe _ _ C L [o] keepd (vview o) keepd eq_refl HR) as X. apply X.
    intros vs d [_ S2 _ _]. unfold acts, run_action, value_of. cbn [has_action effect_of obind]. now rewrite (tok_is text vs o S2).
  Qed.
  Definition gap_ope : ope := seq [ign (nt SSpacesOom); nt SPrecedenceOpe].
  Lemma reads_gap_ope s w o r : gap s (w ++ r) -> s <> [] -> operator w o r -> Reads gap_ope (s ++ w) r None [vview o] [] keepd.
  Proof.
    intros H1 H2 H3. eapply reads_eq1; [apply reads_seq; eapply rs_c; [eapply reads_ign; apply (reads_gap1 s (w ++ r) H1 H2)|eapply rs_c; [apply (reads_operator w o r H3)|apply rs_nil|nrm]|nrm]|nrm..].
  Qed.
  Lemma fails_operator b t : In b [left_; right_; x7d] -> Fails (nt SPrecedenceOpe) (b :: t).
  Proof.
    intros H. apply fails_nt; [reflexivity|]. apply fails_cho. do 2 (apply fc_cons; [apply fails_seq, fs_head; apply die; destruct H as [<- |[<- |[<- |[]]]]; vm_compute; reflexivity|]). apply fc_cons; [|apply fc_nil].
    apply fails_tok. apply (fails_rep1 g log text _ 0 None). apply fails_seq, fs_head. destruct (stop_reads b t) as (e & u & C & L & T & -> & HR); [destruct H as [<- |[<- |[<- |[]]]]; reflexivity|]. eapply fails_not; [exact HR|reflexivity].
  Qed.
  Lemma fails_gap_ope r : no_operator r -> Fails gap_ope r.
  Proof.
    intros H. apply fails_seq. destruct (gap_total r) as (s & t & -> & Hg). destruct s as [|b s].
    - apply fs_head. apply fails_ign. apply fails_gap1. apply Hg.
    - eapply fs_c; [eapply reads_ign; apply (reads_gap1 (b :: s) t Hg); discriminate|reflexivity| |reflexivity]. apply fs_head. destruct t as [|b' t]; [apply (dies_fails g log text 40 None); [vm_compute; reflexivity|reflexivity]|].
      apply fails_operator. apply (H (b :: s) (b' :: t) b' eq_refl Hg); [discriminate|reflexivity].
  Qed.
  Definition vviews (l : list bytes) : vals := map vview l.
  Lemma reads_operators w os r : operators w os r -> exists w1 w2 o os', w = w1 ++ w2 /\ os = o :: os' /\ Reads gap_ope w1 (w2 ++ r) None [vview o] [] keepd /\ ReadsM gap_ope None w2 r (vviews os') [] keepd.
  Proof.
    induction 1 as [s w o r H1 H2 H3 H4|s w o w' os r H1 H2 H3 H4 IH].
    - exists (s ++ w), [], o, []. rewrite app_nil_r. split; [reflexivity|]. split; [reflexivity|]. split; [now apply reads_gap_ope|]. apply rm_nil. now apply fails_gap_ope.
    - destruct IH as (w1 & w2 & o' & os' & -> & -> & A & B). exists (s ++ w), (w1 ++ w2), o, (o' :: os'). split; [nrm|]. split; [reflexivity|]. split; [now apply reads_gap_ope|].
      eapply rm_eq1; [eapply rm_c; [discriminate|exact A|exact B|nrm]|nrm..].
  Qed.
  Lemma all_views l : all_as as_view (vviews l) = Some l.
  Proof. induction l as [|x l IH]; [reflexivity|]. cbn [all_as vviews map vview as_view]. fold (vviews l). now rewrite IH. Qed.
  Lemma reads_info a w os r : In a [left_; right_] -> operators w os r -> Reads (nt SPrecedenceInfo) (a :: w) r None [Some (VViews ([a] :: os))] [] keepd.
  Proof.
    intros Ha Ho. destruct (reads_operators w os r Ho) as (w1 & w2 & o & os' & -> & -> & A & B).
    assert (HA : Reads (nt SPrecedenceAssoc) [a] ((w1 ++ w2) ++ r) None [vview [a]] [] keepd).
    { assert (HR : Reads (sym_body SPrecedenceAssoc) [a] ((w1 ++ w2) ++ r) None [] [] keepd) by (eapply reads_cls_b; destruct Ha as [<- |[<- |[]]]; reflexivity).
      apply (reads_nt g log text SPrecedenceAssoc _ _ None [] [] keepd (Some (VView [a])) keepd eq_refl HR). intros vs d [_ S2 S3 _]. unfold acts, run_action, value_of. cbn [has_action effect_of obind].
      unfold token_text. destruct (v_toks vs); [|discriminate S2]. unfold tt in S3. now rewrite S3. }
    assert (HR : Reads (sym_body SPrecedenceInfo) (a :: w1 ++ w2) r None (vviews ([a] :: o :: os')) [] keepd).
    { eapply reads_eq1; [apply reads_seq; eapply rs_c; [exact HA|eapply rs_c; [eapply reads_oom; [exact A|exact B]|apply rs_nil|nrm]|nrm]|nrm..]. }
    pose proof (reads_nt g log text SPrecedenceInfo _ _ None _ [] keepd (Some (VViews ([a] :: o :: os'))) keepd eq_refl HR) as X. apply X.
    intros vs d [S1 _ _ _]. unfold acts, run_action, value_of. cbn [has_action effect_of]. rewrite S1, all_views. reflexivity.
  Qed.
  Definition gap_info : ope := seq [nt SSpacesOom; nt SPrecedenceInfo].
  Lemma fails_gap_info r : no_level r -> Fails gap_info r.
  Proof.
    intros H. apply fails_seq. apply (fails_after (fun _ => True)). intros s t -> Hg Hs. apply fs_head. destruct (H s t eq_refl Hg Hs) as [H1 H2].
    apply (fails_but g log text [left_; right_]); [vm_compute; reflexivity|]. intros b [<- |[<- |[]]]; assumption.
  Qed.
  Definition raw (l : bool * list bytes) : list bytes := [if fst l then left_ else right_] :: snd l.
  Lemma raw_is a os : In a [left_; right_] -> [a] :: os = raw (beq a left_, os). Proof. intros [<- |[<- |[]]]; reflexivity. Qed.
  Lemma reads_levels w ls r : levels w ls r -> exists w1 w2 l ls', w = w1 ++ w2 /\ ls = l :: ls' /\ Reads (nt SPrecedenceInfo) w1 (w2 ++ r) None [Some (VViews (raw l))] [] keepd
    /\ ReadsM gap_info None w2 r (map (fun l => Some (VViews (raw l))) ls') [] keepd.
  Proof.
    induction 1 as [a w os r H1 H2 H3|a w os s w' ls r H1 H2 H3 H4 H5 IH].
    - exists (a :: w), [], (beq a left_, os), []. rewrite app_nil_r. split; [reflexivity|]. split; [reflexivity|]. split; [rewrite <- raw_is by assumption; now apply reads_info|]. apply rm_nil. now apply fails_gap_info.
    - destruct IH as (w1 & w2 & l & ls' & -> & -> & A & B). exists (a :: w), (s ++ w1 ++ w2), (beq a left_, os), (l :: ls'). split; [nrm|]. split; [reflexivity|].
      split; [rewrite <- raw_is by assumption; eapply reads_eq; [apply (reads_info a w os _ H1 H2)|nrm..]|].
      eapply rm_eq1; [eapply rm_c; [discriminate|apply reads_seq; eapply rs_c; [apply (reads_gap1 s (w1 ++ w2 ++ r)); [revert H3; nrm; auto|exact H4]|eapply rs_c; [exact A|apply (rs_nil g log text (w2 ++ r))|nrm]|nrm]|exact B|nrm]|nrm..].
  Qed.
  Lemma all_raw ls : all_as as_views (map (fun l => Some (VViews (raw l))) ls) = Some (map raw ls) /\ prec_all (map raw ls) = Some ls.
  Proof.
    induction ls as [|[b os] ls [IH1 IH2]]; [split; reflexivity|]. split; [cbn [map all_as as_views]; now rewrite IH1|]. cbn [map prec_all]. rewrite IH2. destruct b; reflexivity.
  Qed.

  (** ** The instructions *)
  Lemma reads_word w r : forallb (fun b => bN b <? 128)%N w = true -> Reads (lit w) w r None [] [] keepd.
  Proof. intros H. apply reads_lit. now apply ascii_word. Qed.
  Lemma fails_word c t l : ~ next_is c t -> forall w, Fails (lit (c :: w)) t -> Fails (seq (lit (c :: w) :: l)) t. Proof. intros _ w H. now apply fails_seq, fs_head. Qed.
  Lemma reads_instruction w i r : instruction w i r -> Reads (nt SInstructionItem) w r None [Some (VInstr i)] [] keepd.
  Proof.
    intros H. change [Some (VInstr i)] with [front [Some (VInstr i)]]. destruct H as [s w ls s' r H1 H2 H3 H4|s w m r H1 H2 H3|s r H1|s r H1|s s' n s'' r H1 H2 H3 H4 H5].
    - eapply (reads_pass g log text SInstructionItem); try reflexivity. apply reads_cho. eapply rc_here. destruct (reads_levels w ls _ H3) as (w1 & w2 & l & ls' & -> & -> & A & B).
      assert (HR : Reads (sym_body SPrecedenceClimbing) (bs "precedence" ++ s ++ (w1 ++ w2) ++ s') r None (map (fun l => Some (VViews (raw l))) (l :: ls')) [] keepd).
      { eapply reads_eq1; [apply reads_seq; eapply rs_c; [apply (reads_word (bs "precedence") (s ++ w1 ++ w2 ++ s' ++ r)); reflexivity|eapply rs_c; [apply (reads_gap1 s (w1 ++ w2 ++ s' ++ r)); [revert H1; nrm; auto|exact H2]|
          eapply rs_c; [exact A|eapply rs_c; [apply reads_zom; exact B|eapply rs_c; [apply (reads_gap s' r H4)|apply rs_nil|nrm]|nrm]|nrm]|nrm]|nrm]|nrm..]. }
      pose proof (reads_nt g log text SPrecedenceClimbing _ _ None _ [] keepd (Some (VInstr (IPrecedence (l :: ls')))) keepd eq_refl HR) as X. apply X.
      intros vs d [S1 _ _ _]. unfold acts, run_action, value_of. cbn [has_action effect_of]. destruct (all_raw (l :: ls')) as [R1 R2]. rewrite S1, R1. cbn [obind]. rewrite R2. reflexivity.
    - eapply (reads_pass g log text SInstructionItem); try reflexivity. apply reads_cho. apply rc_next; [apply die; vm_compute; reflexivity|]. eapply rc_here.
      assert (Hd : gap [] r) by (destruct H3 as [q l s0 r0 A B C]; split; [reflexivity|]; intros b Hb; apply spacing_done in C; inversion C as [? D| |]; subst; now apply D).
      assert (HR : Reads (sym_body SErrorMessage) (bs "error_message" ++ s ++ w) r None [Some (VStr m)] [] keepd).
      { eapply reads_eq1; [apply reads_seq; eapply rs_c; [apply (reads_word (bs "error_message") (s ++ w ++ r)); reflexivity|eapply rs_c; [apply (reads_gap1 s (w ++ r) H1 H2)|
          eapply rs_c; [apply (reads_literal_d g log text false w m r H3)|eapply rs_c; [apply (reads_gap [] r Hd)|apply rs_nil|nrm]|nrm]|nrm]|nrm]|nrm..]. }
      pose proof (reads_nt g log text SErrorMessage _ _ None _ [] keepd (Some (VInstr (IMessage m))) keepd eq_refl HR) as X. apply X.
      intros vs d [S1 _ _ _]. unfold acts, run_action, value_of. cbn [has_action effect_of]. rewrite S1. reflexivity.
    - eapply (reads_pass g log text SInstructionItem); try reflexivity. apply reads_cho. do 2 (apply rc_next; [apply die; vm_compute; reflexivity|]). eapply rc_here.
      assert (HR : Reads (sym_body SNoAstOpt) (bs "no_ast_opt" ++ s) r None [] [] keepd).
      { eapply reads_eq1; [apply reads_seq; eapply rs_c; [apply (reads_word (bs "no_ast_opt") (s ++ r)); reflexivity|eapply rs_c; [apply (reads_gap s r H1)|apply rs_nil|nrm]|nrm]|nrm..]. }
      pose proof (reads_nt g log text SNoAstOpt _ _ None _ [] keepd (Some (VInstr INoAstOpt)) keepd eq_refl HR) as X. apply X. intros vs d _. reflexivity.
    - eapply (reads_pass g log text SInstructionItem); try reflexivity. apply reads_cho. do 2 (apply rc_next; [apply die; vm_compute; reflexivity|]).
      apply rc_next; [apply fails_nt; [reflexivity|]; apply fails_seq, fs_head; apply fails_lit; intros t X; discriminate X|]. eapply rc_here.
      assert (HR : Reads (sym_body SNoWhitespace) (bs "no_whitespace" ++ s) r None [] [] keepd).
      { eapply reads_eq1; [apply reads_seq; eapply rs_c; [apply (reads_word (bs "no_whitespace") (s ++ r)); reflexivity|eapply rs_c; [apply (reads_gap s r H1)|apply rs_nil|nrm]|nrm]|nrm..]. }
      pose proof (reads_nt g log text SNoWhitespace _ _ None _ [] keepd (Some (VInstr INoWhitespace)) keepd eq_refl HR) as X. apply X. intros vs d _. reflexivity.
    - eapply (reads_pass g log text SInstructionItem); try reflexivity. apply reads_cho. do 4 (apply rc_next; [apply die; vm_compute; reflexivity|]). eapply rc_here.
      assert (Hd : gap [] r) by (split; [reflexivity|]; intros b Hb; apply spacing_done in H5; inversion H5 as [? D| |]; subst; now apply D).
      assert (HR : Reads (sym_body SAstName) (bs "ast_name" ++ s ++ bs ":" ++ s' ++ n ++ s'') r None [Some (VStr n)] [] keepd).
      { eapply reads_eq1; [apply reads_seq; eapply rs_c; [apply (reads_word (bs "ast_name") (s ++ bs ":" ++ s' ++ n ++ s'' ++ r)); reflexivity|eapply rs_c; [apply (reads_gap s _ H1)|
          eapply rs_c; [apply (reads_word (bs ":") (s' ++ n ++ s'' ++ r)); reflexivity|eapply rs_c; [apply (reads_gap s' _ H2)|eapply rs_c; [apply (reads_ident g log text n s'' r H3 H4 H5)|eapply rs_c; [apply (reads_gap [] r Hd)|apply rs_nil|nrm]|nrm]|nrm]|nrm]|nrm]|nrm]|nrm..]. }
      pose proof (reads_nt g log text SAstName _ _ None _ [] keepd (Some (VInstr (IAstName n))) keepd eq_refl HR) as X. apply X.
      intros vs d [S1 _ _ _]. unfold acts, run_action, value_of. cbn [has_action effect_of]. rewrite S1. reflexivity.
  Qed.
  Definition sep_item : ope := seq [nt SInstructionItemSeparator; nt SInstructionItem].
  Definition vinstrs (l : list instr) : vals := map (fun i => Some (VInstr i)) l.
  Lemma all_instrs l : all_as as_instr (vinstrs l) = Some l.
  Proof. induction l as [|x l IH]; [reflexivity|]. cbn [all_as vinstrs map as_instr]. fold (vinstrs l). now rewrite IH. Qed.
  Lemma reads_instr_list w l r : instruction_list w l r -> exists w1 w2 i l', w = w1 ++ w2 /\ l = i :: l' /\ Reads (nt SInstructionItem) w1 (w2 ++ r) None [Some (VInstr i)] [] keepd /\ ReadsM sep_item None w2 r (vinstrs l') [] keepd.
  Proof.
    induction 1 as [w i r H1 H2|w i s w' l r H1 H2 H3 IH].
    - exists w, [], i, []. rewrite app_nil_r. split; [reflexivity|]. split; [reflexivity|]. split; [now apply reads_instruction|]. apply rm_nil.
      apply (fails_but g log text [x3b]); [vm_compute; reflexivity|]. intros b [<- |[]]. exact H2.
    - destruct IH as (w1 & w2 & i' & l' & -> & -> & A & B). exists w, (x3b :: s ++ w1 ++ w2), i, (i' :: l'). split; [nrm|]. split; [reflexivity|].
      split; [eapply reads_eq; [apply (reads_instruction w i _ H1)|nrm..]|].
      eapply rm_eq1; [eapply rm_c; [discriminate|apply reads_seq; eapply rs_c; [apply (reads_punct g log text SInstructionItemSeparator x3b s (w1 ++ w2 ++ r)); try reflexivity; revert H2; nrm; auto|eapply rs_c; [exact A|apply (rs_nil g log text (w2 ++ r))|nrm]|nrm]|exact B|nrm]|nrm..].
  Qed.
  Theorem reads_instructions w l r : instructions w l r -> exists L, Reads (opt (nt SInstruction)) w r None L [] keepd /\ (L = [] /\ l = [] \/ L = [Some (VInstrs l)]).
  Proof.
    intros H. destruct H as [r H|s s' r H1 H2|s w l s' r H1 H2 H3].
    - exists []. split; [|left; split; reflexivity]. apply reads_opt_none. apply (fails_but g log text [x7b]); [vm_compute; reflexivity|]. intros b [<- |[]]. exact H.
    - exists [Some (VInstrs [])]. split; [|now right]. eapply reads_opt.
      assert (HR : Reads (sym_body SInstruction) (x7b :: s ++ x7d :: s') r None [] [] keepd).
      { eapply reads_eq1; [apply reads_seq; eapply rs_c; [apply (reads_punct g log text SBeginBracket x7b s (x7d :: s' ++ r)); try reflexivity; exact H1|
          eapply rs_c; [apply (reads_opt_none g log text _ (x7d :: s' ++ r)); apply die; vm_compute; reflexivity|eapply rs_c; [apply (reads_punct g log text SEndBracket x7d s' r); try reflexivity; exact H2|apply rs_nil|nrm]|nrm]|nrm]|nrm..]. }
      pose proof (reads_nt g log text SInstruction _ _ None _ [] keepd (Some (VInstrs [])) keepd eq_refl HR) as X. apply X. intros vs d [S1 _ _ _]. unfold acts, run_action, value_of. cbn [has_action effect_of]. rewrite S1. reflexivity.
    - exists [Some (VInstrs l)]. split; [|now right]. eapply reads_opt. destruct (reads_instr_list w l _ H2) as (w1 & w2 & i & l' & -> & -> & A & B).
      assert (HR : Reads (sym_body SInstruction) (x7b :: s ++ (w1 ++ w2) ++ x7d :: s') r None (vinstrs (i :: l')) [] keepd).
      { eapply reads_eq1; [apply reads_seq; eapply rs_c; [apply (reads_punct g log text SBeginBracket x7b s ((w1 ++ w2) ++ x7d :: s' ++ r)); try reflexivity; exact H1|
          eapply rs_c; [eapply (reads_opt g log text); apply reads_seq; eapply rs_c; [exact A|eapply rs_c; [apply reads_zom; exact B|apply (rs_nil g log text (x7d :: s' ++ r))|nrm]|nrm]|
            eapply rs_c; [apply (reads_punct g log text SEndBracket x7d s' r); try reflexivity; exact H3|apply rs_nil|nrm]|nrm]|nrm]|nrm..]. }
      pose proof (reads_nt g log text SInstruction _ _ None _ [] keepd (Some (VInstrs (i :: l'))) keepd eq_refl HR) as X. apply X. intros vs d [S1 _ _ _]. unfold acts, run_action, value_of. cbn [has_action effect_of]. rewrite S1, all_instrs. reflexivity.
  Qed.
End Instr.
