(** * Reading grammar texts: spacing, names, punctuation. *)
From Verif Require Import Base BaseLemmas Utf8 Utf8Spec Utf8Proofs Escape EscapeSpec TrieM TrieSpec LineInfo Ope Ctx ErrLog Engine EngineLemmas Scope Bounds EngineFacts Top
  RefSem RefMono Refine RefineOps PegRef PrecSpec PrecM LoadM MetaM Run MetaRun MetaJudge MetaDies NotationSpec.

(** Failure decided by the next byte being none of a list. *)
Definition bytes256 : list byte := map byteN (map N.of_nat (List.seq 0 256)).
Lemma bytes256_all b : In b bytes256.
Proof.
  unfold bytes256. rewrite map_map. apply in_map_iff. exists (N.to_nat (bN b)). rewrite N2Nat.id, byteN_bN. split; [reflexivity|].
  apply in_seq. pose proof (bN_lt b). lia.
Qed.
Definition dies_but (l : list byte) (o : ope) : bool :=
  if dies 40 None o then forallb (fun b => if existsb (beq b) l then true else dies 40 (Some b) o) bytes256 else false.

Ltac nrm := first [reflexivity | cbn [app]; reflexivity | repeat (rewrite <- ?app_assoc, ?app_nil_r; cbn [app]); try reflexivity].
Ltac nrmh H := repeat (rewrite <- ?app_assoc, ?app_nil_r in H; cbn [app] in H).

Section Lex.
  Variables (g : grammar) (log : bool) (text : bytes).
  Notation E := (mk_env (meta_parser g log) text).
  Notation Reads := (Reads g log text).
  Notation ReadsS := (ReadsS g log text).
  Notation ReadsM := (ReadsM g log text).
  Notation Fails := (Fails g log text).
  Notation FailsS := (FailsS g log text).
  Notation sees := (sees text).
  Notation acts := (acts text).
  Notation sv := (sv mval).

  Lemma fails_but l o s : dies_but l o = true -> (forall b, In b l -> ~ next_is b s) -> Fails o s.
  Proof.
    unfold dies_but. intros H Hs. destruct (dies 40 None o) eqn:H0; [|discriminate]. rewrite forallb_forall in H. destruct (hd_error s) as [b|] eqn:Hb.
    - specialize (H b (bytes256_all b)). destruct (existsb (beq b) l) eqn:X; [|eapply dies_fails; eauto]. exfalso.
      apply existsb_exists in X as (b' & X1 & X2). apply beq_eq in X2 as <-. exact (Hs b X1 Hb).
    - eapply dies_fails; eauto.
  Qed.
  Lemma reads_eq1 o w w' r C L L' T T' f f' : Reads o w r C L T f -> w' = w -> L' = L -> T' = T -> (forall d, f' d = f d) -> Reads o w' r C L' T' f'.
  Proof. intros H -> -> -> Hf. eapply reads_eq; eauto. Qed.
  Lemma rs_c o l w1 r1 C L1 T1 f1 w2 r L2 T2 f2 : Reads o w1 r1 C L1 T1 f1 -> ReadsS l w2 r L2 T2 f2 -> r1 = w2 ++ r ->
    ReadsS (o :: l) (w1 ++ w2) r (L1 ++ L2) (T1 ++ T2) (f1 >> f2).
  Proof. intros H1 H2 ->. eapply rs_cons; eauto. Qed.
  Lemma fs_c o l w1 r1 s C L T f : Reads o w1 r1 C L T f -> (forall d, f d = d) -> FailsS l r1 -> s = w1 ++ r1 -> FailsS (o :: l) s.
  Proof. intros H1 H2 H3 ->. eapply fs_cons; eauto. Qed.
  Lemma rm_c e room w1 r1 C L1 T1 f1 w2 r L2 T2 f2 : room <> Some 0 -> Reads e w1 r1 C L1 T1 f1 -> ReadsM e (option_map pred room) w2 r L2 T2 f2 -> r1 = w2 ++ r ->
    ReadsM e room (w1 ++ w2) r (L1 ++ L2) (T1 ++ T2) (f1 >> f2).
  Proof. intros Hr H1 H2 ->. eapply rm_cons; eauto. Qed.
  Lemma rm_eq1 e room w w' r L L' T T' f f' : ReadsM e room w r L T f -> w' = w -> L' = L -> T' = T -> (forall d, f' d = f d) -> ReadsM e room w' r L' T' f'.
  Proof. intros [Hv H] -> -> -> Hf. split; [exact Hv|]. intros pos i vs d k fuel x d' Ha Hr. destruct (H pos i vs d k fuel x d' Ha Hr) as [-> A]. rewrite Hf. auto. Qed.
  (** Rules without action. *)
  Lemma reads_drop s w r C L T f : quiet s = true -> has_action s = false -> sym_ignored s = true -> Reads (sym_body s) w r C L T f -> Reads (nt s) w r None [] [] f.
  Proof.
    intros H1 H2 H3 H. pose proof (reads_nt g log text s w r C L T f (front L) keepd H1 H) as X. rewrite H3 in X. apply X.
    intros vs d [S1 _ _ _]. unfold MetaJudge.acts. rewrite H2, S1. reflexivity.
  Qed.
  Lemma reads_pass s w r C L T f : quiet s = true -> has_action s = false -> sym_ignored s = false -> Reads (sym_body s) w r C L T f -> Reads (nt s) w r None [front L] [] f.
  Proof.
    intros H1 H2 H3 H. pose proof (reads_nt g log text s w r C L T f (front L) keepd H1 H) as X. rewrite H3 in X. apply X.
    intros vs d [S1 _ _ _]. unfold MetaJudge.acts. rewrite H2, S1. reflexivity.
  Qed.

  (** ** Spacing *)
  Lemma reads_eol e r : e = [x0a] \/ e = [x0d; x0a] \/ e = [x0d] /\ ~ next_is x0a r -> Reads (nt SEndOfLine) e r None [None] [] keepd.
  Proof.
    intros H. destruct H as [-> |[-> |[-> H]]]; change [None] with [front (@nil (option mval))]; (eapply (reads_pass SEndOfLine); try reflexivity; apply reads_cho).
    - apply rc_next; [apply fails_lit; discriminate|]. eapply rc_here. apply reads_chr. reflexivity.
    - eapply rc_here. apply reads_lit. exists [13%N; 10%N]. split; [|reflexivity]. constructor; [unfold scalar; lia|constructor; [unfold scalar; lia|constructor]].
    - apply rc_next; [apply fails_lit; intros t Ht; injection Ht as ->; now apply H|]. apply rc_next; [apply fails_chr; [reflexivity|discriminate]|].
      eapply rc_here. apply reads_chr. reflexivity.
  Qed.
  Lemma reads_space e r : e = [x20] \/ e = [x09] \/ e = [x0a] \/ e = [x0d; x0a] \/ e = [x0d] /\ ~ next_is x0a r -> Reads (nt SSpace) e r None [None] [] keepd.
  Proof.
    intros H. destruct H as [-> |[-> |H]].
    - change [None] with [front (@nil (option mval))]. eapply (reads_pass SSpace); try reflexivity. apply reads_cho. eapply rc_here. apply reads_chr. reflexivity.
    - change [None] with [front (@nil (option mval))]. eapply (reads_pass SSpace); try reflexivity. apply reads_cho.
      apply rc_next; [apply fails_chr; [reflexivity|discriminate]|]. eapply rc_here. apply reads_chr. reflexivity.
    - change [None] with [front [@None mval]]. eapply (reads_pass SSpace); try reflexivity. apply reads_cho.
      assert (Hh : exists b e', e = b :: e' /\ (b = x0a \/ b = x0d)) by (destruct H as [-> |[-> |[-> _]]]; eauto). destruct Hh as (b & e' & -> & Hb).
      do 2 (apply rc_next; [apply fails_chr; [reflexivity|cbn; destruct Hb as [-> | ->]; discriminate]|]). eapply rc_here. apply reads_eol. exact H.
  Qed.
  Lemma comment_body : forall n body r, List.length body <= n -> valid_utf8 body -> forallb (fun b => negb (eol b)) body = true ->
    (forall b, next_is b r -> eol b = true) -> ReadsM (seq [npd (nt SEndOfLine); dot]) None body r [] [] keepd.
  Proof.
    induction n as [|n IH]; intros body r Hl Hv Hb Hr.
    - destruct body; [|cbn in Hl; lia]. apply rm_nil. apply fails_seq. destruct r as [|b r].
      + eapply (fs_c _ _ [] []); [apply reads_not; eapply (dies_fails g log text 40 None); reflexivity|reflexivity|apply fs_head, fails_dot|reflexivity].
      + apply fs_head. specialize (Hr b eq_refl). destruct b; try discriminate Hr.
        * apply (fails_not g log text _ [x0a] r None [None] [] keepd); [apply reads_eol; auto|reflexivity].
        * destruct r as [|b r]; [|destruct (beq b x0a) eqn:Hb1].
          -- apply (fails_not g log text _ [x0d] [] None [None] [] keepd); [apply reads_eol; right; right; split; [reflexivity|discriminate]|reflexivity].
          -- apply beq_eq in Hb1 as ->. apply (fails_not g log text _ [x0d; x0a] r None [None] [] keepd); [apply reads_eol; auto|reflexivity].
          -- apply (fails_not g log text _ [x0d] (b :: r) None [None] [] keepd); [apply reads_eol; right; right; split; [reflexivity|]|reflexivity].
             intros X. injection X as ->. discriminate.
    - destruct (valid_first body Hv) as [->|(c & x & t & -> & Hc & Ht)]; [apply (IH [] r); [cbn; lia|exact Hv|reflexivity|exact Hr]|].
      destruct (chr_head c x Hc) as (b & y & -> & _). rewrite forallb_app in Hb. apply andb_true_iff in Hb as [Hb1 Hb2]. cbn [app List.length] in Hl. rewrite app_length in Hl.
      eapply rm_eq1; [eapply rm_c; [discriminate|apply reads_seq; eapply rs_c; [apply (reads_not g log text _ ((b :: y) ++ t ++ r))|eapply rs_c; [eapply (reads_dot g log text c (b :: y) (t ++ r)); exact Hc|apply (rs_nil g log text (t ++ r))|nrm]|nrm]
        |apply (IH t r); [lia|exact Ht|exact Hb2|exact Hr]|nrm]|nrm..].
      apply (fails_but [x0a; x0d]); [vm_compute; reflexivity|]. cbn in Hb1. intros b' Hin Hn. injection Hn as ->. destruct Hin as [<- |[<- |[]]]; discriminate.
  Qed.
  Lemma valid_tail b r : valid_utf8 (b :: r) -> (bN b < 128)%N -> valid_utf8 r.
  Proof. intros H Hb. apply (valid_rest [b] r H). eapply chr_valid. now apply chr_ascii. Qed.
  Lemma reads_comment body e r : valid_utf8 body -> forallb (fun b => negb (eol b)) body = true ->
    e = [x0a] \/ e = [x0d; x0a] \/ e = [x0d] /\ ~ next_is x0a r \/ e = [] /\ r = [] -> exists v, Reads (nt SComment) (sharp :: body ++ e) r None [v] [] keepd.
  Proof.
    intros H1 H2 H3. assert (He : exists L, Reads (opt (nt SEndOfLine)) e r None L [] keepd).
    { destruct H3 as [H3|[H3|[H3|[-> ->]]]]; [exists [None]; eapply reads_opt; apply reads_eol; auto..|]. exists []. apply reads_opt_none. apply (dies_fails g log text 40 None); reflexivity. }
    destruct He as [L He]. exists (front L). eapply reads_eq1; [eapply (reads_pass SComment); try reflexivity; apply reads_seq; eapply rs_c;
      [apply (reads_chr g log text sharp (body ++ e ++ r)); reflexivity|eapply rs_c; [apply reads_zom; eapply (comment_body _ body (e ++ r)); [apply le_n|exact H1|exact H2|]
        |eapply rs_c; [exact He|apply rs_nil|nrm]|nrm]|nrm]|nrm..].
    intros b Hb. destruct H3 as [-> |[-> |[[-> _]|[-> ->]]]]; cbn in Hb; try (injection Hb as <-; reflexivity). discriminate.
  Qed.
  Lemma spacing_more : forall n w r, List.length w <= n -> spacing w r -> exists L, ReadsM (cho [nt SSpace; nt SComment]) None w r L [] keepd.
  Proof.
    induction n as [|n IH]; intros w r Hl Hs.
    - destruct w; [|cbn in Hl; lia]. inversion Hs; subst. exists []. apply rm_nil. apply (fails_but [x20; x09; x0a; x0d; x23]); [vm_compute; reflexivity|].
      intros b Hin Hb. destruct (H b Hb) as [H1 H2]. cbn in Hin. destruct Hin as [<- |[<- |[<- |[<- |[<- |[]]]]]]; try discriminate H1. now apply H2.
    - assert (Hone : forall e w' (C : option nat) L0, e <> [] -> w = e ++ w' -> Reads (cho [nt SSpace; nt SComment]) e (w' ++ r) C L0 [] keepd -> spacing w' r ->
          exists L, ReadsM (cho [nt SSpace; nt SComment]) None w r L [] keepd).
      { intros e w' C L0 He -> HR Hw. destruct (IH w' r) as [L HL]; [rewrite app_length in Hl; destruct e; [congruence|cbn in Hl; lia]|exact Hw|].
        exists (L0 ++ L). eapply rm_eq1; [eapply rm_c; [discriminate|exact HR|exact HL|nrm]|nrm..]. }
      assert (Hsp : forall e w', e = [x20] \/ e = [x09] \/ e = [x0a] \/ e = [x0d; x0a] \/ e = [x0d] /\ ~ next_is x0a (w' ++ r) -> w = e ++ w' -> spacing w' r ->
          exists L, ReadsM (cho [nt SSpace; nt SComment]) None w r L [] keepd).
      { intros e w' He Hw Hsw. eapply (Hone e w'); [|exact Hw|apply reads_cho; eapply rc_here; apply reads_space; exact He|exact Hsw].
        intros ->. decompose [or and] He; discriminate. }
      inversion Hs; subst.
      + apply (IH [] r); [cbn; lia|exact Hs].
      + destruct b; try discriminate H.
        * apply (Hsp [x09] w0); auto.
        * apply (Hsp [x0a] w0); auto.
        * inversion H0; subst.
          -- apply (Hsp [x0d] []); auto. right; right; right; right. split; [reflexivity|]. intros X. destruct (H1 _ X) as [X1 _]. discriminate.
          -- destruct (beq b x0a) eqn:Hb.
             ++ apply beq_eq in Hb as ->. apply (Hsp [x0d; x0a] w); auto.
             ++ apply (Hsp [x0d] (b :: w)); auto. right; right; right; right. split; [reflexivity|]. intros X. injection X as ->. discriminate.
          -- apply (Hsp [x0d] (sharp :: body ++ w)); auto. right; right; right; right. split; [reflexivity|]. intros X. discriminate.
        * apply (Hsp [x20] w0); auto.
      + assert (Hc : forall e w', w0 = e ++ w' -> e = [x0a] \/ e = [x0d; x0a] \/ e = [x0d] /\ ~ next_is x0a (w' ++ r) \/ e = [] /\ w' ++ r = [] -> spacing w' r ->
          exists L, ReadsM (cho [nt SSpace; nt SComment]) None (sharp :: body ++ w0) r L [] keepd).
        { intros e w' -> He Hw. destruct (reads_comment body e (w' ++ r) H H0 He) as [v Hv]. eapply (Hone (sharp :: body ++ e) w'); [discriminate|nrm| |exact Hw].
          apply reads_cho. apply rc_next; [|eapply rc_here; exact Hv]. apply (fails_but [x20; x09; x0a; x0d]); [vm_compute; reflexivity|]. intros b Hin Hb. injection Hb as <-. cbn in Hin. decompose [or] Hin; try discriminate; auto. }
        inversion H3; subst.
        * rewrite (H2 eq_refl) in *. apply (Hc [] []); auto 6.
        * assert (He : eol b = true) by (apply H1; reflexivity). destruct b; try discriminate He.
          -- apply (Hc [x0a] w); auto.
          -- inversion H5; subst.
             ++ apply (Hc [x0d] []); auto. right; right; left. split; [reflexivity|]. intros X. destruct (H6 _ X) as [X1 _]. discriminate.
             ++ destruct (beq b x0a) eqn:Hb.
                ** apply beq_eq in Hb as ->. apply (Hc [x0d; x0a] w0); auto.
                ** apply (Hc [x0d] (b :: w0)); auto. right; right; left. split; [reflexivity|]. intros X. injection X as ->. discriminate.
             ++ apply (Hc [x0d] (sharp :: body0 ++ w0)); auto. right; right; left. split; [reflexivity|]. discriminate.
        * exfalso. assert (X : eol sharp = true) by (apply H1; reflexivity). discriminate.
  Qed.
  Lemma reads_spacing w r : spacing w r -> Reads (nt SSpacing) w r None [] [] keepd.
  Proof. intros H. destruct (spacing_more _ w r (le_n _) H) as [L HL]. eapply (reads_drop SSpacing); try reflexivity. apply reads_zom. exact HL. Qed.

  (** ** Names *)
  Lemma utf8_chr c : scalar c -> chr_text c (utf8_bytes c).
  Proof. intros H. split; [exact H|]. rewrite <- EscapeProofs.utf8_bytes_encode. now apply encode_rfc. Qed.
  Lemma chr_utf8 c x : chr_text c x -> x = utf8_bytes c.
  Proof. intros [H1 H2]. apply map_bN_inj. rewrite H2. symmetry. exact (proj2 (utf8_chr c H1)). Qed.
  Lemma chr_unique c c' x x' t t' : chr_text c x -> chr_text c' x' -> x ++ t = x' ++ t' -> c = c'.
  Proof. intros [H1 H2] [H3 H4] H. now destruct (PegFacts.chr_unique c c' x x' t t' H1 H3 H2 H4 H). Qed.
  Lemma fails_valid o s : (valid_utf8 s -> Fails o s) -> Fails o s.
  Proof. intros H pos vs d k x d' Ha Hr. exact (H (proj2 (proj2 Ha)) _ _ _ _ _ _ Ha Hr). Qed.
  Lemma up_chr : chr_text 8593 up_arrow. Proof. split; [unfold scalar; lia|reflexivity]. Qed.
  Lemma up2_chr : chr_text 8657 up_double. Proof. split; [unfold scalar; lia|reflexivity]. Qed.
  Lemma not_lit c k x r : chr_text c (utf8_bytes c) -> chr_text k x -> c <> k -> Fails (lit x) (utf8_bytes c ++ r).
  Proof. intros H1 H2 H3. apply fails_lit. intros t Ht. apply H3. eapply chr_unique; eauto. Qed.
  Lemma letters_cls : cls (bs "a-zA-Z_%") = Cls [(97, 122); (65, 90); (95, 95); (37, 37)]%N false false. Proof. vm_compute. reflexivity. Qed.
  Lemma digits_cls : cls (bs "0-9") = Cls [(48, 57)]%N false false. Proof. vm_compute. reflexivity. Qed.
  Lemma reads_start c r : scalar c -> name_start c = true -> Reads (nt SIdentStart) (utf8_bytes c) r None [None] [] keepd.
  Proof.
    intros Hc Hn. pose proof (utf8_chr c Hc) as Hx. change [None] with [front (@nil (option mval))]. 
    assert (Hr : exists C, Reads (cho [cls (bs "a-zA-Z_%"); Cls [(128, 65535)%N] false false]) (utf8_bytes c) r C [] [] keepd).
    { rewrite letters_cls. destruct (in_cls [(97, 122); (65, 90); (95, 95); (37, 37)]%N c) eqn:X.
      - eexists. apply reads_cho. eapply rc_here. eapply reads_cls; eauto.
      - eexists. apply reads_cho. apply rc_next; [|eapply rc_here; eapply reads_cls; [exact Hx|]; unfold name_start in Hn; unfold in_cls in *; cbn in *; lia].
        apply fails_cls. intros c' x' t Ht Hc'. now rewrite <- (chr_unique _ _ _ _ _ _ Hx Hc' Ht). }
    destruct Hr as [C Hr]. eapply reads_eq1; [eapply (reads_pass SIdentStart); try reflexivity; apply reads_seq;
      eapply rs_c; [apply (reads_not g log text _ (utf8_bytes c ++ r))|eapply rs_c; [apply (reads_not g log text _ (utf8_bytes c ++ r))|eapply rs_c; [exact Hr|apply rs_nil|nrm]|nrm]|nrm]|nrm..].
    - apply (not_lit c _ _ r Hx up_chr). unfold name_start in Hn. lia.
    - apply (not_lit c _ _ r Hx up2_chr). unfold name_start in Hn. lia.
  Qed.
  Lemma fails_start s : (forall c, begins c s -> name_start c = false) -> Fails (nt SIdentStart) s.
  Proof.
    intros H. apply fails_valid. intros Hv. destruct (valid_first s Hv) as [->|(c & x & t & -> & Hx & Ht)]; [apply (dies_fails g log text 40 None); reflexivity|].
    assert (Hn : name_start c = false) by (apply H; split; [apply Hx|exists t; now rewrite <- (chr_utf8 c x Hx)]). apply fails_nt; [reflexivity|]. apply fails_seq.
    destruct (N.eq_dec c 8593) as [->|H1].
    { apply fs_head. pose proof (chr_utf8 _ _ Hx) as ->. apply (fails_not g log text _ up_arrow t None [] [] keepd); [apply reads_lit; eapply chr_valid; apply up_chr|reflexivity]. }
    destruct (N.eq_dec c 8657) as [->|H2].
    { pose proof (chr_utf8 _ _ Hx) as ->. eapply (fs_c _ _ []); [apply reads_not; apply (not_lit _ _ _ t Hx up_chr); discriminate|reflexivity| |reflexivity].
      apply fs_head. apply (fails_not g log text _ up_double t None [] [] keepd); [apply reads_lit; eapply chr_valid; apply up2_chr|reflexivity]. }
    pose proof (chr_utf8 _ _ Hx) as ->.
    eapply (fs_c _ _ []); [apply reads_not; now apply (not_lit _ _ _ t Hx up_chr)|reflexivity| |reflexivity].
    eapply (fs_c _ _ []); [apply reads_not; now apply (not_lit _ _ _ t Hx up2_chr)|reflexivity| |reflexivity].
    apply fs_head. rewrite letters_cls. apply fails_cho.
    assert (Hc : forall c' x' t', utf8_bytes c ++ t = x' ++ t' -> chr_text c' x' -> c' = c) by (intros c' x' t' A B; symmetry; eapply chr_unique; eauto).
    apply fc_cons; [|apply fc_cons; [|apply fc_nil]]; apply fails_cls; intros c' x' t' A B; rewrite (Hc _ _ _ A B); unfold name_start in Hn; unfold in_cls; cbn; lia.
  Qed.
  Lemma reads_rest c r : scalar c -> name_rest c = true -> exists v, Reads (nt SIdentRest) (utf8_bytes c) r None [v] [] keepd.
  Proof.
    intros Hc Hn. pose proof (utf8_chr c Hc) as Hx. destruct (name_start c) eqn:Hs.
    - eexists. eapply (reads_pass SIdentRest); try reflexivity. apply reads_cho. eapply rc_here. now apply reads_start.
    - eexists. eapply (reads_pass SIdentRest); try reflexivity. apply reads_cho. apply rc_next.
      + apply fails_start. intros c' (H1 & t & Ht). rewrite <- (chr_unique _ _ _ _ _ _ Hx (utf8_chr _ H1) Ht). exact Hs.
      + eapply rc_here. rewrite digits_cls. eapply reads_cls; [exact Hx|]. unfold name_rest in Hn. rewrite Hs in Hn. unfold in_cls. cbn in *. lia.
  Qed.
  Lemma fails_rest s : name_ends s -> Fails (nt SIdentRest) s.
  Proof.
    intros H. apply fails_valid. intros Hv. apply fails_nt; [reflexivity|]. apply fails_cho. apply fc_cons; [|apply fc_cons; [|apply fc_nil]].
    - apply fails_start. intros c Hc. specialize (H c Hc). unfold name_rest in H. now apply orb_false_iff in H.
    - rewrite digits_cls. apply fails_cls. intros c x t -> Hx. specialize (H c). unfold name_rest in H. unfold in_cls. cbn.
      assert (Hb : begins c (x ++ t)) by (split; [apply Hx|exists t; now rewrite <- (chr_utf8 c x Hx)]). specialize (H Hb). lia.
  Qed.
  Lemma rest_more : forall cs r, Forall scalar cs -> forallb name_rest cs = true -> name_ends r -> exists L, ReadsM (nt SIdentRest) None (utf8_text cs) r L [] keepd.
  Proof.
    induction cs as [|c cs IH]; intros r Hs Hn Hr; [exists []; apply rm_nil; now apply fails_rest|]. inversion Hs; subst. cbn [forallb] in Hn. apply andb_true_iff in Hn as [H1' H2'].
    destruct (IH r H2 H2' Hr) as [L HL]. destruct (reads_rest c (utf8_text cs ++ r) H1 H1') as [v Hv]. exists ([v] ++ L).
    eapply rm_eq1; [eapply rm_c; [discriminate|exact Hv|exact HL|nrm]|nrm..].
  Qed.
  Lemma name_valid n : name n -> valid_utf8 n.
  Proof.
    intros (c & cs & -> & H & _). exists (c :: cs). split; [exact H|]. unfold utf8_text. rewrite concat_map, map_map. f_equal. apply map_ext_in. intros a Ha.
    rewrite Forall_forall in H. exact (proj2 (utf8_chr a (H a Ha))).
  Qed.
  Lemma reads_name_body n r : name n -> name_ends r -> exists L, Reads (sym_body SIdentCont) n r None L [n] keepd.
  Proof.
    intros (c & cs & -> & Hs & H1 & H2) Hr. inversion Hs as [|? ? H3 H4]; subst. destruct (rest_more cs r H4 H2 Hr) as [L HL]. exists ([None] ++ L).
    eapply reads_eq1; [eapply reads_tok; apply reads_seq; eapply rs_c; [apply (reads_start c (utf8_text cs ++ r)); assumption|eapply rs_c; [apply reads_zom; exact HL|apply rs_nil|nrm]|nrm]|nrm..].
  Qed.
  Lemma reads_name n r : name n -> name_ends r -> Reads (nt SIdentCont) n r None [Some (VStr n)] [] keepd.
  Proof.
    intros Hn Hr. destruct (reads_name_body n r Hn Hr) as [L HL]. pose proof (reads_nt g log text SIdentCont n r None L [n] keepd (Some (VStr n)) keepd eq_refl HL) as X. apply X.
    intros vs d [S1 S2 S3 S4]. unfold MetaJudge.acts, run_action, value_of. cbn [has_action obind effect_of]. unfold tt in S3. now rewrite S3.
  Qed.
  Lemma fails_name s : (forall c, begins c s -> name_start c = false) -> Fails (nt SIdentCont) s.
  Proof. intros H. apply fails_nt; [reflexivity|]. apply fails_tok. apply fails_seq. apply fs_head. now apply fails_start. Qed.
  Lemma reads_ident n s r : name n -> name_ends (s ++ r) -> spacing s r -> Reads (nt SIdentifier) (n ++ s) r None [Some (VStr n)] [] keepd.
  Proof.
    intros H1 H2 H3. change [Some (VStr n)] with [front [Some (VStr n)]].
    eapply reads_eq1; [eapply (reads_pass SIdentifier); try reflexivity; apply reads_seq; eapply rs_c; [eapply reads_name; eassumption|eapply rs_c; [eapply reads_spacing; eassumption|apply rs_nil|nrm]|nrm]|nrm..].
  Qed.

  (** ** Punctuation: a byte and spacing *)
  Lemma reads_punct_body b w r : (bN b < 128)%N -> spacing w r -> Reads (seq [chr b; nt SSpacing]) (b :: w) r None [] [] keepd.
  Proof.
    intros Hb Hs. eapply reads_eq1; [apply reads_seq; eapply rs_c; [apply (reads_chr g log text b (w ++ r)); exact Hb|eapply rs_c; [eapply reads_spacing; eassumption|apply rs_nil|nrm]|nrm]|nrm..].
  Qed.
  Lemma reads_punct s b w r : quiet s = true -> has_action s = false -> sym_ignored s = true -> sym_body s = seq [chr b; nt SSpacing] -> (bN b < 128)%N -> spacing w r ->
    Reads (nt s) (b :: w) r None [] [] keepd.
  Proof. intros H1 H2 H3 H4 H5 H6. eapply (reads_drop s); try assumption. rewrite H4. now apply reads_punct_body. Qed.
  Lemma arrow_valid a : arrow a -> valid_utf8 a.
  Proof.
    intros [-> | ->]; [exists [60; 45]%N|exists [8592]%N]; (split; [|reflexivity]).
    - constructor; [unfold scalar; lia|constructor; [unfold scalar; lia|constructor]].
    - constructor; [unfold scalar; lia|constructor].
  Qed.
  Lemma reads_arrow a s r : arrow a -> spacing s r -> Reads (nt SLEFTARROW) (a ++ s) r None [None] [] keepd.
  Proof.
    intros Ha Hs. change [None] with [front (@nil (option mval))]. assert (Hv := arrow_valid a Ha).
    assert (X : exists C, Reads (cho [lit (bs "<-"); lit left_arrow]) a (s ++ r) C [] [] keepd).
    { destruct Ha as [-> | ->].
      - eexists. apply reads_cho. eapply rc_here. now apply reads_lit.
      - eexists. apply reads_cho. apply rc_next; [apply fails_lit; discriminate|]. eapply rc_here. now apply reads_lit. }
    destruct X as [C X]. eapply reads_eq1; [eapply (reads_pass SLEFTARROW); try reflexivity; apply reads_seq; eapply rs_c; [exact X|eapply rs_c; [eapply reads_spacing; eassumption|apply rs_nil|nrm]|nrm]|nrm..].
  Qed.
  Lemma fails_arrow s : (forall a t, arrow a -> s <> a ++ t) -> Fails (nt SLEFTARROW) s.
  Proof.
    intros H. apply fails_nt; [reflexivity|]. apply fails_seq. apply fs_head. apply fails_cho. apply fc_cons; [|apply fc_cons; [|apply fc_nil]]; apply fails_lit; intros t; apply H.
    - now left.
    - now right.
  Qed.
End Lex.
