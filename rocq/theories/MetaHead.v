(** * Reading grammar texts: parameter lists and the arrow of a definition. *)
From Verif Require Import Base BaseLemmas Utf8 Utf8Spec Utf8Proofs Escape EscapeSpec TrieM TrieSpec LineInfo Ope Ctx ErrLog Engine EngineLemmas Scope Bounds EngineFacts Top
  RefSem RefMono Refine RefineOps PegRef PrecSpec PrecM LoadM MetaM Run MetaRun MetaJudge MetaDies NotationSpec MetaLex.

(** ** Splitting texts *)
Lemma valid_cut : forall n a b c, List.length a <= n -> valid_utf8 (a ++ b :: c) -> (bN b < 128)%N -> valid_utf8 a /\ valid_utf8 (b :: c).
Proof.
  induction n as [|n IH]; intros a b c Hl Hv Hb; (destruct a as [|a0 a]; [split; [apply valid_nil|exact Hv]|cbn in Hl; try lia]).
  destruct (valid_first _ Hv) as [H|(k & x & t & H & Hk & Ht)]; [discriminate|].
  assert (Hx : exists y, x = a0 :: y /\ exists a', a = y ++ a' /\ t = a' ++ b :: c).
  { assert (Hasc : forall z, In z (tl x) -> (128 <= bN z)%N).
    { clear -Hk. destruct Hk as [Hs Hk]. unfold rfc3629 in Hk. destruct x as [|x0 x]; [intros z []|]. cbn [tl].
      intros z Hz. apply (in_map bN) in Hz. repeat destruct (_ <=? _)%N; injection Hk as _ Hk; rewrite Hk in Hz; cbn [In] in Hz; decompose [or] Hz; subst; try contradiction;
        match goal with H : _ = bN z |- _ => rewrite <- H end; apply N.le_trans with (128 + 0)%N; try lia. }
    destruct x as [|x0 y]; [destruct Hk as [Hs Hk]; unfold rfc3629 in Hk; repeat destruct (_ <=? _)%N; discriminate|]. injection H as <- H. exists y. split; [reflexivity|].
    cbn [tl] in Hasc. clear -H Hasc Hb. revert a H. induction y as [|y0 y IHy]; intros a H; [exists a; auto|].
    destruct a as [|a1 a]; [cbn in H; injection H as -> _; specialize (Hasc y0 (or_introl eq_refl)); lia|]. injection H as -> H.
    destruct (IHy (fun z Hz => Hasc z (or_intror Hz)) a H) as (a' & -> & ->). exists a'. auto. }
  destruct Hx as (y & -> & a' & -> & ->). destruct (IH a' b c) as [H1 H2]; [rewrite app_length in Hl; lia|exact Ht|exact Hb|]. split; [|exact H2].
  change (a0 :: y ++ a') with ((a0 :: y) ++ a'). apply valid_app; [eapply chr_valid; eauto|exact H1].
Qed.
Lemma line_split t : exists body t', t = body ++ t' /\ forallb (fun b => negb (eol b)) body = true /\ forall b, next_is b t' -> eol b = true.
Proof.
  induction t as [|b t IH]; [exists [], []; split; [reflexivity|]; split; [reflexivity|discriminate]|]. destruct (eol b) eqn:Hb.
  - exists [], (b :: t). split; [reflexivity|]. split; [reflexivity|]. intros b' H. injection H as <-. exact Hb.
  - destruct IH as (body & t' & -> & H1 & H2). exists (b :: body), t'. split; [reflexivity|]. split; [cbn; now rewrite Hb|exact H2].
Qed.
Lemma eol_ascii b : eol b = true -> (bN b < 128)%N. Proof. destruct b; intros H; try discriminate H; reflexivity. Qed.
Lemma blank_ascii b : blank b = true -> (bN b < 128)%N. Proof. destruct b; intros H; try discriminate H; reflexivity. Qed.
Lemma valid_byte b t : valid_utf8 (b :: t) -> (bN b < 128)%N -> valid_utf8 t.
Proof. intros H Hb. apply (valid_rest [b] t H). eapply chr_valid. now apply chr_ascii. Qed.
Lemma spacing_total : forall n s, List.length s <= n -> valid_utf8 s -> exists w r, s = w ++ r /\ spacing w r /\ valid_utf8 r.
Proof.
  induction n as [|n IH]; intros s Hl Hv.
  - destruct s; [|cbn in Hl; lia]. exists [], []. split; [reflexivity|]. split; [|apply valid_nil]. constructor. discriminate.
  - destruct s as [|b t]; [exists [], []; split; [reflexivity|]; split; [|apply valid_nil]; constructor; discriminate|]. cbn in Hl.
    destruct (blank b) eqn:Hb; [|destruct (beq b sharp) eqn:Hc].
    + destruct (IH t) as (w & r & -> & H1 & H2); [lia|eapply valid_byte; eauto using blank_ascii|]. exists (b :: w), r. split; [reflexivity|]. split; [now constructor|exact H2].
    + apply beq_eq in Hc as ->. destruct (line_split t) as (body & t' & -> & H1 & H2). assert (Hv' : valid_utf8 (body ++ t')) by (eapply valid_byte; eauto; reflexivity).
      destruct t' as [|b t'].
      * rewrite app_nil_r in Hv'. exists (sharp :: body ++ []), []. split; [now rewrite !app_nil_r|]. split; [|apply valid_nil].
        constructor; [exact Hv'|exact H1|discriminate|reflexivity|constructor; discriminate].
      * assert (He : eol b = true) by (apply H2; reflexivity). destruct (valid_cut _ body b t' (le_n _) Hv' (eol_ascii b He)) as [V1 V2].
        destruct (IH (b :: t')) as (w & r & Hw & H3 & H4); [rewrite app_length in Hl; cbn in Hl |- *; lia|exact V2|]. exists (sharp :: body ++ w), r. rewrite Hw.
        split; [cbn; now rewrite <- app_assoc|]. split; [|exact H4]. apply sp_comment; auto.
        -- rewrite <- Hw. intros b' Hb'. now apply H2.
        -- intros ->. cbn in Hw. subst r. inversion H3; subst. destruct (H b eq_refl) as [X _]. destruct b; discriminate.
    + exists [], (b :: t). split; [reflexivity|]. split; [|exact Hv]. constructor. intros b' H. injection H as <-. split; [exact Hb|]. intros ->. discriminate.
Qed.
Lemma ends_nil : name_ends [].
Proof. intros c (Hs & t & Ht). destruct (chr_head _ _ (utf8_chr c Hs)) as (b & y & Hy & _). rewrite Hy in Ht. discriminate. Qed.
Lemma rest_total : forall n s, List.length s <= n -> valid_utf8 s -> exists cs r, s = utf8_text cs ++ r /\ Forall scalar cs /\ forallb name_rest cs = true /\ name_ends r /\ valid_utf8 r.
Proof.
  assert (H0 : exists cs r, [] = utf8_text cs ++ r /\ Forall scalar cs /\ forallb name_rest cs = true /\ name_ends r /\ valid_utf8 r).
  { exists [], []. split; [reflexivity|]. split; [apply Forall_nil|]. split; [reflexivity|]. split; [apply ends_nil|apply valid_nil]. }
  induction n as [|n IH]; intros s Hl Hv; (destruct (valid_first s Hv) as [->|(c & x & t & -> & Hc & Ht)]; [exact H0|]).
  - destruct (chr_head c x Hc) as (b & y & -> & _). cbn in Hl. lia.
  - pose proof (chr_utf8 c x Hc) as Hx. destruct (name_rest c) eqn:Hn.
    + destruct (chr_head c x Hc) as (b & y & -> & _). cbn in Hl. rewrite app_length in Hl. destruct (IH t) as (cs & r & -> & H1 & H2 & H3 & H4); [lia|exact Ht|].
      exists (c :: cs), r. split; [rewrite Hx; unfold utf8_text; cbn; now rewrite <- app_assoc|]. split; [constructor; [apply Hc|exact H1]|]. split; [cbn; now rewrite Hn|]. auto.
    + exists [], (x ++ t). split; [reflexivity|]. split; [constructor|]. split; [reflexivity|]. split; [|exact Hv]. intros c' (Hs & t' & Ht').
      rewrite <- (chr_unique c c' x (utf8_bytes c') t t' Hc (utf8_chr c' Hs) Ht'). exact Hn.
Qed.
Lemma name_total s : valid_utf8 s -> (forall c, begins c s -> name_start c = false) \/ exists n r, s = n ++ r /\ name n /\ name_ends r /\ valid_utf8 r.
Proof.
  intros Hv. destruct (valid_first s Hv) as [->|(c & x & t & -> & Hc & Ht)].
  - left. intros c (Hs & t & Ht). destruct (chr_head _ _ (utf8_chr c Hs)) as (b & y & Hy & _). rewrite Hy in Ht. discriminate.
  - destruct (name_start c) eqn:Hn.
    + right. destruct (rest_total _ t (le_n _) Ht) as (cs & r & -> & H1 & H2 & H3 & H4). exists (x ++ utf8_text cs), r. split; [now rewrite app_assoc|].
      split; [|auto]. exists c, cs. split; [unfold utf8_text; cbn; now rewrite (chr_utf8 c x Hc)|]. split; [constructor; [apply Hc|exact H1]|]. auto.
    + left. intros c' (Hs & t' & Ht'). rewrite <- (chr_unique c c' x (utf8_bytes c') t t' Hc (utf8_chr c' Hs) Ht'). exact Hn.
Qed.

Section Head.
  Variables (g : grammar) (log : bool) (text : bytes).
  Notation E := (mk_env (meta_parser g log) text).
  Notation Reads := (Reads g log text).
  Notation ReadsS := (ReadsS g log text).
  Notation ReadsM := (ReadsM g log text).
  Notation Fails := (Fails g log text).
  Notation FailsS := (FailsS g log text).

  Definition vstr (n : bytes) : option mval := Some (VStr n).
  Definition comma_name : ope := seq [nt SCOMMA; nt SIdentifier].
  Lemma reads_comma_name s2 n s1 r : spacing s2 (n ++ s1 ++ r) -> name n -> name_ends (s1 ++ r) -> spacing s1 r ->
    Reads comma_name (x2c :: s2 ++ n ++ s1) r None [vstr n] [] keepd.
  Proof.
    intros H1 H2 H3 H4. eapply reads_eq1; [apply reads_seq; eapply rs_c; [apply (reads_punct g log text SCOMMA x2c s2 (n ++ s1 ++ r)); try reflexivity; exact H1
      |eapply rs_c; [eapply reads_ident; eassumption|apply rs_nil|nrm]|nrm]|nrm..].
  Qed.
  Lemma fails_comma_name s : ~ next_is x2c s -> Fails comma_name s.
  Proof. intros H. apply (fails_but g log text [x2c]); [vm_compute; reflexivity|]. intros b [<- |[]]. exact H. Qed.
  (** A list of names, from after the first name and its spacing. *)
  Lemma names_split w l r : names w l r -> exists n s1 w1 s2 l', l = n :: l' /\ w = (n ++ s1) ++ w1 ++ x29 :: s2 /\ name n /\ name_ends (s1 ++ w1 ++ x29 :: s2 ++ r)
    /\ spacing s1 (w1 ++ x29 :: s2 ++ r) /\ spacing s2 r /\ ReadsM comma_name None w1 (x29 :: s2 ++ r) (map vstr l') [] keepd.
  Proof.
    induction 1 as [n s1 s2 r H1 H2 H3 H4|n s1 s2 w l r H1 H2 H3 H4 H5 IH].
    - exists n, s1, [], s2, []. do 6 (split; [first [assumption|nrm]|]). apply rm_nil. apply fails_comma_name. discriminate.
    - destruct IH as (n' & s1' & w1 & s2' & l' & -> & -> & A & B & C & D & F). exists n, s1, (x2c :: s2 ++ (n' ++ s1') ++ w1), s2', (n' :: l').
      rewrite <- !app_assoc in *. cbn [app] in *. rewrite <- !app_assoc in *. cbn [app] in *.
      split; [reflexivity|]. split; [reflexivity|]. split; [exact H1|]. split; [exact H2|]. split; [exact H3|]. split; [exact D|].
      eapply rm_eq1; [eapply rm_c; [discriminate|apply (reads_comma_name s2 n' s1' (w1 ++ x29 :: s2' ++ r)); assumption|exact F|nrm]|nrm..].
  Qed.
  Lemma all_strs l : all_as as_str (map vstr l) = Some l.
  Proof. induction l as [|x l IH]; [reflexivity|]. cbn [all_as map vstr as_str]. now rewrite IH. Qed.
  Lemma reads_params p l r : parameters p l r -> Reads (nt SParameters) p r None [Some (VStrs l)] [] keepd.
  Proof.
    intros (s & w & -> & Hs & Hn). destruct (names_split w l r Hn) as (n & s1 & w1 & s2 & l' & -> & -> & A & B & C & D & F).
    assert (HR : Reads (sym_body SParameters) (x28 :: s ++ (n ++ s1) ++ w1 ++ x29 :: s2) r None (map vstr (n :: l')) [] keepd).
    { nrmh Hs.
      eapply reads_eq1; [apply reads_seq; eapply rs_c; [apply (reads_punct g log text SOPEN x28 s (n ++ s1 ++ w1 ++ x29 :: s2 ++ r)); try reflexivity; exact Hs
        |eapply rs_c; [eapply (reads_ident g log text n s1 (w1 ++ x29 :: s2 ++ r)); assumption|eapply rs_c; [apply reads_zom; exact F
        |eapply rs_c; [apply (reads_punct g log text SCLOSE x29 s2 r); try reflexivity; exact D|apply rs_nil|nrm]|nrm]|nrm]|nrm]|nrm..]. }
    pose proof (reads_nt g log text SParameters _ r None _ [] keepd (Some (VStrs (n :: l'))) keepd eq_refl HR) as X. apply X.
    intros vs d [S1 _ _ _]. unfold acts, run_action, value_of. cbn [has_action effect_of]. rewrite S1, all_strs. reflexivity.
  Qed.
  (** Whatever the text, a list of parameters is read or not. *)
  Lemma names_total : forall n s, List.length s <= n -> valid_utf8 s -> exists w1 r1 l', s = w1 ++ r1 /\ valid_utf8 r1 /\ ReadsM comma_name None w1 r1 (map vstr l') [] keepd /\
     ((exists s2 r, r1 = x29 :: s2 ++ r /\ spacing s2 r /\
        forall m s1, name m -> name_ends (s1 ++ s) -> spacing s1 s -> names (m ++ s1 ++ w1 ++ x29 :: s2) (m :: l') r)
      \/ ~ next_is x29 r1).
  Proof.
    assert (Hstop : forall s, valid_utf8 s -> Fails comma_name s -> exists w1 r1 l', s = w1 ++ r1 /\ valid_utf8 r1 /\ ReadsM comma_name None w1 r1 (map vstr l') [] keepd /\
     ((exists s2 r, r1 = x29 :: s2 ++ r /\ spacing s2 r /\
        forall m s1, name m -> name_ends (s1 ++ s) -> spacing s1 s -> names (m ++ s1 ++ w1 ++ x29 :: s2) (m :: l') r)
      \/ ~ next_is x29 r1)).
    { intros s Hv Hf. exists [], s, []. split; [reflexivity|]. split; [exact Hv|]. split; [now apply rm_nil|]. destruct s as [|b t]; [right; discriminate|]. destruct (beq b x29) eqn:Hb.
      - apply beq_eq in Hb as ->. left. destruct (spacing_total _ t (le_n _)) as (s2 & r & -> & H1 & _); [eapply valid_byte; [exact Hv|reflexivity]|]. exists s2, r.
        split; [reflexivity|]. split; [exact H1|]. intros m s1 A B C. cbn [app]. now apply nm_last.
      - right. intros X. injection X as ->. discriminate. }
    induction n as [|n IH]; intros s Hl Hv.
    - destruct s; [|cbn in Hl; lia]. apply Hstop; [exact Hv|]. apply fails_comma_name. discriminate.
    - destruct s as [|b t]; [apply Hstop; [exact Hv|]; apply fails_comma_name; discriminate|]. destruct (beq b x2c) eqn:Hb; [|apply Hstop; [exact Hv|]; apply fails_comma_name; intros X; injection X as ->; discriminate].
      apply beq_eq in Hb as ->. destruct (spacing_total _ t (le_n _)) as (s2 & t2 & -> & H1 & V2); [eapply valid_byte; [exact Hv|reflexivity]|].
      destruct (name_total t2 V2) as [Hno|(m & t3 & -> & Hm & He & V3)].
      + apply Hstop; [exact Hv|]. apply fails_seq. eapply fs_c; [apply (reads_punct g log text SCOMMA x2c s2 t2); try reflexivity; exact H1|reflexivity| |reflexivity].
        apply fs_head. apply fails_nt; [reflexivity|]. apply fails_seq. apply fs_head. now apply fails_name.
      + destruct (spacing_total _ t3 (le_n _) V3) as (s1 & t4 & -> & H4 & V4). cbn in Hl. rewrite !app_length in Hl.
        destruct (IH t4) as (w1 & r1 & l' & -> & V5 & HR & Hend); [lia|exact V4|]. exists (x2c :: s2 ++ m ++ s1 ++ w1), r1, (m :: l'). split; [nrm|]. split; [exact V5|]. split.
        { eapply rm_eq1; [eapply rm_c; [discriminate|apply (reads_comma_name s2 m s1 (w1 ++ r1)); assumption|exact HR|nrm]|nrm..]. }
        destruct Hend as [(s2' & r & -> & H5 & H6)|Hend]; [left|right; exact Hend]. exists s2', r. split; [reflexivity|]. split; [exact H5|]. intros m' s1' A B C.
        specialize (H6 m s1 Hm He H4). replace (m' ++ s1' ++ (x2c :: s2 ++ m ++ s1 ++ w1) ++ x29 :: s2') with (m' ++ s1' ++ x2c :: s2 ++ (m ++ s1 ++ w1 ++ x29 :: s2')) by nrm.
        cbn [app] in *. apply nm_more; try assumption; nrm; assumption.
  Qed.
  Lemma params_total s : valid_utf8 s -> (exists p l r, s = p ++ r /\ parameters p l r) \/ Fails (nt SParameters) s.
  Proof.
    intros Hv. destruct s as [|b t]; [right; apply (dies_fails g log text 40 None); reflexivity|]. destruct (beq b x28) eqn:Hb.
    2:{ right. apply (fails_but g log text [x28]); [vm_compute; reflexivity|]. intros b' [<- |[]] X. injection X as ->. discriminate. }
    apply beq_eq in Hb as ->. destruct (spacing_total _ t (le_n _)) as (s0 & t2 & -> & H1 & V2); [eapply valid_byte; [exact Hv|reflexivity]|].
    pose proof (reads_punct g log text SOPEN x28 s0 t2 eq_refl eq_refl eq_refl eq_refl eq_refl H1) as HO.
    destruct (name_total t2 V2) as [Hno|(m & t3 & -> & Hm & He & V3)].
    { right. apply fails_nt; [reflexivity|]. apply fails_seq. eapply fs_c; [exact HO|reflexivity| |reflexivity].
      apply fs_head. apply fails_nt; [reflexivity|]. apply fails_seq. apply fs_head. now apply fails_name. }
    destruct (spacing_total _ t3 (le_n _) V3) as (s1 & t4 & -> & H4 & V4). destruct (names_total _ t4 (le_n _) V4) as (w1 & r1 & l' & -> & V5 & HR & [(s2 & r & -> & H5 & H6)|Hend]).
    - left. exists (x28 :: s0 ++ (m ++ s1 ++ w1 ++ x29 :: s2)), (m :: l'), r. split; [nrm|]. exists s0, (m ++ s1 ++ w1 ++ x29 :: s2). split; [reflexivity|]. split; [|apply H6; assumption].
      revert H1. nrm. auto.
    - right. apply fails_nt; [reflexivity|]. apply fails_seq. eapply fs_c; [exact HO|reflexivity| |reflexivity].
      eapply fs_c; [apply (reads_ident g log text m s1 (w1 ++ r1)); assumption|reflexivity| |nrm]. eapply fs_c; [apply reads_zom; exact HR|reflexivity| |nrm].
      apply fs_head. apply (fails_but g log text [x29]); [vm_compute; reflexivity|]. intros b [<- |[]]. exact Hend.
  Qed.
  Definition arrow_ahead : ope := seq [opt (nt SParameters); nt SLEFTARROW].
  Lemma fails_ahead r : ~ arrow_next r -> Fails arrow_ahead r.
  Proof.
    intros H. apply fails_valid. intros Hv. apply fails_seq. destruct (params_total r Hv) as [(p & l & t & -> & Hp)|Hf].
    - eapply fs_c; [eapply reads_opt; apply (reads_params p l t Hp)|reflexivity| |reflexivity]. apply fs_head. apply fails_arrow. intros a t' Ha ->. apply H. right. exists p, l, a, t'. auto.
    - eapply (fs_c g log text _ _ []); [apply reads_opt_none; exact Hf|reflexivity| |reflexivity]. apply fs_head. apply fails_arrow. intros a t' Ha ->. apply H. left. exists a, t'. auto.
  Qed.
  Lemma arrow_head a t : arrow a -> ~ next_is x28 (a ++ t). Proof. intros [-> | ->]; discriminate. Qed.
  (** The rest after an arrow splits into spacing and what follows. *)
  Lemma reads_ahead a t : arrow a -> valid_utf8 t -> exists w r, a ++ t = w ++ r /\ Reads arrow_ahead w r None [None] [] keepd.
  Proof.
    intros Ha Hv. destruct (spacing_total _ t (le_n _) Hv) as (s & r & -> & Hs & _). exists (a ++ s), r. split; [nrm|].
    eapply reads_eq1; [apply reads_seq; eapply rs_c; [apply (reads_opt_none g log text (nt SParameters) (a ++ s ++ r))|eapply rs_c; [apply (reads_arrow g log text a s r); assumption|apply rs_nil|nrm]|nrm]|nrm..].
    apply (fails_but g log text [x28]); [vm_compute; reflexivity|]. intros b [<- |[]]. now apply arrow_head.
  Qed.
End Head.
