(** * Reading grammar texts: the rules of expressions, one by one. *)
From Verif Require Import Base BaseLemmas Utf8 Utf8Spec Utf8Proofs Escape EscapeSpec EscapeProofs TrieM TrieSpec LineInfo Ope Ctx ErrLog Engine EngineLemmas Scope Bounds EngineFacts Top
  RefSem RefMono Refine RefineOps PegRef PrecSpec PrecM LoadM MetaM Run MetaRun MetaJudge MetaDies NotationSpec MetaLex MetaHead MetaChars MetaLits MetaTerms.

(** What the events of an expression do to the data. *)
Definition ev_data (e : event) (d : data) : data :=
  match e with
  | Bound n => add_capture n d
  | Used n => back_reference n d
  | Open => with_caps (d_undef d) ([] :: d_caps d) (d_current d) (d_packrat d) d
  | Close => with_caps (d_undef d) (tl (d_caps d)) (d_current d) (d_packrat d) d
  end.
Definition eff (l : list event) (d : data) : data := fold_left (fun d e => ev_data e d) l d.
Lemma eff_app a b d : eff (a ++ b) d = eff b (eff a d). Proof. apply fold_left_app. Qed.
Definition effo (o : ope) : data -> data := eff (events o).
Definition effs (os : list ope) : data -> data := eff (flat_map events os).

(** ** First bytes *)
Definition name_bytes : list byte := filter (fun b => (128 <=? bN b)%N || name_start (bN b)) bytes256.
Lemma name_byte b : In b name_bytes -> ((128 <=? bN b)%N || name_start (bN b)) = true.
Proof. unfold name_bytes. rewrite filter_In. now intros [_ H]. Qed.
Lemma name_first n : name n -> exists b t, n = b :: t /\ In b name_bytes.
Proof.
  intros (c & cs & -> & Hs & Hc & _). apply Forall_inv in Hs. destruct (chr_head c (utf8_bytes c) (utf8_chr c Hs)) as (b & y & Hb & Hx).
  exists b. eexists. split; [unfold utf8_text; cbn [map List.concat]; rewrite Hb; reflexivity|]. apply filter_In. split; [apply bytes256_all|].
  destruct Hx as [(H1 & H2 & _)|[H1 H2]]; [rewrite H2, Hc; apply orb_true_r|]. apply orb_true_iff. left. apply N.leb_le. lia.
Qed.
Lemma name_not n b t : name n -> existsb (beq b) name_bytes = false -> ~ next_is b (n ++ t).
Proof.
  intros Hn H X. destruct (name_first n Hn) as (b' & t' & -> & Hi). injection X as ->. assert (Y : existsb (beq b) name_bytes = true) by (apply existsb_exists; exists b; split; [exact Hi|apply beq_refl]). congruence.
Qed.
Lemma name_not_up n t t' : name n -> n ++ t <> MetaM.up_arrow ++ t'.
Proof.
  intros (c & cs & -> & Hs & Hc & _) X. apply Forall_inv in Hs. unfold utf8_text in X. cbn [map List.concat] in X. rewrite <- app_assoc in X.
  assert (Y : c = 8593%N) by (eapply chr_unique; [apply utf8_chr; exact Hs|apply up_chr|exact X]). subst c. discriminate Hc.
Qed.
Lemma ends_byte b t : (bN b < 128)%N -> name_rest (bN b) = false -> name_ends (b :: t).
Proof.
  intros H1 H2 c (Hc & t' & X). assert (Y : c = bN b) by (eapply chr_unique; [apply utf8_chr; exact Hc|apply (chr_ascii b H1)|symmetry; exact X]). now subst c.
Qed.
Lemma spacing_done s r : spacing s r -> spacing [] r.
Proof. induction 1; [now apply sp_end|assumption|assumption]. Qed.

Section Expr.
  Variables (g : grammar) (log : bool) (text : bytes).
  Notation E := (mk_env (meta_parser g log) text).
  Notation Reads := (Reads g log text).
  Notation ReadsS := (ReadsS g log text).
  Notation ReadsC := (ReadsC g log text).
  Notation ReadsM := (ReadsM g log text).
  Notation Fails := (Fails g log text).
  Notation FailsS := (FailsS g log text).
  Notation FailsC := (FailsC g log text).
  Notation vope o := (Some (VOpe o)).

  Definition alts : list ope := match sym_body SPrimary with Cho _ _ l => l | _ => [] end.
  Lemma reads_primary j w r L T o f f' : ReadsC alts 0 w r j L T f ->
    (forall vs, v_vals vs = L -> v_ch vs = j -> value_of SPrimary text vs = Some (Made (VOpe o))) ->
    (forall vs d, v_vals vs = L -> v_ch vs = j -> effect_of SPrimary text vs d = f' d) ->
    Reads (nt SPrimary) w r None [vope o] [] (f >> f').
  Proof.
    intros HC Hv He. assert (HR : Reads (sym_body SPrimary) w r (Some j) L T f) by (apply (reads_cho g log text alts); exact HC).
    pose proof (reads_nt g log text SPrimary w r (Some j) L T f (vope o) f' eq_refl HR) as X. apply X.
    intros vs d [S1 _ _ S4]. unfold acts, run_action. cbn [has_action]. rewrite (Hv vs S1 (S4 eq_refl j eq_refl)), (He vs d S1 (S4 eq_refl j eq_refl)). reflexivity.
  Qed.
  Lemma die b o t : dies 40 (Some b) o = true -> Fails o (b :: t). Proof. intros H. now apply (dies_fails g log text 40 (Some b)). Qed.

  (** ** References and calls *)
  Lemma reads_ignore (ig : bool) n r : name n -> Reads (nt SIgnore) (ign_text ig) (n ++ r) None [Some (VBool ig)] [] keepd.
  Proof.
    intros Hn. assert (HR : exists L, Reads (sym_body SIgnore) (ign_text ig) (n ++ r) None L [] keepd /\ List.length L = if ig then 1 else 0).
    { destruct ig.
      - exists [front (@nil (option mval))]. split; [|reflexivity]. eapply reads_opt. eapply (reads_pass g log text SIGNORE); try reflexivity. apply reads_chr. reflexivity.
      - exists []. split; [|reflexivity]. apply reads_opt_none. apply (fails_but g log text [x7e]); [vm_compute; reflexivity|]. intros b [<- |[]]. apply name_not; [exact Hn|vm_compute; reflexivity]. }
    destruct HR as (L & HR & HL). pose proof (reads_nt g log text SIgnore _ _ None L [] keepd (Some (VBool ig)) keepd eq_refl HR) as X. apply X.
    intros vs d [S1 _ _ _]. unfold acts, run_action, value_of. cbn [has_action effect_of obind]. rewrite S1, HL. destruct ig; reflexivity.
  Qed.
  Lemma fails_args r : ~ next_is x28 r -> Fails (nt SArguments) r.
  Proof. intros H. apply (fails_but g log text [x28]); [vm_compute; reflexivity|]. intros b [<- |[]]. exact H. Qed.
  Lemma reads_reference ig n s r : name n -> name_ends (s ++ r) -> ~ next_is x28 (s ++ r) -> spacing s r -> ~ arrow_next r ->
    Reads (nt SPrimary) (ign_text ig ++ n ++ s) r None [vope (reference ig n false [])] [] keepd.
  Proof.
    intros H1 H2 H3 H4 H5. apply (reads_primary 0 _ r [Some (VBool ig); Some (VStr n)] [] _ keepd keepd).
    - eapply rc_here. eapply reads_eq1; [apply reads_seq; eapply rs_c; [apply (reads_ignore ig n (s ++ r) H1)|eapply rs_c; [apply (reads_name g log text n (s ++ r) H1 H2)|
        eapply rs_c; [apply (reads_opt_none g log text _ (s ++ r)); apply fails_args; exact H3|eapply rs_c; [apply (reads_spacing g log text s r H4)|eapply rs_c; [apply (reads_not g log text _ r); apply fails_ahead; exact H5|apply rs_nil|nrm]|nrm]|nrm]|nrm]|nrm]|nrm..].
    - intros vs V1 V2. unfold value_of. rewrite V1, V2. cbn [val_at nth_error as_bool as_str obind List.length Nat.ltb Nat.leb]. unfold reference, ref_, recover_name, recover.
      change (bs "%recover") with [x25; x72; x65; x63; x6f; x76; x65; x72]. destruct ig; reflexivity.
    - intros vs d V1 V2. unfold effect_of. rewrite V2. reflexivity.
  Qed.
  Lemma reads_call ig n p os r f : name n -> Reads (nt SArguments) (x28 :: p) r None [Some (VOpes os)] [] f -> spacing [] r -> ~ arrow_next r ->
    Reads (nt SPrimary) (ign_text ig ++ n ++ x28 :: p) r None [vope (reference ig n true os)] [] f.
  Proof.
    intros H1 H2 H3 H4. apply (reads_primary 0 _ r [Some (VBool ig); Some (VStr n); Some (VOpes os)] [] _ f keepd).
    - eapply rc_here. eapply reads_eq1; [apply reads_seq; eapply rs_c; [apply (reads_ignore ig n ((x28 :: p) ++ r) H1)|eapply rs_c; [apply (reads_name g log text n ((x28 :: p) ++ r) H1); apply ends_byte; reflexivity|
        eapply rs_c; [eapply reads_opt; exact H2|eapply rs_c; [apply (reads_spacing g log text [] r H3)|eapply rs_c; [apply (reads_not g log text _ r); apply fails_ahead; exact H4|apply rs_nil|nrm]|nrm]|nrm]|nrm]|nrm]|nrm..].
    - intros vs V1 V2. unfold value_of. rewrite V1, V2. cbn [val_at nth_error as_bool as_str as_opes obind List.length Nat.ltb Nat.leb]. unfold reference, ref_, recover_name, recover.
      change (bs "%recover") with [x25; x72; x65; x63; x6f; x76; x65; x72]. destruct ig; reflexivity.
    - intros vs d V1 V2. unfold effect_of. rewrite V2. reflexivity.
  Qed.

  (** ** Brackets *)
  Lemma reads_group s w o s' r f : spacing s (w ++ x29 :: s' ++ r) -> Reads (nt SExpression) w (x29 :: s' ++ r) None [vope o] [] f -> spacing s' r ->
    Reads (nt SPrimary) (x28 :: s ++ w ++ x29 :: s') r None [vope o] [] f.
  Proof.
    intros H1 H2 H3. apply (reads_primary 1 _ r [vope o] [] _ f keepd).
    - apply rc_next; [apply die; vm_compute; reflexivity|]. eapply rc_here.
      eapply reads_eq1; [apply reads_seq; eapply rs_c; [apply (reads_punct g log text SOPEN x28 s (w ++ x29 :: s' ++ r)); try reflexivity; exact H1|eapply rs_c; [exact H2|
        eapply rs_c; [apply (reads_punct g log text SCLOSE x29 s' r); try reflexivity; exact H3|apply rs_nil|nrm]|nrm]|nrm]|nrm..].
    - intros vs V1 V2. unfold value_of. rewrite V1, V2. reflexivity.
    - intros vs d V1 V2. unfold effect_of. rewrite V2. reflexivity.
  Qed.
  Lemma reads_token s w o s' r f : spacing s (w ++ x3e :: s' ++ r) -> Reads (nt SExpression) w (x3e :: s' ++ r) None [vope o] [] f -> spacing s' r ->
    Reads (nt SPrimary) (x3c :: s ++ w ++ x3e :: s') r None [vope (Tok o)] [] f.
  Proof.
    intros H1 H2 H3. apply (reads_primary 2 _ r [vope o] [] _ f keepd).
    - do 2 (apply rc_next; [apply die; vm_compute; reflexivity|]). eapply rc_here.
      eapply reads_eq1; [apply reads_seq; eapply rs_c; [apply (reads_punct g log text SBeginTok x3c s (w ++ x3e :: s' ++ r)); try reflexivity; exact H1|eapply rs_c; [exact H2|
        eapply rs_c; [apply (reads_punct g log text SEndTok x3e s' r); try reflexivity; exact H3|apply rs_nil|nrm]|nrm]|nrm]|nrm..].
    - intros vs V1 V2. unfold value_of. rewrite V1, V2. reflexivity.
    - intros vs d V1 V2. unfold effect_of. rewrite V2. reflexivity.
  Qed.
  Lemma reads_cap_scope w r C o T f : Reads (sym_body SCapScope) w r C [vope o] T f ->
    Reads (nt SCapScope) w r None [vope o] [] (ev_data Open >> f >> ev_data Close).
  Proof.
    intros [V1 H1]. split; [exact V1|]. intros pos vs d k x d' Ha Hr. apply hld_run in Hr as (k' & y & d1 & A & B).
    change (enter_dt E (sid SCapScope) pos d) with (ev_data Open d) in A. destruct (H1 _ _ _ _ _ _ Ha A) as (-> & vs1 & -> & G).
    assert (Hs : sees text SCapScope (seen (sid SCapScope) (sym_body SCapScope) pos (List.length w) vs1) w [vope o] T C) by (eapply seen_sees; eauto).
    destruct Hs as [S1 _ _ _]. unfold acts in B. cbn [has_action] in B. rewrite S1 in B. cbn in B. destruct B as [-> ->]. split; [reflexivity|].
    eexists. split; [reflexivity|]. constructor; [reflexivity|cbn; now rewrite app_nil_r|discriminate].
  Qed.
  Lemma reads_scope s w o s' r f : spacing s (w ++ x29 :: s' ++ r) -> Reads (nt SExpression) w (x29 :: s' ++ r) None [vope o] [] f -> spacing s' r ->
    Reads (nt SPrimary) (x24 :: x28 :: s ++ w ++ x29 :: s') r None [vope (Csc o)] [] (ev_data Open >> f >> ev_data Close).
  Proof.
    intros H1 H2 H3. apply (reads_primary 3 _ r [vope o] [] _ (ev_data Open >> f >> ev_data Close) keepd).
    - do 3 (apply rc_next; [apply die; vm_compute; reflexivity|]). eapply rc_here. eapply reads_cap_scope.
      eapply reads_eq1; [apply reads_seq; eapply rs_c; [eapply (reads_drop g log text SBeginCapScope); try reflexivity; apply reads_seq; eapply rs_c; [apply (reads_chr g log text x24 (x28 :: s ++ w ++ x29 :: s' ++ r)); reflexivity|
          eapply rs_c; [apply (reads_chr g log text x28 (s ++ w ++ x29 :: s' ++ r)); reflexivity|eapply rs_c; [apply (reads_spacing g log text s (w ++ x29 :: s' ++ r)); exact H1|apply rs_nil|nrm]|nrm]|nrm]|
        eapply rs_c; [exact H2|eapply rs_c; [apply (reads_punct g log text SEndCapScope x29 s' r); try reflexivity; exact H3|apply rs_nil|nrm]|nrm]|nrm]|nrm..].
    - intros vs V1 V2. unfold value_of. rewrite V1, V2. reflexivity.
    - intros vs d V1 V2. unfold effect_of. rewrite V2. reflexivity.
  Qed.
  Lemma fails_cap_scope t : ~ next_is x28 t -> valid_utf8 t -> Fails (nt SCapScope) (x24 :: t).
  Proof.
    intros H Hv. apply fails_nt'; [discriminate|]. apply fails_seq, fs_head. apply fails_nt; [reflexivity|]. apply fails_seq.
    eapply (fs_c g log text _ _ [x24] t); [apply reads_chr; reflexivity|reflexivity| |reflexivity]. apply fs_head. apply fails_chr; [reflexivity|exact H].
  Qed.
  Lemma tok_name n r : name n -> name_ends r -> Reads (tok (nt SIdentCont)) n r None [Some (VStr n)] [n] keepd.
  Proof. intros H1 H2. eapply reads_eq1; [eapply reads_tok; apply (reads_name g log text n r H1 H2)|nrm..]. Qed.
  Lemma tok_is vs n : map (tt text) (v_toks vs) = [n] -> token_text text vs = n.
  Proof. intros H. unfold token_text. destruct (v_toks vs) as [|t l]; [discriminate H|]. now injection H. Qed.
  Lemma reads_begin_cap n s r : name n -> spacing s r -> Reads (nt SBeginCap) (x24 :: n ++ x3c :: s) r None [Some (VView n)] [] keepd.
  Proof.
    intros H1 H2. assert (HR : Reads (sym_body SBeginCap) (x24 :: n ++ x3c :: s) r None [Some (VStr n)] [n] keepd).
    { eapply reads_eq1; [apply reads_seq; eapply rs_c; [apply (reads_chr g log text x24 (n ++ x3c :: s ++ r)); reflexivity|eapply rs_c; [apply (tok_name n (x3c :: s ++ r) H1); apply ends_byte; reflexivity|
        eapply rs_c; [apply (reads_chr g log text x3c (s ++ r)); reflexivity|eapply rs_c; [apply (reads_spacing g log text s r H2)|apply rs_nil|nrm]|nrm]|nrm]|nrm]|nrm..]. }
    pose proof (reads_nt g log text SBeginCap _ _ None _ [n] keepd (Some (VView n)) keepd eq_refl HR) as X. apply X.
    intros vs d [_ S2 _ _]. unfold acts, run_action, value_of. cbn [has_action effect_of obind]. now rewrite (tok_is vs n S2).
  Qed.
  Lemma fails_begin_cap n s r : name n -> name_ends (s ++ r) -> ~ next_is x3c (s ++ r) -> Fails (nt SBeginCap) (x24 :: n ++ s ++ r).
  Proof.
    intros H1 H2 H3. apply fails_nt; [reflexivity|]. apply fails_seq. eapply (fs_c g log text _ _ [x24] (n ++ s ++ r)); [apply reads_chr; reflexivity|reflexivity| |reflexivity].
    eapply fs_c; [apply (tok_name n (s ++ r) H1 H2)|reflexivity| |reflexivity]. apply fs_head. apply fails_chr; [reflexivity|exact H3].
  Qed.
  Lemma reads_capture n s w o s' r f : name n -> spacing s (w ++ x3e :: s' ++ r) -> Reads (nt SExpression) w (x3e :: s' ++ r) None [vope o] [] f -> spacing s' r ->
    Reads (nt SPrimary) (x24 :: n ++ x3c :: s ++ w ++ x3e :: s') r None [vope (Cap n o)] [] (f >> ev_data (Bound n)).
  Proof.
    intros H0 H1 H2 H3. apply (reads_primary 4 _ r [Some (VView n); vope o] [] _ f (ev_data (Bound n))).
    - do 3 (apply rc_next; [apply die; vm_compute; reflexivity|]). apply rc_next.
      { apply fails_valid. intros Hv. apply (fails_cap_scope ((n ++ x3c :: s ++ w ++ x3e :: s') ++ r)).
        - rewrite <- app_assoc. apply name_not; [exact H0|vm_compute; reflexivity].
        - eapply valid_byte; [exact Hv|reflexivity]. }
      eapply rc_here.
      eapply reads_eq1; [apply reads_seq; eapply rs_c; [apply (reads_begin_cap n s (w ++ x3e :: s' ++ r) H0 H1)|eapply rs_c; [exact H2|
        eapply rs_c; [apply (reads_punct g log text SEndCap x3e s' r); try reflexivity; exact H3|apply rs_nil|nrm]|nrm]|nrm]|nrm..].
    - intros vs V1 V2. unfold value_of. rewrite V1, V2. reflexivity.
    - intros vs d V1 V2. unfold effect_of. rewrite V1, V2. reflexivity.
  Qed.
  (** The alternatives after the fifth have their operator as value. *)
  Lemma reads_later j w r o T f : 5 <= j -> ReadsC alts 0 w r j [vope o] T f -> Reads (nt SPrimary) w r None [vope o] [] f.
  Proof.
    intros Hj HC. apply (reads_primary j _ r [vope o] T _ f keepd); [exact HC|..].
    - intros vs V1 V2. unfold value_of. rewrite V1, V2. do 5 (destruct j as [|j]; [lia|]). reflexivity.
    - intros vs d V1 V2. unfold effect_of. rewrite V2. do 5 (destruct j as [|j]; [lia|]). reflexivity.
  Qed.
  Lemma reads_back n s r : name n -> name_ends (s ++ r) -> ~ next_is x3c (s ++ r) -> spacing s r ->
    Reads (nt SPrimary) (x24 :: n ++ s) r None [vope (Bkr n)] [] (ev_data (Used n)).
  Proof.
    intros H1 H2 H3 H4. apply (reads_later 5 _ r _ []); [lia|].
    do 3 (apply rc_next; [apply die; vm_compute; reflexivity|]). apply rc_next.
    { apply fails_valid. intros Hv. apply (fails_cap_scope ((n ++ s) ++ r)).
      - rewrite <- app_assoc. apply name_not; [exact H1|vm_compute; reflexivity].
      - eapply valid_byte; [exact Hv|reflexivity]. }
    apply rc_next; [apply fails_seq, fs_head; replace ((x24 :: n ++ s) ++ r) with (x24 :: n ++ s ++ r) by nrm; now apply fails_begin_cap|]. eapply rc_here.
    assert (HR : Reads (sym_body SBackRef) (x24 :: n ++ s) r None [Some (VStr n)] [n] keepd).
    { eapply reads_eq1; [apply reads_seq; eapply rs_c; [apply (reads_chr g log text x24 (n ++ s ++ r)); reflexivity|eapply rs_c; [apply (tok_name n (s ++ r) H1 H2)|
        eapply rs_c; [apply (reads_spacing g log text s r H4)|apply rs_nil|nrm]|nrm]|nrm]|nrm..]. }
    pose proof (reads_nt g log text SBackRef _ _ None _ [n] keepd (vope (Bkr n)) (back_reference n) eq_refl HR) as X. apply X.
    intros vs d [_ S2 _ _]. unfold acts, run_action, value_of. cbn [has_action effect_of obind]. now rewrite (tok_is vs n S2).
  Qed.

  (** ** Literals, dictionaries, classes, any *)
  Lemma quoted_first ic w m r : quoted ic w m r -> exists q t, w = q :: t /\ quote q.
  Proof. intros [q l s r' H1 H2 H3]. exists q. eexists. split; [reflexivity|]. apply H1. Qed.
  Lemma bars_first ic w m r : bars ic w m r -> exists q t, w = q :: t /\ quote q.
  Proof. intros H. destruct H as [w m r H|w m s w' l r H _ _]; destruct (quoted_first _ _ _ _ H) as (q & t & -> & Hq); exists q; eexists; (split; [reflexivity|exact Hq]). Qed.
  Ltac die_q Hw := let q := fresh "q" in let t := fresh "t" in let Hq := fresh "Hq" in destruct Hw as (q & t & -> & Hq); cbn [app]; destruct Hq as [-> | ->]; apply die; vm_compute; reflexivity.
  Lemma bars_head w ms r : bars false w ms r -> exists w1 m t, w = w1 ++ t /\ quoted false w1 m (t ++ r).
  Proof.
    intros H. destruct H as [w m r H _|w m s w' l r H1 H2 H3].
    - exists w, m, []. rewrite app_nil_r. split; [reflexivity|exact H].
    - exists w, m, (bar :: s ++ w'). split; [reflexivity|]. revert H1. nrm. auto.
  Qed.
  Lemma reads_lit_p ic w m r : quoted ic w m r -> ~ next_is bar r -> Reads (nt SPrimary) w r None [vope (Lit m ic)] [] keepd.
  Proof.
    intros H1 H2. pose proof (quoted_first _ _ _ _ H1) as Hw. destruct ic.
    - apply (reads_later 7 _ r _ []); [lia|]. do 6 (apply rc_next; [die_q Hw|]). apply rc_next; [apply (fails_dict g log text true w m r H1 H2)|]. eapply rc_here. apply (reads_literal g log text true w m r H1).
    - apply (reads_later 9 _ r _ []); [lia|]. do 6 (apply rc_next; [die_q Hw|]). apply rc_next; [apply (fails_dict_i g log text w m r H1)|].
      apply rc_next; [eapply fails_literal_i; [exact H1|reflexivity..]|]. apply rc_next; [apply (fails_dict g log text false w m r H1 H2)|]. eapply rc_here. apply (reads_literal g log text false w m r H1).
  Qed.
  Lemma reads_dict_p ic w ms r : bars ic w ms r -> 2 <= List.length ms -> Reads (nt SPrimary) w r None [vope (Dic (make_trie ms ic))] [] keepd.
  Proof.
    intros H1 H2. pose proof (bars_first _ _ _ _ H1) as Hw. destruct ic.
    - apply (reads_later 6 _ r _ []); [lia|]. do 6 (apply rc_next; [die_q Hw|]). eapply rc_here. apply (reads_dictionary g log text true w ms r H1 H2).
    - apply (reads_later 8 _ r _ []); [lia|]. do 6 (apply rc_next; [die_q Hw|]). destruct (bars_head w ms r H1) as (w1 & m & t & -> & Hq).
      apply rc_next; [rewrite <- app_assoc; apply (fails_dict_i g log text w1 m (t ++ r) Hq)|].
      apply rc_next; [rewrite <- app_assoc; eapply fails_literal_i; [exact Hq|reflexivity..]|]. eapply rc_here. apply (reads_dictionary g log text false _ ms r H1 H2).
  Qed.
  Lemma reads_class_p w o r : class_ w o r -> Reads (nt SPrimary) w r None [vope o] [] keepd.
  Proof.
    intros [neg ic w' rs s r' H1 H2 H3 H4 H5]. 
    assert (Hi : ic = false -> Fails (nt (cls_s neg true)) ((cls_text neg ++ w' ++ x5d :: s) ++ r')) by (intros ->; apply (fails_class_i g log text neg w' rs s r'); auto).
    assert (Hn : neg = false -> forall i t, Fails (nt (cls_s true i)) (x5b :: w' ++ t)) by (intros -> i t; apply fails_class_neg; auto).
    pose proof (reads_class g log text neg ic w' rs s r' H1 H2 H3 H5) as HR.
    assert (X : exists j, 5 <= j /\ ReadsC alts 0 (cls_text neg ++ w' ++ x5d :: ic_text ic ++ s) r' j [vope (Cls rs neg ic)] [] keepd).
    { destruct neg, ic; cbn [cls_text cls_s ic_text app] in *.
      - exists 10. split; [lia|]. do 10 (apply rc_next; [apply die; vm_compute; reflexivity|]). eapply rc_here. exact HR.
      - exists 11. split; [lia|]. do 10 (apply rc_next; [apply die; vm_compute; reflexivity|]). apply rc_next; [exact (Hi eq_refl)|]. eapply rc_here. exact HR.
      - exists 12. split; [lia|]. do 10 (apply rc_next; [apply die; vm_compute; reflexivity|]). apply rc_next; [nrm; apply (Hn eq_refl true)|]. apply rc_next; [nrm; apply (Hn eq_refl false)|]. eapply rc_here. exact HR.
      - exists 13. split; [lia|]. do 10 (apply rc_next; [apply die; vm_compute; reflexivity|]). apply rc_next; [nrm; apply (Hn eq_refl true)|]. apply rc_next; [nrm; apply (Hn eq_refl false)|]. apply rc_next; [exact (Hi eq_refl)|]. eapply rc_here. exact HR. }
    destruct X as (j & Hj & HC). exact (reads_later j _ r' _ [] keepd Hj HC).
  Qed.
  Lemma reads_dot_p s r : spacing s r -> Reads (nt SPrimary) (x2e :: s) r None [vope Dot] [] keepd.
  Proof.
    intros H. apply (reads_later 14 _ r _ []); [lia|]. do 14 (apply rc_next; [apply die; vm_compute; reflexivity|]). eapply rc_here.
    pose proof (reads_punct_body g log text x2e s r eq_refl H) as HR.
    pose proof (reads_nt g log text SDOT _ _ None [] [] keepd (vope Dot) keepd eq_refl HR) as X. apply X. intros vs d _. reflexivity.
  Qed.

  (** ** Suffixes, labels, prefixes *)
  Lemma reads_suffix p o l fl r f : Reads (nt SPrimary) p (l ++ r) None [vope o] [] f -> NotationSpec.loop l fl r -> Reads (nt SSuffix) (p ++ l) r None [vope (fl o)] [] f.
  Proof.
    intros H1 H2. destruct (reads_loop g log text l fl r H2) as (L & HL & Hk).
    assert (HR : Reads (sym_body SSuffix) (p ++ l) r None (vope o :: L) [] f) by (eapply reads_eq1; [apply reads_seq; eapply rs_c; [exact H1|eapply rs_c; [exact HL|apply rs_nil|nrm]|nrm]|nrm..]).
    pose proof (reads_nt g log text SSuffix _ _ None _ [] f (vope (fl o)) keepd eq_refl HR) as X. apply X. intros vs d [S1 _ _ _]. unfold acts, run_action, value_of. cbn [has_action effect_of]. rewrite S1.
    destruct Hk as [[-> Hf]|(k & -> & Hf)]; rewrite Hf; [reflexivity|]. destruct k; reflexivity.
  Qed.
  Lemma reads_labelled p o b fb r f : Reads (nt SSuffix) p (b ++ r) None [vope o] [] f -> label b fb r -> Reads (nt SSuffixWithLabel) (p ++ b) r None [vope (fb o)] [] f.
  Proof.
    intros H1 H2. destruct (reads_label g log text b fb r H2) as (L & HL & Hk).
    assert (HR : Reads (sym_body SSuffixWithLabel) (p ++ b) r None (vope o :: L) [] f) by (eapply reads_eq1; [apply reads_seq; eapply rs_c; [exact H1|eapply rs_c; [exact HL|apply rs_nil|nrm]|nrm]|nrm..]).
    pose proof (reads_nt g log text SSuffixWithLabel _ _ None _ [] f (vope (fb o)) keepd eq_refl HR) as X. apply X. intros vs d [S1 _ _ _]. unfold acts, run_action, value_of. cbn [has_action effect_of]. rewrite S1.
    destruct Hk as [[-> Hf]|(k & -> & Hf)]; rewrite Hf; reflexivity.
  Qed.
  Lemma reads_prefix m fm p o r f : mark m fm (p ++ r) -> (forall b, In b [x26; x21] -> ~ next_is b (p ++ r)) -> Reads (nt SSuffixWithLabel) p r None [vope o] [] f ->
    Reads (nt SPrefix) (m ++ p) r None [vope (fm o)] [] f.
  Proof.
    intros H1 H0 H2. destruct (reads_mark g log text m fm (p ++ r) H1 H0) as (L & HL & Hk).
    assert (HR : Reads (sym_body SPrefix) (m ++ p) r None (L ++ [vope o]) [] f) by (eapply reads_eq1; [apply reads_seq; eapply rs_c; [exact HL|eapply rs_c; [exact H2|apply rs_nil|nrm]|nrm]|nrm..]).
    pose proof (reads_nt g log text SPrefix _ _ None _ [] f (vope (fm o)) keepd eq_refl HR) as X. apply X. intros vs d [S1 _ _ _]. unfold acts, run_action, value_of. cbn [has_action effect_of]. rewrite S1.
    destruct Hk as [[-> Hf]|(k & -> & Hf)]; rewrite Hf; [reflexivity|]. cbn [app val_at nth_error as_byte as_ope obind List.length Nat.eqb]. reflexivity.
  Qed.

  (** ** Sequences, choices, arguments *)
  Definition item : ope := cho [nt SCUT; nt SPrefix].
  Definition vopes (os : list ope) : vals := map (fun o => vope o) os.
  Lemma all_opes os : all_as as_ope (vopes os) = Some os.
  Proof. induction os as [|o os IH]; [reflexivity|]. cbn [vopes map all_as as_ope]. fold (vopes os). now rewrite IH. Qed.
  Lemma reads_sequence w os r f : ReadsM item None w r (vopes os) [] f -> Reads (nt SSequence) w r None [vope (sequence_of os)] [] f.
  Proof.
    intros H. assert (HR : Reads (sym_body SSequence) w r None (vopes os) [] f) by (apply reads_zom; exact H).
    pose proof (reads_nt g log text SSequence _ _ None _ [] f (vope (sequence_of os)) keepd eq_refl HR) as X. apply X. intros vs d [S1 _ _ _]. unfold acts, run_action, value_of. cbn [has_action effect_of]. rewrite S1, all_opes.
    destruct os as [|o [|o' os]]; reflexivity.
  Qed.
  Definition slash_seq : ope := seq [nt SSLASH; nt SSequence].
  Lemma fails_slash r : ~ next_is x2f r -> Fails slash_seq r.
  Proof. intros H. apply (fails_but g log text [x2f]); [vm_compute; reflexivity|]. intros b [<- |[]]. exact H. Qed.
  Lemma reads_slash s w o r f : spacing s (w ++ r) -> Reads (nt SSequence) w r None [vope o] [] f -> Reads slash_seq (x2f :: s ++ w) r None [vope o] [] f.
  Proof.
    intros H1 H2. eapply reads_eq1; [apply reads_seq; eapply rs_c; [apply (reads_punct g log text SSLASH x2f s (w ++ r)); try reflexivity; exact H1|eapply rs_c; [exact H2|apply rs_nil|nrm]|nrm]|nrm..].
  Qed.
  Lemma reads_expr w1 o w2 l r f1 f2 : Reads (nt SSequence) w1 (w2 ++ r) None [vope o] [] f1 -> ReadsM slash_seq None w2 r (vopes l) [] f2 ->
    Reads (nt SExpression) (w1 ++ w2) r None [vope (choice_of (o :: l))] [] (f1 >> f2).
  Proof.
    intros H1 H2. assert (HR : Reads (sym_body SExpression) (w1 ++ w2) r None (vopes (o :: l)) [] (f1 >> f2)).
    { eapply reads_eq1; [apply reads_seq; eapply rs_c; [exact H1|eapply rs_c; [apply reads_zom; exact H2|apply rs_nil|nrm]|nrm]|nrm..]. }
    pose proof (reads_nt g log text SExpression _ _ None _ [] _ (vope (choice_of (o :: l))) keepd eq_refl HR) as X. apply X. intros vs d [S1 _ _ _]. unfold acts, run_action, value_of. cbn [has_action effect_of]. rewrite S1, all_opes.
    destruct l; reflexivity.
  Qed.
  Definition comma_expr : ope := seq [nt SCOMMA; nt SExpression].
  Lemma fails_comma_expr r : ~ next_is x2c r -> Fails comma_expr r.
  Proof. intros H. apply (fails_but g log text [x2c]); [vm_compute; reflexivity|]. intros b [<- |[]]. exact H. Qed.
  Lemma reads_comma_expr s w o r f : spacing s (w ++ r) -> Reads (nt SExpression) w r None [vope o] [] f -> Reads comma_expr (x2c :: s ++ w) r None [vope o] [] f.
  Proof.
    intros H1 H2. eapply reads_eq1; [apply reads_seq; eapply rs_c; [apply (reads_punct g log text SCOMMA x2c s (w ++ r)); try reflexivity; exact H1|eapply rs_c; [exact H2|apply rs_nil|nrm]|nrm]|nrm..].
  Qed.
  Lemma reads_args s w1 o w2 l s' r f1 f2 : spacing s (w1 ++ w2 ++ x29 :: s' ++ r) -> Reads (nt SExpression) w1 (w2 ++ x29 :: s' ++ r) None [vope o] [] f1 -> ReadsM comma_expr None w2 (x29 :: s' ++ r) (vopes l) [] f2 -> spacing s' r ->
    Reads (nt SArguments) (x28 :: s ++ w1 ++ w2 ++ x29 :: s') r None [Some (VOpes (o :: l))] [] (f1 >> f2).
  Proof.
    intros H0 H1 H2 H3. assert (HR : Reads (sym_body SArguments) (x28 :: s ++ w1 ++ w2 ++ x29 :: s') r None (vopes (o :: l)) [] (f1 >> f2)).
    { eapply reads_eq1; [apply reads_seq; eapply rs_c; [apply (reads_punct g log text SOPEN x28 s (w1 ++ w2 ++ x29 :: s' ++ r)); try reflexivity; exact H0|eapply rs_c; [exact H1|eapply rs_c; [apply reads_zom; exact H2|
        eapply rs_c; [apply (reads_punct g log text SCLOSE x29 s' r); try reflexivity; exact H3|apply rs_nil|nrm]|nrm]|nrm]|nrm]|nrm..]. }
    pose proof (reads_nt g log text SArguments _ _ None _ [] _ (Some (VOpes (o :: l))) keepd eq_refl HR) as X. apply X. intros vs d [S1 _ _ _]. unfold acts, run_action, value_of. cbn [has_action effect_of]. rewrite S1, all_opes. reflexivity.
  Qed.
End Expr.
