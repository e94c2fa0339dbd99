(** * Reading pieces of grammar text.
    [Reads o w r C L T f]: where the text goes on with [w ++ r], any run of [o] consumes
    exactly [w], adds the values [L] and the token texts [T], takes alternative [C] (if it
    says) and changes the data by [f].  [Fails o s]: where the text goes on with [s],
    any run of [o] fails and leaves the data alone. *)
From Verif Require Import Base BaseLemmas Utf8 Utf8Spec Utf8Proofs Escape TrieM TrieSpec LineInfo Ope Ctx ErrLog Engine EngineLemmas Scope Bounds EngineFacts Top
  RefSem RefMono Refine RefineOps PegRef PrecSpec PrecM LoadM MetaM Run MetaRun.
From Verif Require Import PegSpec PegFacts.

Lemma valid_nil : valid_utf8 []. Proof. exists []. split; [constructor|reflexivity]. Qed.
Lemma valid_app a b : valid_utf8 a -> valid_utf8 b -> valid_utf8 (a ++ b).
Proof.
  intros (x & H1 & H2) (y & H3 & H4). exists (x ++ y). split; [now apply Forall_app|]. now rewrite !map_app, concat_app, H2, H4.
Qed.
Lemma valid_rest a b : valid_utf8 (a ++ b) -> valid_utf8 a -> valid_utf8 b.
Proof. intros H (cps & Ha). exact (valid_app_inv cps a b Ha H). Qed.

(** One character and what follows. *)
Definition chr_text (c : N) (x : bytes) : Prop := scalar c /\ map bN x = rfc3629 c.
Lemma chr_valid c x : chr_text c x -> valid_utf8 x.
Proof. intros [H1 H2]. exists [c]. split; [constructor; [exact H1|constructor]|]. cbn [map List.concat]. rewrite app_nil_r. exact H2. Qed.
Lemma chr_ascii b : (bN b < 128)%N -> chr_text (bN b) [b].
Proof.
  intros H. split; [unfold scalar; lia|]. unfold rfc3629. replace (bN b <=? 127)%N with true by (symmetry; apply N.leb_le; lia). reflexivity.
Qed.
Lemma chr_head c x : chr_text c x -> exists b y, x = b :: y /\ ((c < 128)%N /\ bN b = c /\ y = [] \/ (128 <= c /\ 128 <= bN b)%N).
Proof.
  intros [Hs Hx]. unfold rfc3629 in Hx. destruct x as [|b y]; [exfalso; repeat destruct (_ <=? _)%N; discriminate|]. exists b, y. split; [reflexivity|].
  destruct (N.leb_spec c 127).
  - injection Hx as Hb Hy. left. split; [lia|]. split; [exact Hb|]. destruct y; [reflexivity|discriminate].
  - right. split; [lia|]. repeat destruct (_ <=? _)%N; injection Hx as Hb _; rewrite Hb; apply N.le_trans with 192%N; try lia; apply N.le_trans with 192%N; lia.
Qed.
Lemma valid_first s : valid_utf8 s -> s = [] \/ exists c x t, s = x ++ t /\ chr_text c x /\ valid_utf8 t.
Proof. intros H. destruct (valid_chr s H) as [->|(c & x & t & A & B & C & D)]; [now left|]. right. exists c, x, t. repeat split; auto. Qed.

Notation "f >> g" := (fun d => g (f d)) (at level 60, right associativity, only parsing).
Notation keepd := (fun d : data => d).

Section Judge.
  Variables (g : grammar) (log : bool) (text : bytes).
  Notation E := (mk_env (meta_parser g log) text).
  Notation run := (run E meta_rules).
  Notation sv := (sv mval).

  Definition at_ (pos : nat) (s : bytes) : Prop := pos <= List.length text /\ from text pos = s /\ valid_utf8 s.
  Definition tt (sp : nat * nat) : bytes := span_text text sp.
  Record gives (vs vs' : sv) (L : vals) (T : list bytes) (C : option nat) : Prop := {
    gv_vals : v_vals vs' = v_vals vs ++ L;
    gv_toks : map tt (v_toks vs') = map tt (v_toks vs) ++ T;
    gv_ch : forall i, C = Some i -> v_ch vs' = i
  }.
  Definition Reads (o : ope) (w r : bytes) (C : option nat) (L : vals) (T : list bytes) (f : data -> data) : Prop :=
    valid_utf8 w /\ forall pos vs d k x d', at_ pos (w ++ r) -> run k o pos vs d x d' ->
      d' = f d /\ exists vs', x = Some (List.length w, vs') /\ gives vs vs' L T C.
  Definition Fails (o : ope) (s : bytes) : Prop :=
    forall pos vs d k x d', at_ pos s -> run k o pos vs d x d' -> x = None /\ d' = d.

  Lemma at_app pos w r : at_ pos (w ++ r) -> valid_utf8 w -> at_ (pos + List.length w) r /\ sub text pos (List.length w) = w.
  Proof.
    intros (H1 & H2 & H3) Hw. destruct (app_from E (fun _ => None) (fun _ => eq_refl) (bound_none E (fun _ => None) eq_refl) (end_none E (fun _ => None) eq_refl) w r pos H1 H2) as (A & B & C). split; [|exact C]. split; [exact A|]. split; [now symmetry|].
    eapply valid_rest; eauto.
  Qed.
  Lemma gives_nil vs : gives vs vs [] [] None.
  Proof. constructor; rewrite ?app_nil_r; try reflexivity. discriminate. Qed.
  Lemma gives_trans a b c L1 T1 C1 L2 T2 C2 : gives a b L1 T1 C1 -> gives b c L2 T2 C2 -> gives a c (L1 ++ L2) (T1 ++ T2) C2.
  Proof. intros [H1 H2 H3] [H4 H5 H6]. constructor; [|rewrite H5, H2, app_assoc; reflexivity|auto]. rewrite H4, H1, app_assoc. reflexivity. Qed.
  Lemma gives_weak a b L T C : gives a b L T C -> gives a b L T None.
  Proof. intros [H1 H2 H3]. constructor; auto. discriminate. Qed.
  Lemma reads_weak o w r C L T f : Reads o w r C L T f -> Reads o w r None L T f.
  Proof.
    intros [Hv H]. split; [exact Hv|]. intros pos vs d k x d' Ha Hr. destruct (H pos vs d k x d' Ha Hr) as (A & vs' & B & G). split; [exact A|].
    exists vs'. split; [exact B|]. eapply gives_weak; eauto.
  Qed.
  Lemma reads_eq o w w' r r' C L L' T T' f f' : Reads o w r C L T f -> w' = w -> r' = r -> L' = L -> T' = T -> (forall d, f' d = f d) -> Reads o w' r' C L' T' f'.
  Proof.
    intros [Hv H] -> -> -> -> Hf. split; [exact Hv|]. intros pos vs d k x d' Ha Hr. destruct (H pos vs d k x d' Ha Hr) as [-> A]. auto.
  Qed.
  Lemma reads_valid o w r C L T f : Reads o w r C L T f -> valid_utf8 w. Proof. now intros []. Qed.

  (** ** Single characters and literals *)
  Lemma leaf_chr ch pos vs : leaf_out E (Chr ch) pos vs = ref_chr E ch pos vs. Proof. reflexivity. Qed.
  Lemma at_chr pos c x t : at_ pos (x ++ t) -> chr_text c x ->
    (left E pos =? 0) = false /\ decode_codepoint_len (from text pos) (left E pos) 0%N = Ok (List.length x, c) /\ codepoint_length (from text pos) (left E pos) = Ok (List.length x)
    /\ 0 < List.length x.
  Proof.
    intros (H1 & H2 & _) [Hs Hx].
    assert (Hp : peg (PegWord.peg_word (e_g E) (e_ws E) (e_word E) (fun _ => None)) (PChr (fun _ => true)) (from text pos) (Some t)) by (rewrite H2; now apply (peg_chr _ _ c)).
    destruct (f_pchr E (fun _ => None) (fun _ => eq_refl) (bound_none E (fun _ => None) eq_refl) (end_none E (fun _ => None) eq_refl) (fun _ => true) _ _ pos (@sv_new mval) Hp H1 eq_refl) as [(A & _)|(cp & n & A & B & C & D & F)].
    - exfalso. rewrite A in H2. destruct x; [|discriminate]. unfold rfc3629 in Hx. repeat destruct (_ <=? _)%N; discriminate.
    - split; [apply Nat.eqb_neq; lia|].
      assert (Ex : x = encode_codepoint c) by (apply map_bN_inj; rewrite Hx; symmetry; now apply encode_rfc).
      destruct (encode_decode c t (left E pos) Hs) as [D1 D2].
      { rewrite <- Ex. unfold left, inlen. cbn. pose proof (from_length text pos) as Hl. rewrite H2, app_length in Hl. rewrite <- Hl. lia. }
      rewrite <- Ex in D1, D2. rewrite H2. unfold decode_codepoint_len. rewrite D1. cbn. split; [reflexivity|]. split; [exact D2|].
      destruct x; [unfold rfc3629 in Hx; repeat destruct (_ <=? _)%N; discriminate|cbn; lia].
  Qed.
  Lemma at_end pos : at_ pos [] -> left E pos = 0.
  Proof. intros (H1 & H2 & _). unfold left, inlen. cbn. pose proof (from_length text pos) as Hl. rewrite H2 in Hl. cbn in Hl. lia. Qed.

  Lemma run_leaf k o pos vs d x d' : run k o pos vs d x d' -> leaf o = true -> leaf_out E o pos vs = Some x /\ d' = d.
  Proof. destruct k as [|k]; [contradiction|]. destruct o; intros H X; try discriminate X; exact H. Qed.
  Lemma reads_chr_cp c x r : chr_text c x -> Reads (Chr c) x r None [] [] keepd.
  Proof.
    intros Hc. split; [eapply chr_valid; eauto|]. intros pos vs d k y d' Ha Hr. destruct (run_leaf _ _ _ _ _ _ _ Hr eq_refl) as [A ->]. split; [reflexivity|].
    destruct (at_chr pos c x r Ha Hc) as (B1 & B2 & _). rewrite leaf_chr in A. unfold ref_chr in A. rewrite B1 in A. cbn [e_input mk_env] in A. rewrite B2 in A.
    cbn in A. rewrite N.eqb_refl in A. injection A as <-. exists vs. split; [reflexivity|apply gives_nil].
  Qed.
  Lemma reads_chr b r : (bN b < 128)%N -> Reads (chr b) [b] r None [] [] keepd.
  Proof. intros H. apply reads_chr_cp. now apply chr_ascii. Qed.
  Lemma fails_chr b s : (bN b < 128)%N -> hd_error s <> Some b -> Fails (chr b) s.
  Proof.
    intros Hb Hs pos vs d k y d' Ha Hr. destruct (run_leaf _ _ _ _ _ _ _ Hr eq_refl) as [A ->]. split; [|reflexivity].
    unfold chr in A. rewrite leaf_chr in A. unfold ref_chr in A.
    assert (Hv : valid_utf8 s) by apply Ha. destruct (valid_first s Hv) as [-> | (c & x & t & -> & Hc & _)].
    - rewrite (at_end _ Ha) in A. cbn in A. congruence.
    - destruct (at_chr pos c x t Ha Hc) as (B1 & B2 & _). rewrite B1 in A. cbn [e_input mk_env] in A. rewrite B2 in A. cbn in A.
      destruct (N.eqb_spec c (bN b)) as [Ec|]; [|congruence]. exfalso. rewrite Ec in Hc. destruct (chr_head _ _ Hc) as (b' & y' & -> & [(H1 & H2 & H3)|(H1 & H2)]); [|lia].
      apply Hs. cbn. f_equal. now apply bN_inj.
  Qed.
  Lemma leaf_cls rs pos vs : leaf_out E (Cls rs false false) pos vs = ref_cls E rs false false pos vs. Proof. reflexivity. Qed.
  Definition in_cls (rs : ranges) (c : N) : bool := existsb (fun r => (fst r <=? c)%N && (c <=? snd r)%N) rs.
  Lemma in_ranges_cls rs c : in_ranges false rs c = Ok (in_cls rs c).
  Proof. induction rs as [|[a b] rs IH]; [reflexivity|]. cbn [in_ranges in_cls existsb fst snd]. unfold in_range. cbn [bind]. destruct (_ && _); [reflexivity|exact IH]. Qed.
  Lemma reads_cls rs c x r : chr_text c x -> in_cls rs c = true -> Reads (Cls rs false false) x r None [] [] keepd.
  Proof.
    intros Hc Hi. split; [eapply chr_valid; eauto|]. intros pos vs d k y d' Ha Hr. destruct (run_leaf _ _ _ _ _ _ _ Hr eq_refl) as [A ->]. split; [reflexivity|].
    destruct (at_chr pos c x r Ha Hc) as (B1 & B2 & _). rewrite leaf_cls in A. unfold ref_cls in A. rewrite B1 in A. cbn [e_input mk_env] in A. rewrite B2 in A.
    cbn [out_of RefSem.obind] in A. rewrite in_ranges_cls, Hi in A. cbn in A. injection A as <-. exists vs. split; [reflexivity|apply gives_nil].
  Qed.
  Lemma fails_cls rs s : (forall c x t, s = x ++ t -> chr_text c x -> in_cls rs c = false) -> Fails (Cls rs false false) s.
  Proof.
    intros Hs pos vs d k y d' Ha Hr. destruct (run_leaf _ _ _ _ _ _ _ Hr eq_refl) as [A ->]. split; [|reflexivity].
    rewrite leaf_cls in A. unfold ref_cls in A.
    assert (Hv : valid_utf8 s) by apply Ha. destruct (valid_first s Hv) as [-> | (c & x & t & -> & Hc & _)].
    - rewrite (at_end _ Ha) in A. cbn in A. congruence.
    - destruct (at_chr pos c x t Ha Hc) as (B1 & B2 & _). rewrite B1 in A. cbn [e_input mk_env] in A. rewrite B2 in A. cbn [out_of RefSem.obind] in A.
      rewrite in_ranges_cls, (Hs c x t eq_refl Hc) in A. cbn in A. congruence.
  Qed.
  Lemma reads_dot c x r : chr_text c x -> Reads Dot x r None [] [] keepd.
  Proof.
    intros Hc. split; [eapply chr_valid; eauto|]. intros pos vs d k y d' Ha Hr. destruct (run_leaf _ _ _ _ _ _ _ Hr eq_refl) as [A ->]. split; [reflexivity|].
    destruct (at_chr pos c x r Ha Hc) as (_ & _ & B2 & B3). change (leaf_out E Dot pos vs) with (ref_dot E pos vs) in A. unfold ref_dot in A. cbn [e_input mk_env] in A. rewrite B2 in A.
    cbn in A. destruct (List.length x) as [|n]; [lia|]. injection A as <-. exists vs. split; [reflexivity|apply gives_nil].
  Qed.
  Lemma fails_dot : Fails Dot [].
  Proof.
    intros pos vs d k y d' Ha Hr. destruct (run_leaf _ _ _ _ _ _ _ Hr eq_refl) as [A ->]. split; [|reflexivity].
    change (leaf_out E Dot pos vs) with (ref_dot E pos vs) in A. unfold ref_dot in A. rewrite (at_end _ Ha) in A. cbn in A. destruct (from text pos); cbn in A; congruence.
  Qed.
  Lemma lit_at pos w vs s : at_ pos s -> exists b : bool, leaf_out E (Lit w false) pos vs = Some (if b then Some (List.length w, vs) else None)
     /\ (b = true <-> exists t, s = w ++ t).
  Proof.
    intros (H1 & H2 & _). change (leaf_out E (Lit w false) pos vs) with (ref_lit (fun _ _ _ _ _ _ _ => None) E m_top w false pos vs). unfold ref_lit.
    destruct (lit_loop_iff text false w pos (left E pos)) as (b & Hb & Hi); [unfold left, inlen; cbn; lia|].
    match goal with |- context [out_of ?x] => replace x with (Ok b : outcome bool) by (symmetry; exact Hb) end.
    exists b. split; [destruct b; [|reflexivity]; cbn; now rewrite Nat.add_0_r|]. rewrite Hi. split.
    - intros X. exists (skipn (List.length w) s). rewrite <- X at 1. unfold sub. fold (from text pos). rewrite H2. symmetry. apply firstn_skipn.
    - intros (t & ->). unfold sub. fold (from text pos). rewrite H2, firstn_app, firstn_all, Nat.sub_diag. cbn. apply app_nil_r.
  Qed.
  Lemma reads_lit w r : valid_utf8 w -> Reads (lit w) w r None [] [] keepd.
  Proof.
    intros Hw. split; [exact Hw|]. intros pos vs d k y d' Ha Hr. destruct (run_leaf _ _ _ _ _ _ _ Hr eq_refl) as [A ->]. split; [reflexivity|].
    destruct (lit_at pos w vs _ Ha) as (b & B & Hb). unfold lit in A. rewrite B in A. destruct b; [|exfalso; destruct Hb as [_ Hb]; discriminate Hb; eauto].
    injection A as <-. exists vs. split; [reflexivity|apply gives_nil].
  Qed.
  Lemma fails_lit w s : (forall t, s <> w ++ t) -> Fails (lit w) s.
  Proof.
    intros Hs pos vs d k y d' Ha Hr. destruct (run_leaf _ _ _ _ _ _ _ Hr eq_refl) as [A ->]. split; [|reflexivity].
    destruct (lit_at pos w vs _ Ha) as (b & B & Hb). unfold lit in A. rewrite B in A. destruct b; [|congruence]. exfalso. destruct Hb as [Hb _]. destruct (Hb eq_refl) as (t & ->). now apply (Hs t).
  Qed.

  (** ** Sequences *)
  Definition ReadsS (l : list ope) (w r : bytes) (L : vals) (T : list bytes) (f : data -> data) : Prop :=
    valid_utf8 w /\ forall pos i vs d k x d', at_ (pos + i) (w ++ r) -> run_seq (run k) l pos i vs d x d' ->
      d' = f d /\ exists vs', x = Some (i + List.length w, vs') /\ gives vs vs' L T None.
  Definition FailsS (l : list ope) (s : bytes) : Prop :=
    forall pos i vs d k x d', at_ (pos + i) s -> run_seq (run k) l pos i vs d x d' -> x = None /\ d' = d.
  Lemma rs_nil r : ReadsS [] [] r [] [] keepd.
  Proof.
    split; [apply valid_nil|]. intros pos i vs d k x d' Ha [-> ->]. split; [reflexivity|]. exists vs. rewrite Nat.add_0_r. split; [reflexivity|apply gives_nil].
  Qed.
  Lemma rs_cons o l w1 w2 r C L1 T1 f1 L2 T2 f2 : Reads o w1 (w2 ++ r) C L1 T1 f1 -> ReadsS l w2 r L2 T2 f2 ->
    ReadsS (o :: l) (w1 ++ w2) r (L1 ++ L2) (T1 ++ T2) (f1 >> f2).
  Proof.
    intros [V1 H1] [V2 H2]. split; [now apply valid_app|]. intros pos i vs d k x d' Ha (y & d1 & A & B). rewrite <- app_assoc in Ha.
    destruct (H1 _ _ _ _ _ _ Ha A) as (-> & vs1 & -> & G1). destruct (at_app _ _ _ Ha V1) as [Ha2 _].
    rewrite <- Nat.add_assoc in Ha2. destruct (H2 _ _ _ _ _ _ _ Ha2 B) as (-> & vs2 & -> & G2). split; [reflexivity|].
    exists vs2. rewrite app_length, Nat.add_assoc. split; [reflexivity|]. eapply gives_trans; eauto.
  Qed.
  Lemma reads_seq l w r L T f : ReadsS l w r L T f -> Reads (seq l) w r None L T f.
  Proof.
    intros [V1 H1]. split; [exact V1|]. intros pos vs d [|k] x d' Ha Hr; [contradiction|]. cbn [seq Run.run] in Hr.
    assert (Ha' : at_ (pos + 0) (w ++ r)) by (now rewrite Nat.add_0_r). exact (H1 _ _ _ _ _ _ _ Ha' Hr).
  Qed.
  Lemma fs_head o l s : Fails o s -> FailsS (o :: l) s.
  Proof. intros H pos i vs d k x d' Ha (y & d1 & A & B). destruct (H _ _ _ _ _ _ Ha A) as [-> ->]. exact B. Qed.
  Lemma fs_cons o l w r C L T f : Reads o w r C L T f -> (forall d, f d = d) -> FailsS l r -> FailsS (o :: l) (w ++ r).
  Proof.
    intros [V1 H1] Hf H2 pos i vs d k x d' Ha (y & d1 & A & B). destruct (H1 _ _ _ _ _ _ Ha A) as (-> & vs1 & -> & G1).
    destruct (at_app _ _ _ Ha V1) as [Ha2 _]. rewrite <- Nat.add_assoc in Ha2. destruct (H2 _ _ _ _ _ _ _ Ha2 B) as [-> ->]. auto.
  Qed.
  Lemma fails_seq l s : FailsS l s -> Fails (seq l) s.
  Proof.
    intros H pos vs d [|k] x d' Ha Hr; [contradiction|]. cbn [seq Run.run] in Hr.
    assert (Ha' : at_ (pos + 0) s) by (now rewrite Nat.add_0_r). exact (H _ _ _ _ _ _ _ Ha' Hr).
  Qed.

  (** ** Choices *)
  Definition ReadsC (l : list ope) (id : nat) (w r : bytes) (j : nat) (L : vals) (T : list bytes) (f : data -> data) : Prop :=
    valid_utf8 w /\ forall total pos vs d k x d', at_ pos (w ++ r) -> run_cho (run k) total l id pos vs d x d' ->
      d' = f d /\ exists vs', x = Some (List.length w, vs') /\ gives vs vs' L T (Some j).
  Definition FailsC (l : list ope) (s : bytes) : Prop :=
    forall total id pos vs d k x d', at_ pos s -> run_cho (run k) total l id pos vs d x d' -> x = None /\ d' = d.
  Lemma rc_here o l id w r C L T f : Reads o w r C L T f -> ReadsC (o :: l) id w r id L T f.
  Proof.
    intros [V1 H1]. split; [exact V1|]. intros total pos vs d k x d' Ha (y & d1 & A & B). destruct (H1 _ _ _ _ _ _ Ha A) as (-> & vs1 & -> & [G1 G2 G3]).
    destruct B as [-> ->]. split; [reflexivity|]. exists (set_choice total id vs1). split; [reflexivity|]. constructor; [exact G1|exact G2|]. now intros i [= <-].
  Qed.
  Lemma rc_next o l id w r j L T f : Fails o (w ++ r) -> ReadsC l (S id) w r j L T f -> ReadsC (o :: l) id w r j L T f.
  Proof.
    intros H0 [V1 H1]. split; [exact V1|]. intros total pos vs d k x d' Ha (y & d1 & A & B). destruct (H0 _ _ _ _ _ _ Ha A) as (-> & ->).
    destruct B as (d2 & [-> | ->] & B); exact (H1 _ _ _ _ _ _ _ Ha B).
  Qed.
  Lemma reads_cho l w r j L T f : ReadsC l 0 w r j L T f -> Reads (cho l) w r (Some j) L T f.
  Proof. intros [V1 H1]. split; [exact V1|]. intros pos vs d [|k] x d' Ha Hr; [contradiction|]. cbn [cho Run.run] in Hr. exact (H1 _ _ _ _ _ _ _ Ha Hr). Qed.
  Lemma fc_nil s : FailsC [] s. Proof. intros total id pos vs d k x d' Ha [-> ->]. auto. Qed.
  Lemma fc_cons o l s : Fails o s -> FailsC l s -> FailsC (o :: l) s.
  Proof.
    intros H0 H1 total id pos vs d k x d' Ha (y & d1 & A & B). destruct (H0 _ _ _ _ _ _ Ha A) as (-> & ->).
    destruct B as (d2 & [-> | ->] & B); exact (H1 _ _ _ _ _ _ _ _ Ha B).
  Qed.
  Lemma fails_cho l s : FailsC l s -> Fails (cho l) s.
  Proof. intros H pos vs d [|k] x d' Ha Hr; [contradiction|]. cbn [cho Run.run] in Hr. exact (H _ _ _ _ _ _ _ _ Ha Hr). Qed.

  (** ** Repetitions *)
  Definition leaf_run (o : ope) (pos : nat) (vs : sv) (d : data) (x : rv mval) (d' : data) : Prop := leaf_out E o pos vs = Some x /\ d' = d.
  Lemma leaf_min_run e : forall n pos i vs x d, ref_min (leaf_out E e) n pos i vs = Some x -> run_min leaf_run e n pos i vs d x d.
  Proof.
    induction n as [|n IH]; intros pos i vs x d H; cbn [ref_min run_min] in *; [injection H as <-; auto|].
    destruct (leaf_out E e (pos + i) vs) as [y|] eqn:Hy; [|discriminate]. cbn [RefSem.obind] in H. exists y, d. split; [split; [exact Hy|reflexivity]|].
    destruct y as [[m v]|]; [auto|]. injection H as <-. auto.
  Qed.
  Lemma leaf_more_run e : forall fuel room pos i vs x d, ref_more fuel (leaf_out E e) room pos i vs = Some x -> run_more leaf_run fuel e room pos i vs d x d.
  Proof.
    induction fuel as [|fuel IH]; intros room pos i vs x d H.
    - destruct room as [[|q]|]; cbn [ref_more run_more] in *; try discriminate. injection H as <-. auto.
    - destruct room as [[|q]|]; cbn [ref_more run_more] in *; [injection H as <-; auto|..];
        (destruct (leaf_out E e (pos + i) vs) as [y|] eqn:Hy; [|discriminate]; cbn [RefSem.obind] in H; exists y, d; split; [split; [exact Hy|reflexivity]|];
         destruct y as [[m v]|]; [auto|]; injection H as <-; auto).
  Qed.
  Lemma rep_run k e mn mx sp pos vs d x d' : run (S k) (Rep e mn mx sp) pos vs d x d' -> exists k1, run_rep (run k1) k e mn mx pos vs d x d'.
  Proof.
    cbn [Run.run]. destruct (leaf e) eqn:Hl; [|eauto]. intros [H ->]. exists 1. unfold ref_rep in H.
    assert (Hrun : forall o pos vs d x d', o = e -> leaf_run o pos vs d x d' -> run 1 o pos vs d x d') by (intros o ? ? ? ? ? -> Hx; destruct e; try discriminate Hl; exact Hx).
    destruct (ref_min (leaf_out E e) mn pos 0 vs) as [y|] eqn:Hy; [|discriminate]. cbn [RefSem.obind] in H. exists y, d.
    assert (Hmin : forall n i vs y d, run_min leaf_run e n pos i vs d y d -> run_min (run 1) e n pos i vs d y d).
    { clear -Hrun. assert (X : forall n i vs y d d', run_min leaf_run e n pos i vs d y d' -> run_min (run 1) e n pos i vs d y d'); [|auto].
      induction n as [|n IH]; intros i vs y d d' H; [exact H|]. destruct H as (z & d1 & A & B). exists z, d1. split; [now apply Hrun|]. destruct z as [[m v]|]; auto. }
    assert (Hmore : forall fuel room i vs y d d', run_more leaf_run fuel e room pos i vs d y d' -> run_more (run 1) fuel e room pos i vs d y d').
    { clear -Hrun. induction fuel as [|n IH]; intros room i vs y d d' H; destruct room as [[|q]|]; try exact H; destruct H as (z & d1 & A & B); exists z, d1; (split; [now apply Hrun|]); destruct z as [[m v]|]; auto. }
    split; [apply Hmin; now apply leaf_min_run|]. destruct y as [[i v]|]; [|injection H as <-; auto].
    destruct mx as [q|]; [destruct (mn <? q)|]; [apply Hmore; now apply leaf_more_run|injection H as <-; auto|apply Hmore; now apply leaf_more_run].
  Qed.
  Definition ReadsN (e : ope) (n : nat) (w r : bytes) (L : vals) (T : list bytes) (f : data -> data) : Prop :=
    valid_utf8 w /\ forall pos i vs d k x d', at_ (pos + i) (w ++ r) -> run_min (run k) e n pos i vs d x d' ->
      d' = f d /\ exists vs', x = Some (i + List.length w, vs') /\ gives vs vs' L T None.
  Definition ReadsM (e : ope) (room : option nat) (w r : bytes) (L : vals) (T : list bytes) (f : data -> data) : Prop :=
    valid_utf8 w /\ forall pos i vs d k fuel x d', at_ (pos + i) (w ++ r) -> run_more (run k) fuel e room pos i vs d x d' ->
      d' = f d /\ exists vs', x = Some (i + List.length w, vs') /\ gives vs vs' L T None.
  Lemma rn_nil e r : ReadsN e 0 [] r [] [] keepd.
  Proof.
    split; [apply valid_nil|]. intros pos i vs d k x d' Ha [-> ->]. split; [reflexivity|]. exists vs. rewrite Nat.add_0_r. split; [reflexivity|apply gives_nil].
  Qed.
  Lemma rn_cons e n w1 w2 r C L1 T1 f1 L2 T2 f2 : Reads e w1 (w2 ++ r) C L1 T1 f1 -> ReadsN e n w2 r L2 T2 f2 ->
    ReadsN e (S n) (w1 ++ w2) r (L1 ++ L2) (T1 ++ T2) (f1 >> f2).
  Proof.
    intros [V1 H1] [V2 H2]. split; [now apply valid_app|]. intros pos i vs d k x d' Ha (y & d1 & A & B). rewrite <- app_assoc in Ha.
    destruct (H1 _ _ _ _ _ _ Ha A) as (-> & vs1 & -> & G1). destruct (at_app _ _ _ Ha V1) as [Ha2 _].
    rewrite <- Nat.add_assoc in Ha2. destruct (H2 _ _ _ _ _ _ _ Ha2 B) as (-> & vs2 & -> & G2). split; [reflexivity|].
    exists vs2. rewrite app_length, Nat.add_assoc. split; [reflexivity|]. eapply gives_trans; eauto.
  Qed.
  Lemma rm_full e r : ReadsM e (Some 0) [] r [] [] keepd.
  Proof.
    split; [apply valid_nil|]. intros pos i vs d k fuel x d' Ha H. assert (X : x = Some (i, vs) /\ d' = d) by (destruct fuel; exact H). destruct X as [-> ->].
    split; [reflexivity|]. exists vs. rewrite Nat.add_0_r. split; [reflexivity|apply gives_nil].
  Qed.
  Lemma rm_nil e room r : Fails e r -> ReadsM e room [] r [] [] keepd.
  Proof.
    intros Hf. destruct room as [[|q]|]; [apply rm_full|..]; (split; [apply valid_nil|]; intros pos i vs d k fuel x d' Ha H; destruct fuel as [|fuel]; [contradiction|];
      destruct H as (y & d1 & A & B); destruct (Hf _ _ _ _ _ _ Ha A) as [-> ->]; destruct B as [-> ->]; (split; [reflexivity|]); exists vs; rewrite Nat.add_0_r; (split; [reflexivity|apply gives_nil])).
  Qed.
  Lemma rm_cons e room w1 w2 r C L1 T1 f1 L2 T2 f2 : room <> Some 0 -> Reads e w1 (w2 ++ r) C L1 T1 f1 -> ReadsM e (option_map pred room) w2 r L2 T2 f2 ->
    ReadsM e room (w1 ++ w2) r (L1 ++ L2) (T1 ++ T2) (f1 >> f2).
  Proof.
    intros Hroom [V1 H1] [V2 H2]. split; [now apply valid_app|]. intros pos i vs d k fuel x d' Ha H. rewrite <- app_assoc in Ha.
    assert (X : exists fuel', fuel = S fuel' /\ exists y d1, run k e (pos + i) vs d y d1 /\ match y with None => x = Some (i, vs) /\ d' = d1
       | Some (k1, vs1) => run_more (run k) fuel' e (option_map pred room) pos (i + k1) vs1 d1 x d' end).
    { destruct room as [[|q]|]; [congruence|..]; (destruct fuel as [|fuel]; [contradiction|]; exists fuel; split; [reflexivity|exact H]). }
    destruct X as (fuel' & -> & y & d1 & A & B).
    destruct (H1 _ _ _ _ _ _ Ha A) as (-> & vs1 & -> & G1). destruct (at_app _ _ _ Ha V1) as [Ha2 _].
    rewrite <- Nat.add_assoc in Ha2. destruct (H2 _ _ _ _ _ _ _ _ Ha2 B) as (-> & vs2 & -> & G2). split; [reflexivity|].
    exists vs2. rewrite app_length, Nat.add_assoc. split; [reflexivity|]. eapply gives_trans; eauto.
  Qed.
  Definition room_after (mn : nat) (mx : option nat) : option nat := match mx with Some q => Some (q - mn) | None => None end.
  Lemma reads_rep e mn mx w1 w2 r L1 T1 f1 L2 T2 f2 : ReadsN e mn w1 (w2 ++ r) L1 T1 f1 -> ReadsM e (room_after mn mx) w2 r L2 T2 f2 ->
    Reads (rep e mn mx) (w1 ++ w2) r None (L1 ++ L2) (T1 ++ T2) (f1 >> f2).
  Proof.
    intros [V1 H1] [V2 H2]. split; [now apply valid_app|]. intros pos vs d [|k] x d' Ha Hr; [contradiction|]. apply rep_run in Hr as (k1 & y & d1 & A & B).
    rewrite <- app_assoc in Ha. assert (Ha0 : at_ (pos + 0) (w1 ++ w2 ++ r)) by (now rewrite Nat.add_0_r).
    destruct (H1 _ _ _ _ _ _ _ Ha0 A) as (-> & vs1 & -> & G1). destruct (at_app _ _ _ Ha0 V1) as [Ha2 _]. rewrite <- Nat.add_assoc in Ha2.
    assert (B' : exists fuel, run_more (run k1) fuel e (room_after mn mx) pos (0 + List.length w1) vs1 (f1 d) x d').
    { destruct mx as [q|]; cbn [room_after]; [|eauto]. destruct (Nat.ltb_spec mn q); [eauto|]. replace (q - mn) with 0 by lia. exists 0. exact B. }
    destruct B' as [fuel B']. destruct (H2 _ _ _ _ _ _ _ _ Ha2 B') as (-> & vs2 & -> & G2). split; [reflexivity|].
    exists vs2. rewrite app_length. split; [reflexivity|]. eapply gives_trans; eauto.
  Qed.
  Lemma reads_zom e w r L T f : ReadsM e None w r L T f -> Reads (zom e) w r None L T f.
  Proof. intros H. exact (reads_rep e 0 None [] w r [] [] keepd L T f (rn_nil e (w ++ r)) H). Qed.
  Lemma reads_oom e w1 w2 r C L1 T1 f1 L2 T2 f2 : Reads e w1 (w2 ++ r) C L1 T1 f1 -> ReadsM e None w2 r L2 T2 f2 ->
    Reads (oom e) (w1 ++ w2) r None (L1 ++ L2) (T1 ++ T2) (f1 >> f2).
  Proof.
    intros H1 H2. eapply reads_eq; [refine (reads_rep e 1 None _ _ r _ _ _ _ _ _ (rn_cons e 0 w1 [] (w2 ++ r) _ _ _ _ _ _ _ H1 (rn_nil e _)) H2)|..];
      rewrite ?app_nil_r; reflexivity.
  Qed.
  Lemma reads_opt_none e r : Fails e r -> Reads (opt e) [] r None [] [] keepd.
  Proof. intros H. exact (reads_rep e 0 (Some 1) [] [] r [] [] keepd [] [] keepd (rn_nil e r) (rm_nil e (Some 1) r H)). Qed.
  Lemma reads_opt e w r C L T f : Reads e w r C L T f -> Reads (opt e) w r None L T f.
  Proof.
    intros H. assert (M : ReadsM e (Some 1) (w ++ []) r (L ++ []) (T ++ []) (f >> keepd)).
    { apply (rm_cons e (Some 1) w [] r C L T f [] [] keepd); [discriminate|exact H|apply rm_full]. }
    rewrite !app_nil_r in M. exact (reads_rep e 0 (Some 1) [] w r [] [] keepd L T f (rn_nil e (w ++ r)) M).
  Qed.
  Lemma fails_rep1 e n mx s : Fails e s -> Fails (rep e (S n) mx) s.
  Proof.
    intros H pos vs d [|k] x d' Ha Hr; [contradiction|]. apply rep_run in Hr as (k1 & y & d1 & (z & d2 & A & B) & C).
    rewrite Nat.add_0_r in A. destruct (H _ _ _ _ _ _ Ha A) as [-> ->]. destruct B as [-> ->]. exact C.
  Qed.

  (** ** Predicates, tokens, ignored parts *)
  Lemma reads_not e r : Fails e r -> Reads (npd e) [] r None [] [] keepd.
  Proof.
    intros H. split; [apply valid_nil|]. intros pos vs d [|k] x d' Ha Hr; [contradiction|]. destruct Hr as (y & A & ->). destruct (H _ _ _ _ _ _ Ha A) as [-> ->].
    split; [reflexivity|]. exists vs. split; [reflexivity|apply gives_nil].
  Qed.
  Lemma fails_not e w r C L T f : Reads e w r C L T f -> (forall d, f d = d) -> Fails (npd e) (w ++ r).
  Proof.
    intros [V1 H1] Hf pos vs d [|k] x d' Ha Hr; [contradiction|]. destruct Hr as (y & A & ->). destruct (H1 _ _ _ _ _ _ Ha A) as (-> & vs1 & -> & _). auto.
  Qed.
  Lemma reads_tok e w r C L T f : Reads e w r C L T f -> Reads (tok e) w r None L (T ++ [w]) f.
  Proof.
    intros [V1 H1]. split; [exact V1|]. intros pos vs d [|k] x d' Ha Hr; [contradiction|]. destruct Hr as (y & A & ->).
    destruct (H1 _ _ _ _ _ _ Ha A) as (-> & vs1 & -> & [G1 G2 G3]). split; [reflexivity|]. exists (push_tok (pos, List.length w) vs1). split; [reflexivity|].
    constructor; [exact G1| |discriminate]. unfold push_tok, set_toks. cbn [v_toks]. rewrite map_app, G2, <- app_assoc. cbn [map]. f_equal. f_equal. unfold tt, span_text. cbn [fst snd].
    f_equal. now apply (at_app _ _ _ Ha).
  Qed.
  Lemma fails_tok e s : Fails e s -> Fails (tok e) s.
  Proof. intros H pos vs d [|k] x d' Ha Hr; [contradiction|]. destruct Hr as (y & A & ->). destruct (H _ _ _ _ _ _ Ha A) as [-> ->]. auto. Qed.
  Lemma reads_ign e w r C L T f : Reads e w r C L T f -> Reads (ign e) w r None [] [] f.
  Proof.
    intros [V1 H1]. split; [exact V1|]. intros pos vs d [|k] x d' Ha Hr; [contradiction|]. destruct Hr as (y & A & ->).
    destruct (H1 _ _ _ _ _ _ Ha A) as (-> & vs1 & -> & _). split; [reflexivity|]. exists vs. split; [reflexivity|apply gives_nil].
  Qed.
  Lemma fails_ign e s : Fails e s -> Fails (ign e) s.
  Proof. intros H pos vs d [|k] x d' Ha Hr; [contradiction|]. destruct Hr as (y & A & ->). destruct (H _ _ _ _ _ _ Ha A) as [-> ->]. auto. Qed.

  (** ** Rules *)
  Lemma sid_sym s : nth_error syms (sid s) = Some s. Proof. destruct s; reflexivity. Qed.
  Definition quiet (s : sym) : bool := match s with SDefinition | SCapScope => false | _ => true end.
  Lemma quiet_enter s d pos : quiet s = true -> enter_dt E (sid s) pos d = d.
  Proof. intros H. unfold enter_dt. change (e_enter E) with meta_enter. unfold meta_enter. rewrite sid_sym. destruct s; try reflexivity; discriminate. Qed.
  Lemma quiet_leave s d pos l v : quiet s = true -> leave_dt E (sid s) pos l v d = (v, d).
  Proof. intros H. unfold leave_dt. change (e_leave E) with meta_leave. unfold meta_leave. rewrite sid_sym. destruct s; try reflexivity; discriminate. Qed.
  Definition acts (s : sym) (vs : sv) (d : data) : option mval * data :=
    if has_action s then run_action s text vs d None else (front (v_vals vs), d).
  Lemma act_is s vs d : act_dt E (sid s) vs d = acts s vs d.
  Proof. unfold act_dt, acts. change (e_action E) with meta_action. unfold meta_action. rewrite sid_sym. destruct (has_action s); reflexivity. Qed.
  Definition body_choice (s : sym) : bool := is_choice_like (match sym_body s with Tok e => e | _ => sym_body s end).
  (** What an action sees. *)
  Record sees (s : sym) (vs : sv) (w : bytes) (L : vals) (T : list bytes) (C : option nat) : Prop := {
    se_vals : v_vals vs = L;
    se_toks : map tt (v_toks vs) = T;
    se_text : tt (v_sv vs) = w;
    se_ch : body_choice s = true -> forall i, C = Some i -> v_ch vs = i
  }.
  Lemma hld_run s k pos vs d x d' : run k (nt s) pos vs d x d' ->
    exists k' y d1, run k' (sym_body s) pos sv_new (enter_dt E (sid s) pos d) y d1 /\
      match y with
      | None => x = None /\ d' = snd (leave_dt E (sid s) pos None None d1)
      | Some (n, v) =>
        let (val, d2) := acts s (seen (sid s) (sym_body s) pos n v) d1 in
        let (val', d3) := leave_dt E (sid s) pos (Some n) val d2 in
        x = Some (n, if sym_ignored s then vs else push_val val' (str2tag (sym_name s)) vs) /\ d' = d3
      end.
  Proof.
    destruct k as [|k]; [contradiction|]. unfold nt. cbn [Run.run]. destruct k as [|k]; [contradiction|]. cbn [Run.run].
    intros (ig & tag & body & y & d1 & H1 & H2 & H3). unfold meta_rules in H1. rewrite sid_sym in H1. injection H1 as <- <- <-.
    exists k, y, d1. split; [exact H2|]. destruct y as [[n v]|]; [|exact H3]. rewrite act_is in H3. exact H3.
  Qed.
  Lemma seen_sees s w r C L T pos v : at_ pos (w ++ r) -> valid_utf8 w -> gives sv_new v L T C -> sees s (seen (sid s) (sym_body s) pos (List.length w) v) w L T C.
  Proof.
    intros Ha Hw [G1 G2 G3]. unfold seen. fold (body_choice s). constructor.
    - destruct (body_choice s); exact G1.
    - destruct (body_choice s); exact G2.
    - transitivity (tt (pos, List.length w)); [destruct (body_choice s); reflexivity|]. exact (proj2 (at_app _ _ _ Ha Hw)).
    - intros X. rewrite X. exact G3.
  Qed.
  Theorem reads_nt s w r C L T f v f' : quiet s = true -> Reads (sym_body s) w r C L T f ->
    (forall vs d, sees s vs w L T C -> acts s vs d = (v, f' d)) ->
    Reads (nt s) w r None (if sym_ignored s then [] else [v]) [] (f >> f').
  Proof.
    intros Hq [V1 H1] H2. split; [exact V1|]. intros pos vs d k x d' Ha Hr. apply hld_run in Hr as (k' & y & d1 & A & B).
    rewrite (quiet_enter s d pos Hq) in A. destruct (H1 _ _ _ _ _ _ Ha A) as (-> & vs1 & -> & G).
    rewrite (H2 _ (f d) (seen_sees s w r C L T pos vs1 Ha V1 G)), (quiet_leave _ _ _ _ _ Hq) in B. destruct B as [-> ->]. split; [reflexivity|].
    eexists. split; [reflexivity|]. destruct (sym_ignored s); [apply gives_nil|]. constructor; [reflexivity|cbn; now rewrite app_nil_r|discriminate].
  Qed.
  Lemma fails_nt s t : quiet s = true -> Fails (sym_body s) t -> Fails (nt s) t.
  Proof.
    intros Hq H pos vs d k x d' Ha Hr. apply hld_run in Hr as (k' & y & d1 & A & B). rewrite (quiet_enter s d pos Hq) in A.
    destruct (H _ _ _ _ _ _ Ha A) as [-> ->]. rewrite (quiet_leave _ _ _ _ _ Hq) in B. exact B.
  Qed.
End Judge.
