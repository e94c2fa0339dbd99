(** * Positions stay inside the input, no byte outside it is read, and the error
    position only moves forward (properties C13, C29). *)
From Verif Require Import Base BaseLemmas Utf8 Utf8Proofs Escape TrieM LineInfo LineProofs Ope Ctx ErrLog Engine EngineLemmas.

(** No read outside a text buffer; a normal result satisfies [P]. *)
Definition safe {A} (P : A -> Prop) (o : outcome A) : Prop :=
  match o with Ok a => P a | UB OutOfBounds => False | _ => True end.
Lemma safe_bind {A B} (P : A -> Prop) (Q : B -> Prop) (m : outcome A) (f : A -> outcome B) :
  safe P m -> (forall a, P a -> safe Q (f a)) -> safe Q (bind m f).
Proof. destruct m as [a| |[]|]; cbn; auto. Qed.
Lemma safe_imp {A} (P Q : A -> Prop) (m : outcome A) :
  safe P m -> (forall a, P a -> Q a) -> safe Q m.
Proof. destruct m as [a| |[]|]; cbn; auto. Qed.
Lemma safe_rd s i : i < List.length s -> safe (fun _ => True) (rd s i).
Proof.
  intros H. unfold rd. destruct (nth_error s i) eqn:Hn; cbn; auto.
  apply nth_error_None in Hn. lia.
Qed.
Lemma from_length s p : List.length (from s p) = List.length s - p.
Proof. apply skipn_length. Qed.
Lemma safe_decode_len s l cp0 : l <= List.length s ->
  safe (fun x => fst x <= l) (decode_codepoint_len s l cp0).
Proof.
  intros H. destruct (decode_safe s l H) as (r & Hr & _ & _ & Hb).
  unfold decode_codepoint_len. rewrite Hr. cbn. destruct r as [[n cp]|]; cbn; [|lia].
  destruct (Hb n cp eq_refl). lia.
Qed.
Lemma safe_cplen s l : l <= List.length s -> safe (fun n => n <= l) (codepoint_length s l).
Proof.
  intros H. destruct (decode_safe s l H) as (r & _ & _ & -> & Hb). cbn.
  destruct r as [[n cp]|]; cbn; [|lia]. destruct (Hb n cp eq_refl). lia.
Qed.
Lemma safe_lit_loop inp pat ic : forall pos n, pos + n <= List.length inp ->
  safe (fun b => b = true -> pos + List.length pat <= pos + n) (lit_loop inp pos n pat ic).
Proof.
  induction pat as [|p pat IH]; intros pos n H.
  - destruct n; cbn; intros; lia.
  - destruct n as [|n]; [cbn; discriminate|]. cbn [lit_loop].
    eapply safe_bind; [apply safe_rd; lia|]. intros b _. cbv beta.
    match goal with |- safe _ (if ?x then _ else _) => destruct x end; [|cbn; discriminate].
    eapply safe_imp; [apply IH; lia|]. cbn. intros x Hx Ht. specialize (Hx Ht). lia.
Qed.
Lemma safe_scan s inp : forall limit pos, pos + limit <= List.length inp ->
  safe (fun i => i <= limit) (scan_while s inp pos limit).
Proof.
  induction limit as [|l IH]; intros pos H; cbn [scan_while]; [cbn; lia|].
  eapply safe_bind; [apply safe_rd; lia|]. intros b _. cbv beta.
  destruct (btest s b); [|cbn; lia].
  eapply safe_bind; [apply IH; lia|]. cbn. intros. lia.
Qed.
Lemma trie_loop_len fuel d text limit : forall len mlen id,
  mlen <= limit -> fst (trie_loop fuel d text limit len mlen id) <= limit.
Proof.
  induction fuel as [|fuel IH]; intros len mlen id H; cbn [trie_loop]; [exact H|].
  destruct (len <=? limit) eqn:Hl; [|exact H]. apply Nat.leb_le in Hl.
  destruct (dfind _ _) as [it|]; [|exact H]. cbv zeta.
  assert ((if i_match it then len else mlen) <= limit) by (destruct (i_match it); auto).
  destruct (i_done it); [assumption|]. apply IH. assumption.
Qed.
Lemma trie_match_len t text : fst (trie_match t text) <= List.length text.
Proof.
  unfold trie_match. cbv zeta. etransitivity; [apply trie_loop_len; lia|]. lia.
Qed.
Lemma safe_line_info s pos : pos <= List.length s -> safe (fun _ => True) (line_info s pos).
Proof.
  intros H. destruct (current_line_exists s pos H) as (cur & Hc & _).
  destruct (line_info_at s pos cur H Hc) as (k & _ & ->). exact I.
Qed.
Lemma safe_clip s : forall count i j, i <= List.length s -> j <= i ->
  safe (fun x => x <= i) (clip count s i j).
Proof.
  induction count as [|n IH]; intros i j Hi Hj; cbn [clip]; [cbn; lia|].
  destruct (j <? i) eqn:Hji; [|cbn; lia]. apply Nat.ltb_lt in Hji.
  eapply safe_bind; [apply safe_cplen; rewrite from_length; lia|].
  intros a Ha. cbv beta in *. apply IH; lia.
Qed.
Lemma token_run_len s : token_run s <= List.length s.
Proof. induction s as [|c s IH]; cbn; [lia|]. destruct (_ || _); lia. Qed.
Lemma safe_token s pos : pos <= List.length s -> safe (fun _ => True) (heuristic_error_token s pos).
Proof.
  intros H. unfold heuristic_error_token. pose proof (from_length s pos) as Hl.
  destruct (from s pos) as [|c rest] eqn:Hf; [exact I|].
  pose proof (token_run_len rest). cbn [List.length] in Hl. cbv zeta.
  eapply safe_bind; [apply safe_clip|].
  - cbn [List.length]. destruct (_ || _); lia.
  - lia.
  - intros; exact I.
Qed.
Lemma safe_output_log g s e :
  (forall p, ei_pos e = Some p -> p <= List.length s) ->
  (forall p, ei_mpos e = Some p -> p <= List.length s) ->
  safe (fun x => ei_pos (fst x) = ei_pos e /\ ei_mpos (fst x) = ei_mpos e) (output_log g s e).
Proof.
  intros Hp Hm. unfold output_log. destruct (ei_mpos e) as [mp|] eqn:Em.
  - specialize (Hm mp eq_refl). destruct (olt _ _); [|cbn; auto]. cbv zeta.
    eapply safe_bind; [apply safe_line_info; assumption|]. intros [ln col] _.
    eapply safe_bind; [apply safe_token; assumption|]. intros tok _.
    apply (safe_bind (fun _ => True)).
    + destruct tok; [exact I|]. eapply safe_bind; [apply safe_cplen; lia|]. intros; exact I.
    + intros msg _. cbn. auto.
  - destruct (ei_pos e) as [p|] eqn:Ep; [|cbn; auto]. specialize (Hp p eq_refl).
    destruct (olt _ _); [|cbn; auto].
    eapply safe_bind; [apply safe_line_info; assumption|]. intros [ln col] _.
    apply (safe_bind (fun _ => True)).
    + destruct (ei_exp e); [exact I|].
      eapply safe_bind; [apply safe_token; assumption|]. intros tok _.
      match goal with |- safe _ match ?x with _ => _ end => destruct x as [[[[? ?] ?] ?] ?] end. exact I.
    + intros [[[[txt tok] label] lits] rules] _. cbn. auto.
Qed.

(** A report that [output_log] makes for positions of the text (see ReportFacts.v for
    what such a report contains). *)
Definition report_from (g : grammar) (s : bytes) (rp : report) : Prop :=
  exists e e', (forall p, ei_pos e = Some p -> p <= List.length s)
    /\ (forall p, ei_mpos e = Some p -> p <= List.length s)
    /\ output_log g s e = Ok (e', Some rp).
Lemma safe_output_log_from g s e :
  (forall p, ei_pos e = Some p -> p <= List.length s) ->
  (forall p, ei_mpos e = Some p -> p <= List.length s) ->
  safe (fun x => ei_pos (fst x) = ei_pos e /\ ei_mpos (fst x) = ei_mpos e /\ forall rp, snd x = Some rp -> report_from g s rp) (output_log g s e).
Proof.
  intros Hp Hm. pose proof (safe_output_log g s e Hp Hm) as H. destruct (output_log g s e) as [[e' [rp|]]| | |] eqn:Ho; cbn in *; auto.
  - destruct H. split; [assumption|]. split; [assumption|]. intros q Hq. inv Hq. exists e, e'. auto.
  - destruct H. split; [assumption|]. split; [assumption|]. discriminate.
Qed.

Section Bounds.
  Context {V U : Type}.
  Notation env := (env V U).
  Notation ctx := (ctx V U).
  Notation sv := (sv V).
  Implicit Types (E : env) (c : ctx) (vs : sv).

  (** Assumptions: a custom parser (usr) stays in the text it is given; packrat
      slots are below the number of cached rules (initialize_packrat_filter
      numbers them 0, 1, ...). *)
  Record wfE E : Prop := {
    we_user : forall id inp pos vs u n vs' u', pos <= List.length inp ->
      e_user E id inp pos vs u = (Some n, vs', u') -> pos + n <= List.length inp;
    we_slot : e_packrat E = true -> forall r s, e_slot E r = Some s -> s < e_cached E
  }.
  Lemma wfE_word E inp : wfE E -> wfE (word_env E inp).
  Proof. intros []. constructor; cbn; [assumption|discriminate]. Qed.

  Record inb E c : Prop := {
    ib_lrm : Forall (fun p : lrkey * (option nat * option V) =>
       match fst (snd p) with Some n => snd (fst p) + n <= inlen E | None => True end) (c_lrm c);
    ib_pkr : e_packrat E = true -> Forall (fun p : nat * option nat =>
       match snd p with Some n => fst p / e_cached E + n <= inlen E | None => True end) (c_pkr c);
    ib_pos : forall p, ei_pos (c_err c) = Some p -> p <= inlen E;
    ib_mpos : forall p, ei_mpos (c_err c) = Some p -> p <= inlen E;
    ib_out : Forall (report_from (e_g E) (e_input E)) (c_out c)
  }.
  (** The error position never moves back, except through error recovery. *)
  Definition emono c c' : Prop :=
    (c_rcv c = true -> c_rcv c' = true) /\
    (c_rcv c' = true \/
     forall p, ei_pos (c_err c) = Some p -> exists p', ei_pos (c_err c') = Some p' /\ p <= p').
  Lemma emono_refl c : emono c c.
  Proof. split; auto. right. eauto. Qed.
  Lemma emono_trans x y z : emono x y -> emono y z -> emono x z.
  Proof.
    intros [A B] [C D]. split; auto. destruct D as [D|D]; auto. destruct B as [B|B]; auto.
    right. intros p Hp. destruct (B p Hp) as (p1 & H1 & L1). destruct (D p1 H1) as (p2 & H2 & L2).
    exists p2. split; [assumption|lia].
  Qed.

  Definition pos_ok E (pos : nat) (r : option nat) : Prop := forall n, r = Some n -> pos + n <= inlen E.
  Definition post {A} E (pos : nat) c (x : option nat * A * ctx) : Prop :=
    pos_ok E pos (fst (fst x)) /\ inb E (snd x) /\ emono c (snd x).
  Definition step E c c' : Prop := inb E c' /\ emono c c'.
  Definition rec_safe (rec : rec_t) : Prop :=
    forall E o pos vs c, wfE E -> pos <= inlen E -> inb E c -> safe (post E pos c) (rec E o pos vs c).

  Lemma inb_same E c c' :
    inb E c -> c_lrm c' = c_lrm c -> c_pkr c' = c_pkr c -> c_err c' = c_err c -> c_out c' = c_out c -> inb E c'.
  Proof. intros [] H1 H2 H3 H4. constructor; rewrite ?H1, ?H2, ?H3, ?H4; assumption. Qed.
  Lemma step_same E c c' :
    inb E c -> c_lrm c' = c_lrm c -> c_pkr c' = c_pkr c -> c_err c' = c_err c -> c_out c' = c_out c -> c_rcv c' = c_rcv c -> step E c c'.
  Proof.
    intros H H1 H2 H3 Ho H4. split; [eapply inb_same; eauto|]. split; [congruence|]. right. rewrite H3. eauto.
  Qed.
  Lemma step_refl E c : inb E c -> step E c c.
  Proof. intros. apply step_same; auto. Qed.
  Lemma post_step {A} E pos c c1 (x : option nat * A * ctx) :
    emono c c1 -> post E pos c1 x -> post E pos c x.
  Proof. intros H (a & b & d). split; [assumption|]. split; [assumption|]. eapply emono_trans; eauto. Qed.
  Lemma post_after {A} E pos c (r : option nat) (v : A) c1 c2 :
    pos_ok E pos r -> emono c c1 -> step E c1 c2 -> post E pos c (r, v, c2).
  Proof.
    intros H1 H2 [H3 H4]. split; [exact H1|]. split; [exact H3|]. eapply emono_trans; [exact H2|exact H4].
  Qed.
  Lemma pos_ok_none E pos : pos_ok E pos None.
  Proof. intros n. discriminate. Qed.
  Lemma pos_ok_zero E pos : pos <= inlen E -> pos_ok E pos (Some 0).
  Proof. intros H n Hn. inv Hn. lia. Qed.
  Local Hint Resolve pos_ok_none pos_ok_zero emono_refl step_refl : core.

  Ltac same := apply step_same; [assumption|reflexivity..].

  (** Error bookkeeping. *)
  Lemma step_err E c e : inb E c ->
    (forall p, ei_pos e = Some p -> p <= inlen E) -> (forall p, ei_mpos e = Some p -> p <= inlen E) ->
    (forall p, ei_pos (c_err c) = Some p -> exists p', ei_pos e = Some p' /\ p <= p') ->
    step E c (set_err e c).
  Proof. intros [] H1 H2 H3. split; [constructor; csimpl; auto|]. split; auto. Qed.
  Lemma ei_pos_add l r e : ei_pos (err_add l r e) = ei_pos e.
  Proof. unfold err_add. destruct (existsb _ _); reflexivity. Qed.
  Lemma ei_mpos_add l r e : ei_mpos (err_add l r e) = ei_mpos e.
  Proof. unfold err_add. destruct (existsb _ _); reflexivity. Qed.

  Lemma step_moved E pos c e : inb E c -> pos <= inlen E ->
    ole (ei_pos (c_err c)) pos = true ->
    (ei_pos e = Some pos \/ (ei_pos e = ei_pos (c_err c))) -> ei_mpos e = ei_mpos (c_err c) ->
    step E c (set_err e c).
  Proof.
    intros Hc Hp Ho H1 H2. destruct Hc as [A B C D] eqn:HH. apply step_err; auto.
    - intros p Hq. destruct H1 as [H1|H1]; rewrite H1 in Hq; [inv Hq; assumption|auto].
    - intros p. rewrite H2. auto.
    - intros p Hq. rewrite Hq in Ho. cbn in Ho. apply Nat.leb_le in Ho.
      destruct H1 as [-> | ->]; eauto.
  Qed.
  Lemma step_error_pos E pos lit c : inb E c -> pos <= inlen E -> step E c (set_error_pos E pos lit c).
  Proof.
    intros Hc Hp. unfold set_error_pos. destruct (c_log c); [|auto].
    destruct (ole _ _) eqn:Ho; [|auto]. cbv zeta.
    set (e1 := if olt _ _ || _ then _ else _).
    assert (He1 : (ei_pos e1 = Some pos \/ ei_pos e1 = ei_pos (c_err c)) /\ ei_mpos e1 = ei_mpos (c_err c)).
    { unfold e1. destruct (_ || _); cbn; auto. }
    destruct He1 as [He1 He2].
    set (lit' := match lit with Some _ => _ | None => _ end). clearbody lit'. clearbody e1.
    destruct lit', (error_rule_of _ _ _);
      apply step_moved with (pos := pos); rewrite ?ei_pos_add, ?ei_mpos_add; auto.
  Qed.
  Lemma step_message E pos msg lab c : inb E c -> pos <= inlen E ->
    step E c (set_err (err_message pos msg lab (c_err c)) c).
  Proof.
    intros Hc Hp. destruct Hc as [A B C D] eqn:HH. apply step_err; cbn; eauto.
    intros p Hq. inv Hq. assumption.
  Qed.
  Lemma step_cut E b c : inb E c -> step E c (set_cut_top b c).
  Proof. intros. unfold set_cut_top. destruct (c_cut c); [auto|same]. Qed.
  Lemma step_rollback E c0 c : inb E c -> step E c (rollback_c c0 c).
  Proof. intros. same. Qed.
  Lemma step_keep E k c : inb E c -> step E c (set_err (err_keep k (c_err c)) c).
  Proof. intros Hc. destruct Hc as [A B C D] eqn:HH. apply step_err; cbn; eauto. Qed.
  Lemma step_fs_error E fs id pos c : inb E c -> pos <= inlen E -> step E c (fs_error fs id pos c).
  Proof.
    intros Hc Hp. unfold fs_error. destruct (nth_error _ _) as [f|]; [|auto].
    assert (H : forall l r, step E c
      (if c_log c && ole (ei_pos (c_err c)) pos then
        let e1 := if olt (ei_pos (c_err c)) pos || (id =? 0) then err_move pos (c_err c) else c_err c in
        set_err (match l with Some l => err_add (Some l) None e1 | None => err_add None r e1 end) c else c)).
    { intros l r. destruct (_ && _) eqn:Hb; [|auto]. apply andb_prop in Hb as [_ Hb]. cbv zeta.
      set (e1 := if _ || _ then _ else _).
      assert (He1 : (ei_pos e1 = Some pos \/ ei_pos e1 = ei_pos (c_err c)) /\ ei_mpos e1 = ei_mpos (c_err c)).
      { unfold e1. destruct (_ || _); cbn; auto. }
      destruct He1. destruct l; apply step_moved with (pos := pos); rewrite ?ei_pos_add, ?ei_mpos_add; auto. }
    destruct (fs_first_literal f) as [l|] eqn:H1, (fs_first_rule f) as [r|] eqn:H2; auto.
    - apply (H (Some l) (Some r)).
    - apply (H (Some l) None).
    - apply (H None (Some r)).
  Qed.

  Lemma step_trans E x y z : step E x y -> step E y z -> step E x z.
  Proof. intros [A B] [C D]. split; auto. eapply emono_trans; eauto. Qed.
  Lemma step_inb E x y : step E x y -> inb E y.
  Proof. now intros []. Qed.
  Lemma step_em E x y : step E x y -> emono x y.
  Proof. now intros []. Qed.
  Local Hint Resolve step_inb : core.
  Ltac em := match goal with
    | |- emono ?a ?a => apply emono_refl
    | H : emono ?a ?b |- emono ?a ?b => exact H
    | H : step ?E ?a ?b |- emono ?a ?b => exact (step_em E _ _ H)
    | H : emono ?a ?x |- emono ?a ?b => apply (emono_trans _ _ _ H); clear H; em
    | H : step ?E ?a ?x |- emono ?a ?b => apply (emono_trans _ _ _ (step_em E _ _ H)); clear H; em
    end.

  (** Memo tables. *)
  Lemma Forall_filter {A} (P : A -> Prop) f l : Forall P l -> Forall P (filter f l).
  Proof. induction 1; cbn; [constructor|]. destruct (f x); auto. Qed.
  Lemma lr_find_ok E c r p n v : inb E c -> lr_find (c_lrm c) (r, p) = Some (Some n, v) -> p + n <= inlen E.
  Proof.
    intros [H _ _ _]. unfold lr_find. destruct (find _ _) as [[k x]|] eqn:Hf; [|discriminate].
    intros Hx. cbn in Hx. inv Hx. apply find_some in Hf as [Hin Hk]. rewrite Forall_forall in H.
    specialize (H _ Hin). cbn in H, Hk. destruct k as [r' p']. unfold key_eqb in Hk. cbn in *.
    apply andb_prop in Hk as [_ Hk]. apply Nat.eqb_eq in Hk. subst. assumption.
  Qed.
  Lemma step_lrm_erase E c k : inb E c -> step E c (set_lrm (lr_erase k (c_lrm c)) c).
  Proof.
    intros []. split; [|split; auto; right; eauto]. constructor; csimpl; auto. now apply Forall_filter.
  Qed.
  Lemma step_lrm_set E c r p x : inb E c -> (forall n, fst x = Some n -> p + n <= inlen E) ->
    step E c (set_lrm (lr_set (r, p) x (c_lrm c)) c).
  Proof.
    intros [] Hx. split; [|split; auto; right; eauto]. constructor; csimpl; auto.
    constructor; [|now apply Forall_filter]. cbn. destruct (fst x); auto.
  Qed.
  Lemma step_clear_cycle E pos r cyc c : inb E c -> step E c (clear_cycle pos r cyc c).
  Proof.
    intros []. unfold clear_cycle. split; [|split; auto; right; eauto]. constructor; csimpl; auto. now apply Forall_filter.
  Qed.

  Lemma idx_div E slot pos : slot < e_cached E -> pk_idx E slot pos / e_cached E = pos.
  Proof.
    intros H. unfold pk_idx. rewrite Nat.mul_comm, Nat.div_add_l by lia. rewrite Nat.div_small by assumption. lia.
  Qed.
  Lemma pkr_find_ok E c slot pos n : inb E c -> e_packrat E = true -> slot < e_cached E ->
    nfind (c_pkr c) (pk_idx E slot pos) = Some (Some n) -> pos + n <= inlen E.
  Proof.
    intros [_ H _ _] Hp Hs. unfold nfind. destruct (find _ _) as [[k x]|] eqn:Hf; [|discriminate].
    intros Hx. cbn in Hx. inv Hx. apply find_some in Hf as [Hin Hk]. specialize (H Hp). rewrite Forall_forall in H.
    specialize (H _ Hin). cbn in H, Hk. apply Nat.eqb_eq in Hk. subst k. now rewrite idx_div in H.
  Qed.
  Lemma step_pkr_erase E c k : inb E c -> step E c (set_pkr (nerase k (c_pkr c)) c).
  Proof.
    intros []. split; [|split; auto; right; eauto]. constructor; csimpl; auto. intros; now apply Forall_filter, ib_pkr0.
  Qed.
  Lemma step_pkr_set E c slot pos x : inb E c -> (e_packrat E = true -> slot < e_cached E) ->
    (forall n, x = Some n -> pos + n <= inlen E) ->
    step E c (set_pkr (nset (pk_idx E slot pos) x (c_pkr c)) c).
  Proof.
    intros [] Hs Hx. split; [|split; auto; right; eauto]. constructor; csimpl; auto. intros Hp.
    constructor; [|now apply Forall_filter, ib_pkr0]. cbn. rewrite idx_div by auto. destruct x; auto.
  Qed.
  Lemma step_write E pos r len val c : wfE E -> inb E c -> pos + len <= inlen E ->
    step E c (write_packrat_cache E pos r len val c).
  Proof.
    intros HE Hc Hl. unfold write_packrat_cache. destruct (e_packrat E) eqn:Hp; [|auto].
    destruct (e_slot E r) as [s|] eqn:Hs; [|auto]. cbv zeta.
    destruct (_ <? _); [|auto]. destruct (_ <? _)%N; [now apply step_pkr_erase|].
    assert (H1 : step E c (set_pkr (nset (pk_idx E s pos) (Some len) (c_pkr c)) c)).
    { apply step_pkr_set; auto. - intros; eapply we_slot; eauto. - intros n Hn. now inv Hn. }
    destruct val; (eapply step_trans; [exact H1|]; apply step_same; eauto).
  Qed.
  Lemma step_clear E pos r c : inb E c -> step E c (clear_packrat_cache E pos r c).
  Proof.
    intros Hc. unfold clear_packrat_cache. destruct (e_packrat E); [|auto].
    destruct (e_slot E r) as [s|]; [|auto]. cbv zeta.
    match goal with |- context [if ?b then _ else _] => destruct b end.
    - eapply step_trans; [apply step_pkr_erase; eassumption|]. apply step_same; try reflexivity. eapply step_inb. now apply step_pkr_erase.
    - same.
  Qed.

  Section Ops.
    Variable rec : @rec_t V U.
    Hypothesis Hrec : rec_safe rec.

    Lemma safe_skip E pos vs c : wfE E -> pos <= inlen E -> inb E c ->
      safe (post E pos c) (skip_whitespace E rec pos vs c).
    Proof.
      intros HE Hp Hc. unfold skip_whitespace. destruct (e_ws E).
      - destruct (0 <? c_tb c); [cbn; apply post_after with c; auto|].
        eapply safe_bind.
        + apply Hrec; auto. now apply inb_same with c.
        + intros [[r v] k] (A & B & C). cbn in *. apply post_after with k; auto. same.
      - cbn. apply post_after with c; auto.
    Qed.
    Lemma safe_then_skip E pos len vs c : wfE E -> pos + len <= inlen E -> inb E c ->
      safe (post E pos c) (then_skip E rec pos len vs c).
    Proof.
      intros HE Hp Hc. unfold then_skip. eapply safe_bind; [apply safe_skip; auto|].
      intros [[r v] k] (A & B & C). cbn in *. apply post_after with k; auto.
      intros n Hn. destruct r as [w|]; inv Hn. specialize (A w eq_refl). lia.
    Qed.
    Lemma post_fail E pos vs c p lit : inb E c -> p <= inlen E ->
      post E pos c (None, vs, set_error_pos E p lit c).
    Proof. intros. apply post_after with c; auto. now apply step_error_pos. Qed.

    Lemma safe_not_word E w pos : wfE E -> pos <= inlen E -> safe (fun _ => True) (not_word E rec w pos).
    Proof.
      intros HE Hp. unfold not_word. eapply safe_bind; [apply Hrec|].
      - now apply wfE_word. - exact Hp.
      - unfold word_ctx, ctx_new. constructor; cbn; auto; discriminate.
      - intros [[r v] k] _. exact I.
    Qed.
    Lemma safe_is_word E w lit : wfE E -> safe (fun _ => True) (is_word E rec w lit).
    Proof.
      intros HE. unfold is_word. eapply safe_bind; [apply Hrec|].
      - now apply wfE_word. - lia.
      - unfold word_ctx, ctx_new. constructor; cbn; auto; discriminate.
      - intros [[r v] k] _. exact I.
    Qed.
    Lemma to_lower_length s : List.length (to_lower s) = List.length s.
    Proof. apply map_length. Qed.
    Lemma safe_literal E lit ic pos vs c : wfE E -> pos <= inlen E -> inb E c ->
      safe (post E pos c) (parse_literal E rec lit ic pos vs c).
    Proof.
      intros HE Hp Hc. unfold parse_literal. unfold left, inlen in *.
      eapply safe_bind; [apply safe_lit_loop; lia|]. intros b Hb. cbv beta in *.
      destruct b; [|cbn; now apply post_fail]. specialize (Hb eq_refl).
      assert (Hb' : pos + List.length lit <= List.length (e_input E)).
      { destruct ic; [rewrite to_lower_length in Hb|]; lia. }
      cbv zeta.
      apply (safe_bind (fun _ => True)).
      - destruct (e_word E); [|exact I].
        eapply safe_bind; [now apply safe_is_word|]. intros [] _; [|exact I].
        apply safe_not_word; auto; unfold inlen; lia.
      - intros [] _; [|cbn; now apply post_fail]. apply safe_then_skip; auto; unfold inlen; lia.
    Qed.
    Lemma safe_dic E t pos vs c : wfE E -> pos <= inlen E -> inb E c ->
      safe (post E pos c) (parse_dic E rec t pos vs c).
    Proof.
      intros HE Hp Hc. unfold parse_dic, fail_at.
      pose proof (trie_match_len t (from (e_input E) pos)) as Hl. rewrite from_length in Hl.
      destruct (trie_match _ _) as [i id]. cbn [fst] in Hl. unfold inlen in *.
      destruct (i =? 0); [cbn; now apply post_fail|]. cbv zeta.
      apply (safe_bind (fun _ => True)).
      - destruct (e_word E); [|exact I]. apply safe_not_word; auto; unfold inlen; lia.
      - intros [] _; [|cbn; now apply post_fail]. apply safe_then_skip; auto; unfold inlen; lia.
    Qed.
    Lemma safe_tolower_int n : safe (fun _ => True) (tolower_int n).
    Proof. unfold tolower_int. destruct (_ <? _)%N; exact I. Qed.
    Lemma safe_in_ranges ic rs cp : safe (fun _ => True) (in_ranges ic rs cp).
    Proof.
      induction rs as [|x rs IH]; [exact I|]. cbn [in_ranges].
      apply (safe_bind (fun _ => True)).
      - unfold in_range. destruct ic; [|exact I].
        eapply safe_bind; [apply safe_tolower_int|]. intros ? _.
        eapply safe_bind; [apply safe_tolower_int|]. intros ? _.
        destruct (_ <=? _)%N; [|exact I].
        eapply safe_bind; [apply safe_tolower_int|]. intros ? _. exact I.
      - intros [] _; [exact I|exact IH].
    Qed.
    Lemma safe_cls E rs neg ic pos vs c : pos <= inlen E -> inb E c ->
      safe (post E pos c) (parse_cls E rs neg ic pos vs c).
    Proof.
      intros Hp Hc. unfold parse_cls, fail_at. destruct (_ =? 0); [cbn; now apply post_fail|].
      eapply safe_bind; [apply safe_decode_len; rewrite from_length; unfold left, inlen; lia|].
      intros [len cp] Hl. cbn [fst] in Hl. unfold left in Hl.
      eapply safe_bind; [apply safe_in_ranges|]. intros b _.
      destruct (xorb _ _); cbn; [|now apply post_fail].
      apply post_after with c; auto. intros n Hn. inv Hn. lia.
    Qed.
    Lemma safe_chr E ch pos vs c : pos <= inlen E -> inb E c ->
      safe (post E pos c) (parse_chr E ch pos vs c).
    Proof.
      intros Hp Hc. unfold parse_chr, fail_at. destruct (_ =? 0); [cbn; now apply post_fail|].
      eapply safe_bind; [apply safe_decode_len; rewrite from_length; unfold left, inlen; lia|].
      intros [len cp] Hl. cbn [fst] in Hl. unfold left in Hl.
      destruct (_ =? _)%N; cbn; [|now apply post_fail].
      apply post_after with c; auto. intros n Hn. inv Hn. lia.
    Qed.
    Lemma safe_dot E pos vs c : pos <= inlen E -> inb E c ->
      safe (post E pos c) (parse_dot E pos vs c).
    Proof.
      intros Hp Hc. unfold parse_dot, fail_at.
      eapply safe_bind; [apply safe_cplen; rewrite from_length; unfold left, inlen; lia|].
      intros len Hl. cbv beta in Hl. unfold left in Hl.
      destruct (_ <? _); cbn; [now apply post_fail|].
      apply post_after with c; auto. intros n Hn. inv Hn. lia.
    Qed.

    Lemma safe_kg E kw pos vs c : wfE E -> pos <= inlen E -> inb E c ->
      safe (fun x => match x with Some x => post E pos c x | None => True end)
           (parse_keyword_guarded E rec kw pos vs c).
    Proof.
      intros HE Hp Hc. unfold parse_keyword_guarded. cbv zeta.
      destruct (left E pos <? 1) eqn:Hl; [cbn; now apply post_fail|]. apply Nat.ltb_ge in Hl. unfold left in *.
      eapply safe_bind; [apply safe_rd; unfold inlen in *; lia|]. intros b _.
      destruct (btest _ _); [|cbn; now apply post_fail].
      eapply safe_bind; [apply safe_scan; unfold inlen in *; lia|]. intros k Hk. cbv beta in Hk.
      assert (Hgo : safe (fun x => match x with Some x => post E pos c x | None => True end)
        (let* r := then_skip E rec pos (S k) (if e_recog E then vs else push_tok (pos, S k) vs) c in Ok (Some r))).
      { eapply safe_bind; [apply safe_then_skip; auto; lia|]. cbn. auto. }
      destruct (_ && _); [|exact Hgo].
      destruct (existsb _ _); [cbn; now apply post_fail|].
      destruct (existsb _ _); [exact I|exact Hgo].
    Qed.
    Lemma safe_seq_loop E l : wfE E -> forall pos i vs c, pos + i <= inlen E -> inb E c ->
      safe (post E pos c) (seq_loop E rec l pos i vs c).
    Proof.
      intros HE. induction l as [|o l IH]; intros pos i vs c Hp Hc; cbn [seq_loop].
      - cbn. apply post_after with c; auto. intros n Hn. inv Hn. assumption.
      - eapply safe_bind; [apply Hrec; auto|]. intros [[r v] k] (A & B & C). cbn in A, B, C.
        destruct r as [len|]; [|cbn; apply post_after with k; auto].
        specialize (A len eq_refl). eapply safe_imp; [apply IH; auto; lia|].
        intros x. now apply post_step.
    Qed.
    Lemma safe_seq E kg l pos vs c : wfE E -> pos <= inlen E -> inb E c ->
      safe (post E pos c) (parse_seq E rec kg l pos vs c).
    Proof.
      intros HE Hp Hc. unfold parse_seq.
      assert (H0 : safe (post E pos c) (seq_loop E rec l pos 0 vs c)) by (apply safe_seq_loop; auto; lia).
      destruct kg; [|exact H0].
      eapply safe_bind; [apply safe_kg; auto|]. intros [x|] Hx; [exact Hx|exact H0].
    Qed.

    Lemma safe_cho_loop E fs total l : wfE E -> forall id pos vs c, pos <= inlen E -> inb E c ->
      safe (post E pos c) (cho_loop E rec fs total l id pos vs c).
    Proof.
      intros HE. induction l as [|o l IH]; intros id pos vs c Hp Hc; cbn [cho_loop].
      - cbn. apply post_after with c; auto.
      - apply (safe_bind (fun _ => True)).
        + unfold fs_skip. destruct (left E pos =? 0) eqn:Hl; [exact I|].
          apply Nat.eqb_neq in Hl. unfold left in Hl.
          destruct (nth_error fs id); [|exact I]. destruct (_ || _); [exact I|].
          eapply safe_bind; [apply safe_rd; unfold inlen in *; lia|]. intros; exact I.
        + intros [] _.
          * assert (H1 : step E c (fs_error fs id pos c)) by now apply step_fs_error.
            eapply safe_imp; [apply IH; eauto|]. intros x. apply post_step; em.
          * cbv zeta. set (c2 := set_err _ _).
            assert (H2 : step E c c2).
            { unfold c2. eapply step_trans.
              - instantiate (1 := if e_has_cut E then set_cut_top false c else c).
                destruct (e_has_cut E); [now apply step_cut|auto].
              - apply step_keep. destruct (e_has_cut E); [|assumption]. eapply step_inb. now apply step_cut. }
            eapply safe_bind; [apply Hrec; eauto|]. intros [[r v] k] (A & B & C). cbn in A, B, C.
            assert (C' : emono c k) by (eapply emono_trans; [exact (step_em _ _ _ H2)|exact C]).
            destruct r as [len|]; [cbn; apply post_after with k; auto|].
            destruct (_ && _).
            -- cbn. apply post_after with k; auto. now apply step_rollback.
            -- eapply safe_imp; [apply IH; auto; now apply inb_same with k|].
               intros x. apply post_step. eapply emono_trans; [exact C'|]. exact (step_em E _ _ (step_rollback E _ _ B)).
    Qed.
    Lemma safe_cho E fl fs l pos vs c : wfE E -> pos <= inlen E -> inb E c ->
      safe (post E pos c) (parse_cho E rec fl fs l pos vs c).
    Proof.
      intros HE Hp Hc. unfold parse_cho. cbv zeta.
      set (c1 := if _ && _ then _ else c).
      assert (H1 : step E c c1) by (unfold c1; destruct (_ && _); [same|auto]).
      eapply safe_bind; [apply safe_cho_loop; eauto|]. intros [[r v] k] (A & B & C). cbn in A, B, C.
      cbn. apply post_after with k; [exact A| |].
      - eapply emono_trans; [exact (step_em E _ _ H1)|exact C].
      - eapply step_trans; [apply step_keep; assumption|].
        assert (HH : inb E (set_err (err_keep false (c_err k)) k)) by (eapply step_inb; now apply step_keep).
        destruct (e_has_cut E && negb fl); [apply step_same; [exact HH|reflexivity..]|exact (step_refl E _ HH)].
    Qed.
    Lemma safe_rep_min E e m : wfE E -> forall pos i vs c, pos + i <= inlen E -> inb E c ->
      safe (post E pos c) (rep_min E rec e m pos i vs c).
    Proof.
      intros HE. induction m as [|m IH]; intros pos i vs c Hp Hc; cbn [rep_min].
      - cbn. apply post_after with c; auto. intros n Hn. inv Hn. assumption.
      - eapply safe_bind; [apply Hrec; auto|]. intros [[r v] k] (A & B & C). cbn in A, B, C.
        destruct r as [len|]; [|cbn; apply post_after with k; auto].
        specialize (A len eq_refl). eapply safe_imp; [apply IH; auto; lia|].
        intros x. now apply post_step.
    Qed.
    Lemma safe_rep_more E e fuel : wfE E -> forall room pos i vs c, pos + i <= inlen E -> inb E c ->
      safe (post E pos c) (rep_more fuel E rec e room pos i vs c).
    Proof.
      intros HE. induction fuel as [|fuel IH]; intros room pos i vs c Hp Hc; cbn [rep_more].
      - destruct room as [[|n]|]; try exact I. cbn. apply post_after with c; auto. intros n Hn. inv Hn. assumption.
      - assert (Hx : safe (post E pos c) (let* (r, vs', c') := rec E e (pos + i) vs c in
                match r with
                | Some len => rep_more fuel E rec e (option_map Nat.pred room) pos (i + len) vs' c'
                | None => Ok (Some i, rollback_vs vs vs', rollback_c c c')
                end)).
        { eapply safe_bind; [apply Hrec; auto|]. intros [[r v] k] (A & B & C). cbn in A, B, C.
          destruct r as [len|].
          - specialize (A len eq_refl). eapply safe_imp; [apply IH; auto; lia|]. intros x. now apply post_step.
          - cbn. apply post_after with k; auto.
            + intros n Hn. inv Hn. assumption.
            + now apply step_rollback. }
        destruct room as [[|n]|]; auto. cbn. apply post_after with c; auto. intros n Hn. inv Hn. assumption.
    Qed.
    Lemma safe_rep fuel E e mn mx span pos vs c : wfE E -> pos <= inlen E -> inb E c ->
      safe (post E pos c) (parse_rep fuel E rec e mn mx span pos vs c).
    Proof.
      intros HE Hp Hc. unfold parse_rep. destruct span.
      - cbv zeta. set (limit := match mx with Some _ => _ | None => _ end).
        assert (Hlim : limit <= left E pos) by (unfold limit; destruct mx; lia). unfold left in Hlim.
        eapply safe_bind; [apply safe_scan with (limit := limit); unfold inlen in *; lia|].
        intros i Hi. cbv beta in Hi. destruct (_ <? _); cbn.
        + apply post_fail; auto. lia.
        + apply post_after with c; auto. intros n Hn. inv Hn. lia.
      - eapply safe_bind; [apply safe_rep_min; auto; lia|]. intros [[r v] k] (A & B & C). cbn in A, B, C.
        destruct r as [i|]; [|cbn; apply post_after with k; auto]. specialize (A i eq_refl).
        assert (Hx : forall room, safe (post E pos c) (rep_more fuel E rec e room pos i v k)).
        { intros room. eapply safe_imp; [apply safe_rep_more; auto|]. intros x. now apply post_step. }
        destruct mx as [m|]; [|apply Hx]. destruct (mn <? m); [apply Hx|].
        cbn. apply post_after with k; auto. intros n Hn. inv Hn. assumption.
    Qed.
    Lemma safe_tok E e pos vs c : wfE E -> pos <= inlen E -> inb E c ->
      safe (post E pos c) (parse_tok E rec e pos vs c).
    Proof.
      intros HE Hp Hc. unfold parse_tok. cbv zeta.
      eapply safe_bind; [apply Hrec; auto; now apply inb_same with c|].
      intros [[r v] k] (A & B & C). cbn in A, B. assert (C' : emono c k) by exact C. clear C.
      destruct r as [len|].
      - specialize (A len eq_refl). eapply safe_bind.
        + apply safe_then_skip; auto. now apply inb_same with k.
        + intros [[r2 v2] k2] (A2 & B2 & C2). cbn in A2, B2. assert (C2' : emono k k2) by exact C2.
          cbn. apply post_after with k2; auto; [|same]. em.
      - cbn. apply post_after with k; auto. same.
    Qed.
    Lemma safe_body E r d body pos vs c : wfE E -> pos <= inlen E -> inb E c ->
      safe (post E pos c) (parse_ope_body E rec r d body pos vs c).
    Proof.
      intros HE Hp Hc. unfold parse_ope_body. cbv zeta.
      set (c1 := if _ || _ then _ else c).
      assert (H1 : step E c c1) by (unfold c1; destruct (_ || _); [same|auto]).
      apply (safe_bind (post E pos c)).
      - destruct (r_no_whitespace d).
        + eapply safe_bind; [apply Hrec; eauto; apply inb_same with c1; eauto|].
          intros [[len v] k] (A & B & C). cbn in A, B. assert (C' : emono c1 k) by exact C.
          assert (C2 : emono c k) by (em).
          destruct len as [n|].
          * eapply safe_imp; [apply safe_then_skip; auto; now apply inb_same with k|].
            intros x. apply post_step. exact C2.
          * cbn. apply post_after with k; auto. same.
        + eapply safe_imp; [apply Hrec; eauto|]. intros x. apply post_step; em.
      - intros [[len v] k] (A & B & C). cbn in A, B, C. cbn. apply post_after with k; auto.
        destruct (_ || _); [same|auto].
    Qed.
    Lemma step_action E r vs pd c : inb E c -> step E c (snd (run_action E r vs pd c)).
    Proof.
      intros Hc. unfold run_action. destruct (e_action E r) as [f|].
      - destruct (f _ _ _ _) as [v dt]. cbn [snd]. same.
      - cbn [snd]. same.
    Qed.
    Lemma step_reduce E r d vs pd c : inb E c -> step E c (snd (reduce E r d vs pd c)).
    Proof. intros Hc. unfold reduce. destruct (_ && _); [now apply step_action|auto]. Qed.

    Lemma safe_do_parse E r d body pos c : wfE E -> pos <= inlen E -> inb E c ->
      safe (post E pos c) (do_parse E rec r d body pos c).
    Proof.
      intros HE Hp Hc. unfold do_parse. cbv zeta.
      set (c1 := match e_enter E r with Some _ => _ | None => c end).
      assert (H1 : step E c c1) by (unfold c1; destruct (e_enter E r); [same|auto]).
      eapply safe_bind; [apply safe_body; eauto|]. intros [[len chvs] k] (A & B & C). cbn in A, B, C.
      assert (C' : emono c k) by (em).
      match goal with |- safe _ match ?x with _ => _ end =>
        assert (H2 : post E pos c x); [|destruct x as [[len1 val1] c2]] end.
      { destruct len as [n|].
        - set (vs2 := if is_choice_like _ then _ else _). specialize (A n eq_refl).
          assert (An : pos_ok E pos (Some n)) by (intros m Hm; inv Hm; assumption).
          assert (Hred : forall pd, post E pos c (let (v, c') := reduce E r d vs2 pd k in (Some n, v, c'))).
          { intros pd. pose proof (step_reduce E r d vs2 pd k B) as Hs. destruct (reduce E r d vs2 pd k).
            apply post_after with k; auto. }
          destruct (e_pred E r) as [p|].
          + destruct (p _ _ _) as [[ok msg] pd]. destruct ok.
            * destruct (c_rcv k); [|apply Hred]. apply post_after with k; auto.
            * apply post_after with k; auto. destruct (_ && _); [now apply step_message|auto].
          + destruct (c_rcv k); [|apply Hred]. apply post_after with k; auto.
        - apply post_after with k; auto. destruct (_ && _); [now apply step_message|auto]. }
      destruct H2 as (A2 & B2 & C2). cbn in A2, B2, C2. destruct (e_leave E r) as [f|].
      - destruct (f _ _ _ _ _) as [v1 dt]. cbn. apply post_after with c2; auto. same.
      - cbn. apply post_after with c2; auto.
    Qed.

    Lemma step_actp E x c : inb E c -> step E c (set_actp x c).
    Proof. intros; same. Qed.

    Lemma safe_packrat E pos r fn c : wfE E -> e_packrat E = true -> pos <= inlen E -> inb E c ->
      (forall c, inb E c -> safe (post E pos c) (fn c)) ->
      safe (post E pos c) (packrat E pos r fn c).
    Proof.
      intros HE Hpk Hp Hc Hf. unfold packrat. destruct (e_slot E r) as [s|] eqn:Hs.
      - cbv zeta. destruct (_ <? _); [|exact I].
        assert (Hsl : s < e_cached E) by (eapply we_slot; eauto).
        destruct (nfind _ _) as [[n|]|] eqn:Hn.
        + cbn. apply post_after with c; auto. intros m Hm. inv Hm. eapply pkr_find_ok; eauto.
        + cbn. apply post_after with c; auto.
        + assert (Hst : step E c (set_pkr (nset (pk_idx E s pos) None (c_pkr c)) c))
            by (apply step_pkr_set; auto; discriminate).
          eapply safe_bind; [apply Hf; eauto|]. intros [[len val] k] (A & B & C). cbn in A, B, C. cbn.
          apply post_after with k; auto.
          destruct len as [n|]; [|auto]. apply step_write; auto.
      - destruct (nfind _ _).
        + destruct (_ =? _); [cbn; apply post_after with c; auto|].
          eapply safe_bind; [apply Hf; now apply inb_same with c|]. intros [[len val] k] (A & B & C). cbn in A, B.
          cbn. apply post_after with k; auto. same.
        + eapply safe_bind; [apply Hf; now apply inb_same with c|]. intros [[len val] k] (A & B & C). cbn in A, B.
          cbn. apply post_after with k; auto. same.
    Qed.
    Lemma safe_guard E pos r fn c : pos <= inlen E -> inb E c ->
      (forall c, inb E c -> safe (post E pos c) (fn c)) ->
      safe (post E pos c) (guard pos r fn c).
    Proof.
      intros Hp Hc Hf. unfold guard. destruct (lr_find _ _); [cbn; apply post_after with c; auto|].
      assert (Hst : step E c (set_lrm (lr_set (r, pos) (None, None) (c_lrm c)) c))
        by (apply step_lrm_set; auto; discriminate).
      eapply safe_bind; [apply Hf; eauto|]. intros [[len val] k] (A & B & C). cbn in A, B, C. cbn.
      apply post_after with k; auto. now apply step_lrm_erase.
    Qed.
    Lemma safe_grow fuel : forall E r d body cycle pos len val c, wfE E -> pos + len <= inlen E -> inb E c ->
      safe (fun x => pos + fst (fst x) <= inlen E /\ inb E (snd x) /\ emono c (snd x))
        (lr_grow fuel E rec r d body cycle pos len val c).
    Proof.
      induction fuel as [|fuel IH]; intros E r d body cycle pos len val c HE Hp Hc; cbn [lr_grow]; [exact I|].
      cbv zeta. set (c2 := clear_cycle _ _ _ _).
      assert (H2 : step E c c2).
      { eapply step_trans; [now apply step_clear|]. apply step_clear_cycle. eapply step_inb. now apply step_clear. }
      eapply safe_bind; [apply safe_do_parse; eauto; lia|]. intros [[nl nv] k] (A & B & C). cbn in A, B, C.
      assert (C' : emono c k) by (em).
      destruct nl as [n|]; [|cbn; auto]. destruct (n <=? len); [cbn; auto|]. specialize (A n eq_refl).
      assert (H3 : step E k (set_lrm (lr_set (r, pos) (Some n, nv) (c_lrm k)) k)).
      { apply step_lrm_set; auto. intros m Hm. inv Hm. assumption. }
      eapply safe_imp; [apply IH; eauto|]. intros x (X1 & X2 & X3). repeat (split; auto).
      all: eapply emono_trans; [exact C'|]; em.
    Qed.
    Lemma safe_lr fuel E r d body pos c : wfE E -> pos <= inlen E -> inb E c ->
      safe (post E pos c) (parse_lr fuel E rec r d body pos c).
    Proof.
      intros HE Hp Hc. unfold parse_lr. cbv zeta. destruct (lr_find _ _) as [[[n|] v]|] eqn:Hl.
      - cbn. apply post_after with c; auto; [|same]. intros m Hm. inv Hm. eapply lr_find_ok; eauto.
      - cbn. apply post_after with c; auto. same.
      - set (c1 := set_hits _ _).
        assert (H1 : step E c c1).
        { eapply step_trans; [apply step_lrm_set with (r := r) (p := pos) (x := (None, None)); [assumption|discriminate]|].
          apply step_same; try reflexivity. eapply step_inb. apply step_lrm_set; [assumption|discriminate]. }
        eapply safe_bind; [apply safe_do_parse; eauto|]. intros [[il iv] k] (A & B & C). cbn in A, B, C.
        assert (C' : emono c k) by (em).
        destruct il as [n|]; [|cbn; apply post_after with k; auto; same]. specialize (A n eq_refl).
        set (k2 := set_hits _ k).
        assert (H3 : step E k (set_lrm (lr_set (r, pos) (Some n, iv) (c_lrm k2)) k2)).
        { eapply step_trans; [|apply step_lrm_set].
          - same. - now apply inb_same with k. - intros m Hm. inv Hm. assumption. }
        eapply safe_bind; [apply safe_grow; eauto|]. intros [[len val] k3] (A3 & B3 & C3). cbn in A3, B3, C3.
        cbn. apply post_after with k3.
        + intros m Hm. inv Hm. assumption.
        + eapply emono_trans; [exact C'|]. em.
        + eapply step_trans; [apply step_write; eauto|]. apply step_same; try reflexivity.
          eapply step_inb. now apply step_write.
    Qed.

    Lemma safe_hld fuel E r pos vs c : wfE E -> pos <= inlen E -> inb E c ->
      safe (post E pos c) (parse_hld fuel E rec r pos vs c).
    Proof.
      intros HE Hp Hc. unfold parse_hld. apply (safe_bind (fun _ => True)).
      { unfold get_rule. destruct (nth_error _ _); exact I. }
      intros d _. destruct (r_body d) as [body|]; [|exact I].
      destruct (r_is_macro d).
      { destruct (r_lr d); [exact I|]. eapply safe_bind; [apply Hrec; auto; now apply inb_same with c|].
        intros [[len v] k] (A & B & C). cbn in A, B. cbn. apply post_after with k; auto. same. }
      destruct (_ && _).
      { destruct (e_packrat E) eqn:Hpk.
        - destruct (e_slot E r) as [s|] eqn:Hs.
          + cbv zeta. destruct (_ <? _); [|exact I].
            assert (Hsl : s < e_cached E) by (eapply we_slot; eauto).
            destruct (nfind _ _) as [x|] eqn:Hn.
            * cbn. apply post_after with c; auto. intros m Hm. subst. eapply pkr_find_ok; eauto.
            * assert (Hst : step E c (set_pkr (nset (pk_idx E s pos) None (c_pkr c)) c))
                by (apply step_pkr_set; auto; discriminate).
              eapply safe_bind; [apply safe_body; eauto|]. intros [[len val] k] (A & B & C). cbn in A, B, C. cbn.
              apply post_after with k; auto.
              destruct len as [n|]; [|auto]. apply step_write; auto.
          + destruct (nfind _ _).
            * destruct (_ =? _); [cbn; apply post_after with c; auto|].
              eapply safe_bind; [apply safe_body; auto; now apply inb_same with c|].
              intros [[len val] k] (A & B & C). cbn in A, B. cbn. apply post_after with k; auto. same.
            * eapply safe_bind; [apply safe_body; auto; now apply inb_same with c|].
              intros [[len val] k] (A & B & C). cbn in A, B. cbn. apply post_after with k; auto. same.
        - destruct (lr_find _ _); [cbn; apply post_after with c; auto|].
          assert (Hst : step E c (set_lrm (lr_set (r, pos) (None, None) (c_lrm c)) c))
            by (apply step_lrm_set; auto; discriminate).
          eapply safe_bind; [apply safe_body; eauto|]. intros [[len val] k] (A & B & C). cbn in A, B, C. cbn.
          apply post_after with k; auto. now apply step_lrm_erase. }
      apply (safe_bind (post E pos c)).
      - destruct (r_lr d); [now apply safe_lr|].
        destruct (e_packrat E) eqn:Hpk; [apply safe_packrat | apply safe_guard]; auto;
          intros; now apply safe_do_parse.
      - intros [[len val] k] (A & B & C). cbn in A, B, C. destruct len; cbn; apply post_after with k; auto.
    Qed.

    Lemma safe_find_param params args name : safe (fun _ => True) (find_param params args name).
    Proof.
      revert args. induction params as [|p params IH]; intros [|a args]; cbn; auto.
      destruct (bytes_eqb _ _); cbn; auto.
    Qed.
    Fixpoint safe_find_reference params args o {struct o} : safe (fun _ => True) (find_reference params args o).
    Proof.
      assert (Hl : forall l, safe (fun _ => True)
        ((fix go l := match l with
                  | [] => Ok []
                  | x :: l' => let* x' := find_reference params args x in
                               let* r := go l' in Ok (x' :: r)
                  end) l) -> True) by auto. clear Hl.
      destruct o; cbn [find_reference]; try exact I;
        try (eapply safe_bind; [apply safe_find_reference|intros; exact I]).
      - apply (safe_bind (fun _ => True)); [|intros; exact I]. induction l as [|x l IH]; [exact I|].
        eapply safe_bind; [apply safe_find_reference|]. intros ? _. eapply safe_bind; [exact IH|]. intros; exact I.
      - apply (safe_bind (fun _ => True)); [|intros; exact I]. induction l as [|x l IH]; [exact I|].
        eapply safe_bind; [apply safe_find_reference|]. intros ? _. eapply safe_bind; [exact IH|]. intros; exact I.
      - eapply safe_bind; [apply safe_find_param|]. intros [] _; exact I.
    Qed.
    Lemma safe_subst_args params top l : safe (fun _ => True) (subst_args params top l).
    Proof.
      induction l as [|x l IH]; [exact I|]. cbn [subst_args].
      eapply safe_bind; [apply safe_find_reference|]. intros ? _. eapply safe_bind; [exact IH|]. intros; exact I.
    Qed.
    Lemma safe_get_rule E r : safe (fun _ => True) (get_rule E r).
    Proof. unfold get_rule. destruct (nth_error _ _); exact I. Qed.

    Lemma safe_dispatch E rl iarg args pos vs c : wfE E -> pos <= inlen E -> inb E c ->
      safe (post E pos c) (parse_dispatch E rec rl iarg args pos vs c).
    Proof.
      intros HE Hp Hc. unfold parse_dispatch. destruct rl as [r|].
      - eapply safe_bind; [apply safe_get_rule|]. intros d _. destruct (r_is_macro d).
        + destruct (c_rstk c); [exact I|]. eapply safe_bind; [apply safe_get_rule|]. intros td _.
          eapply safe_bind; [apply safe_subst_args|]. intros args' _. destruct (r_lr d); [exact I|].
          eapply safe_bind; [apply Hrec; auto; now apply inb_same with c|].
          intros [[len v] k] (A & B & C). cbn in A, B. cbn. apply post_after with k; auto. same.
        + destruct (_ && _); [now apply Hrec|].
          eapply safe_bind; [apply Hrec; auto; now apply inb_same with c|].
          intros [[len v] k] (A & B & C). cbn in A, B. cbn. apply post_after with k; auto. same.
      - destruct (nth_error _ _); [now apply Hrec|exact I].
    Qed.
    Lemma safe_ref E rl iarg args pos vs c : wfE E -> pos <= inlen E -> inb E c ->
      safe (post E pos c) (parse_ref E rec rl iarg args pos vs c).
    Proof.
      intros HE Hp Hc. unfold parse_ref. destruct (e_tracer E); [|now apply safe_dispatch].
      cbv zeta. set (b := match rl with Some _ => _ | None => _ end).
      set (c1 := if b then _ else c).
      assert (H1 : step E c c1) by (unfold c1; destruct b; [same|auto]).
      eapply safe_bind; [apply safe_dispatch; eauto|]. intros [[len v] k] (A & B & C). cbn in A, B, C.
      cbn. apply post_after with k; auto; [|same]. em.
    Qed.

    Lemma safe_binop E rl b c : safe (fun _ => True) (binop_rule E rl b c).
    Proof.
      unfold binop_rule. eapply safe_bind; [apply safe_get_rule|]. intros d _.
      destruct b; try exact I. destruct (r_is_macro d).
      - destruct (nth_error _ _) as [[]|]; try exact I. destruct rule0; exact I.
      - destruct rule; exact I.
    Qed.
    Lemma safe_prec_loop fuel : forall E atom binop info rl mp pos i vs c,
      wfE E -> pos + i <= inlen E -> inb E c ->
      safe (post E pos c) (prec_loop fuel E rec atom binop info rl mp pos i vs c).
    Proof.
      induction fuel as [|fuel IH]; intros E atom binop info rl mp pos i vs c HE Hp Hc; cbn [prec_loop].
      - destruct (_ <? _); [exact I|]. cbn. apply post_after with c; auto. intros n Hn. inv Hn. assumption.
      - assert (Hi : pos_ok E pos (Some i)) by (intros n Hn; inv Hn; assumption).
        destruct (_ <? _); [|cbn; apply post_after with c; auto].
        eapply safe_bind; [apply Hrec; auto|]. intros [[r chvs] c1] (A & B & C). cbn in A, B, C.
        destruct r as [chlen|]; [|cbn; apply post_after with c1; auto]. specialize (A chlen eq_refl).
        destruct (binfo_find _ _) as [[level la]|]; [|cbn; apply post_after with c1; auto].
        destruct (level <? mp); [cbn; apply post_after with c1; auto|].
        destruct (v_vals chvs) as [|opv ?]; [exact I|]. cbv zeta.
        apply (safe_bind (post E (pos + (i + chlen)) c)).
        + eapply safe_bind; [apply Hrec; auto; lia|]. intros [[ra va] ca] (A2 & B2 & C2). cbn in A2, B2, C2.
          assert (C2' : emono c ca) by (em).
          destruct ra as [n|]; [|cbn; apply post_after with ca; auto]. specialize (A2 n eq_refl).
          eapply safe_bind; [apply safe_binop|]. intros br _.
          eapply safe_bind; [apply IH; auto; now apply inb_same with ca|].
          intros [[re ve] ce] (A3 & B3 & C3). cbn in A3, B3. assert (C3' : emono ca ce) by exact C3.
          cbn. apply post_after with ce; auto; [|same]. em.
        + intros [[r2 chvs2] c2] (A2 & B2 & C2). cbn in A2, B2, C2.
          destruct r2 as [l2|]; [|cbn; apply post_after with c2; auto]. specialize (A2 l2 eq_refl).
          destruct (v_vals chvs2) as [|rv ?]; [exact I|].
          match goal with |- safe _ match ?x with _ => _ end =>
            assert (Hx : step E c2 (snd x)); [|destruct x as [[val vs3] c3]] end.
          { destruct (has_action _ _ _); [|auto].
            match goal with |- context [run_action ?a ?b ?c ?d ?e] =>
              pose proof (step_action a b c d e B2) as Hs; destruct (run_action a b c d e) as [v1 cx] end.
            exact Hs. }
          cbn [snd] in Hx. eapply safe_imp; [apply IH; eauto; lia|].
          intros x. apply post_step. em.
    Qed.
    Lemma safe_prec fuel E atom binop info rl pos vs c : wfE E -> pos <= inlen E -> inb E c ->
      safe (post E pos c) (parse_prec fuel E rec atom binop info rl pos vs c).
    Proof.
      intros HE Hp Hc. unfold parse_prec. eapply safe_bind; [apply Hrec; auto|].
      intros [[ra va] ca] (A & B & C). cbn in A, B, C.
      destruct ra as [n|]; [|cbn; apply post_after with ca; auto]. specialize (A n eq_refl).
      eapply safe_bind; [apply safe_binop|]. intros br _.
      eapply safe_bind; [apply safe_prec_loop; auto; now apply inb_same with ca|].
      intros [[re ve] ce] (A3 & B3 & C3). cbn in A3, B3. assert (C3' : emono ca ce) by exact C3.
      cbn. apply post_after with ce; auto; [|same]. em.
    Qed.

    Lemma safe_rcv E e pos vs c : wfE E -> pos <= inlen E -> inb E c ->
      safe (post E pos c) (parse_rcv E rec e pos vs c).
    Proof.
      intros HE Hp Hc. unfold parse_rcv. destruct e; try exact I. cbv zeta.
      apply (safe_bind (step E c)).
      { destruct (c_log c); [|cbn; auto]. destruct args as [|[] ?]; try exact I; try (cbn; auto; fail).
        destruct rule0; [|exact I]. eapply safe_bind; [apply safe_get_rule|]. intros d _.
        destruct (r_error_message d); cbn; auto. now apply step_message. }
      intros c1 H1. eapply safe_bind; [apply Hrec; auto; apply inb_same with c1; eauto|].
      intros [[len v] c2] (A & B & C). cbn in A, B. assert (C' : emono c1 c2) by exact C. clear C.
      assert (C2 : emono c c2) by (em).
      apply (safe_bind (step E c2)).
      { destruct len as [n|]; [|cbn; same].
        assert (Hr : forall k, inb E k -> c_rcv k = true -> step E c2 k).
        { intros k Hk Hr. split; [assumption|]. split; auto. }
        destruct (c_log c1).
        - eapply safe_bind.
          + apply safe_output_log_from; csimpl; destruct B; assumption.
          + intros [ei rp] (He1 & He2 & He3). cbn in He1, He2, He3. cbn. apply Hr; [|reflexivity].
            destruct B. constructor; csimpl; auto; try discriminate. apply Forall_app. split; [assumption|].
            destruct rp as [rp|]; constructor; [now apply He3|constructor].
        - cbn. apply Hr; [|reflexivity]. now apply inb_same with c2. }
      intros c4 H4. cbn. apply post_after with c2; auto.
      eapply step_trans; [exact H4|]. apply step_cut. eauto.
    Qed.

    Lemma safe_core fuel E o pos vs c : wfE E -> pos <= inlen E -> inb E c ->
      safe (post E pos c) (parse_core fuel rec E o pos vs c).
    Proof.
      intros HE Hp Hc. destruct o; cbn [parse_core].
      - now apply safe_seq.
      - now apply safe_cho.
      - now apply safe_rep.
      - unfold parse_and. eapply safe_bind; [apply Hrec; auto|]. intros [[r v] k] (A & B & C). cbn in A, B, C.
        cbn. apply post_after with k; auto; [destruct r; auto|same].
      - unfold parse_not. eapply safe_bind; [apply Hrec; auto|]. intros [[r v] k] (A & B & C). cbn in A, B, C.
        cbv zeta. assert (Hk : step E k (rollback_c c k)) by now apply step_rollback.
        destruct r; cbn; apply post_after with k; auto.
        eapply step_trans; [exact Hk|]. apply step_error_pos; eauto.
      - now apply safe_dic.
      - now apply safe_literal.
      - now apply safe_cls.
      - now apply safe_chr.
      - now apply safe_dot.
      - unfold parse_csc. eapply safe_bind; [apply Hrec; auto|]. intros [[r v] k] (A & B & C). cbn in A, B, C.
        cbn. apply post_after with k; auto. same.
      - unfold parse_cap. eapply safe_bind; [apply Hrec; auto|]. intros [[r v] k] (A & B & C). cbn in A, B, C.
        destruct r; cbn; apply post_after with k; auto. same.
      - now apply safe_tok.
      - unfold parse_ign. eapply safe_bind; [apply Hrec; auto|]. intros [[r v] k] (A & B & C). cbn in A, B, C.
        cbn. apply post_after with k; auto.
      - unfold parse_usr. destruct (e_user _ _ _ _ _ _) as [[r vs'] dt] eqn:Hu. cbn.
        apply post_after with c; auto; [|same]. intros n Hn. subst. eapply we_user; eauto.
      - now apply Hrec.
      - now apply safe_hld.
      - now apply safe_ref.
      - unfold parse_wsp. destruct (c_inws c); [cbn; apply post_after with c; auto|].
        eapply safe_bind; [apply Hrec; auto; now apply inb_same with c|]. intros [[r v] k] (A & B & C). cbn in A, B.
        cbn. apply post_after with k; auto. same.
      - unfold parse_bkr. destruct (last_capture _ _); [now apply safe_literal|].
        cbn. apply post_after with c; auto. now apply step_message.
      - now apply safe_prec.
      - now apply safe_rcv.
      - cbn. apply post_after with c; auto. now apply step_cut.
      - exact I.
    Qed.
  End Ops.

  Theorem parse_safe fuel : rec_safe (parse fuel).
  Proof.
    induction fuel as [|fuel IH]; intros E o pos vs c HE Hp Hc; cbn [parse]; [exact I|].
    unfold traced. destruct (is_traceable E o c).
    - cbv zeta. eapply safe_bind.
      + apply (safe_core (parse fuel) IH); auto. now apply inb_same with c.
      + intros [[r v] k] (A & B & C). cbn in A, B. cbn. apply post_after with k; auto. same.
    - now apply (safe_core (parse fuel) IH).
  Qed.
End Bounds.
