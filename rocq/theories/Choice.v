(** * Which alternative a rule took: choice() and choice_count() (property C46). *)
From Verif Require Import Base BaseLemmas Utf8 Escape TrieM LineInfo Ope Ctx ErrLog Engine EngineLemmas.

(** ** What the numbers should be *)

(** Expressions that make no choice of their own: every choice, dictionary and custom
    parser they contain is in a rule of its own, ignored, or in a predicate. *)
Fixpoint quiet (g : grammar) (o : ope) : bool :=
  match o with
  | Seq _ l => forallb (quiet g) l
  | Rep e _ _ _ | Csc e | Cap _ e | Tok e | Wsp e => quiet g e
  | Cho _ _ _ | Dic _ | Usr _ | Pre _ _ _ _ | Nul => false
  | Ref _ (Some r) _ _ _ | Wkh r | Hld r => match nth_error g r with Some d => negb (r_is_macro d) | None => true end
  | Ref _ None _ _ _ => false
  | _ => true
  end.
Definition quiet_ws (g : grammar) (ws : option ope) : bool := match ws with Some w => quiet g w | None => true end.

(** choice_count is the number of alternatives of the choice that is the body of the rule
    (in a token boundary or not) and choice a number below it; both are 0 for a rule whose
    body is not a choice.  Where whitespace is skipped after the choice is made (token
    boundaries, no_whitespace rules), that whitespace must not make choices itself. *)
Definition picked (body : ope) (cc ch : nat) : Prop :=
  match body with
  | Cho _ _ l => cc = List.length l /\ ch < cc
  | Dic t => cc = t_items_count t
  | _ => cc = 0 /\ ch = 0
  end.
Definition told (g : grammar) (ws : option ope) (d : rule) (cc ch : nat) : Prop :=
  match r_body d with
  | Some (Pre _ _ _ _) => True
  | Some (Tok e) => (is_choice_like e = true -> quiet_ws g ws = true) -> picked e cc ch
  | Some (Dic t) => quiet_ws g ws = true -> picked (Dic t) cc ch
  | Some body => (is_choice_like body = true -> r_no_whitespace d = true -> quiet_ws g ws = true) -> picked body cc ch
  | None => True
  end.

(** ** Proofs *)
Section Choice.
  Context {V U : Type}.
  Notation env := (env V U).
  Notation ctx := (ctx V U).
  Notation sv := (sv V).
  Implicit Types (E : env) (c : ctx) (vs : sv).
  Definition keep vs vs' : Prop := v_cc vs' = v_cc vs /\ v_ch vs' = v_ch vs.
  Lemma keep_refl vs : keep vs vs. Proof. split; reflexivity. Qed.
  Lemma keep_trans a b d : keep a b -> keep b d -> keep a d. Proof. unfold keep. intuition congruence. Qed.
  Hint Resolve keep_refl : core.
  Definition rec_keep (rec : rec_t) : Prop := forall E o pos vs c r vs' c', e_recog E = false -> quiet_ws (e_g E) (e_ws E) = true ->
    quiet (e_g E) o = true -> rec E o pos vs c = Ok (r, vs', c') -> keep vs vs'.
  Section Ops.
    Context (rec : @rec_t V U) (Hrec : rec_keep rec).
    Lemma k_skip E pos vs c r vs' c' : e_recog E = false -> quiet_ws (e_g E) (e_ws E) = true ->
      skip_whitespace E rec pos vs c = Ok (r, vs', c') -> keep vs vs'.
    Proof.
      intros HE Hq H. unfold skip_whitespace in H. destruct (e_ws E) as [w|] eqn:Hw; [|inv H; auto]. destruct (0 <? c_tb c); [inv H; auto|].
      binv H. inv H. eapply Hrec; eauto. now rewrite Hw.
    Qed.
    Lemma k_then E pos n vs c r vs' c' : e_recog E = false -> quiet_ws (e_g E) (e_ws E) = true ->
      then_skip E rec pos n vs c = Ok (r, vs', c') -> keep vs vs'.
    Proof. intros HE Hq H. unfold then_skip in H. binv H. inv H. eapply k_skip; eauto. Qed.
    Lemma k_lit E lit ic pos vs c r vs' c' : e_recog E = false -> quiet_ws (e_g E) (e_ws E) = true ->
      parse_literal E rec lit ic pos vs c = Ok (r, vs', c') -> keep vs vs'.
    Proof. intros HE Hq H. unfold parse_literal in H. binv H. destruct a; [|inv H; auto]. binv H. destruct a; [|inv H; auto]. eapply k_then; eauto. Qed.
    Lemma k_seq E l : e_recog E = false -> quiet_ws (e_g E) (e_ws E) = true -> forallb (quiet (e_g E)) l = true ->
      forall pos i vs c r vs' c', seq_loop E rec l pos i vs c = Ok (r, vs', c') -> keep vs vs'.
    Proof.
      intros HE Hq. induction l as [|o l IH]; cbn [seq_loop forallb]; intros Hl pos i vs c r vs' c' H; [inv H; auto|].
      apply andb_prop in Hl as [Ho Hl]. binv H. apply Hrec in Hm; auto. destruct r0; [|inv H; auto]. eapply keep_trans; eauto.
    Qed.
    Lemma k_min E e m : e_recog E = false -> quiet_ws (e_g E) (e_ws E) = true -> quiet (e_g E) e = true ->
      forall pos i vs c r vs' c', rep_min E rec e m pos i vs c = Ok (r, vs', c') -> keep vs vs'.
    Proof.
      intros HE Hq He. induction m as [|m IH]; cbn [rep_min]; intros pos i vs c r vs' c' H; [inv H; auto|].
      binv H. apply Hrec in Hm; auto. destruct r0; [|inv H; auto]. eapply keep_trans; eauto.
    Qed.
    Lemma k_more E e fuel : e_recog E = false -> quiet_ws (e_g E) (e_ws E) = true -> quiet (e_g E) e = true ->
      forall room pos i vs c r vs' c', rep_more fuel E rec e room pos i vs c = Ok (r, vs', c') -> keep vs vs'.
    Proof.
      intros HE Hq He. induction fuel as [|fuel IH]; cbn [rep_more]; intros room pos i vs c r vs' c' H.
      - destruct room as [[|]|]; [inv H; auto|discriminate..].
      - assert (Hx : (let* (r, vs', c') := rec E e (pos + i) vs c in
          match r with None => Ok (Some i, rollback_vs vs vs', rollback_c c c')
          | Some len => rep_more fuel E rec e (option_map pred room) pos (i + len) vs' c' end) = Ok (r, vs', c') -> keep vs vs').
        { clear H. intros H. binv H. apply Hrec in Hm; auto. destruct r0; [eapply keep_trans; eauto|inv H; split; reflexivity]. }
        destruct room as [[|]|]; [inv H; auto|auto..].
    Qed.
    Lemma k_hld fuel E r pos vs c len vs' c' : e_recog E = false -> quiet (e_g E) (Hld r) = true ->
      parse_hld fuel E rec r pos vs c = Ok (len, vs', c') -> keep vs vs'.
    Proof.
      intros HE Hq H. unfold parse_hld in H. binv H. unfold get_rule in Hm. cbn [quiet] in Hq.
      destruct (nth_error (e_g E) r) as [d|]; [|discriminate]. inv Hm. destruct (r_body a); [|discriminate].
      destruct (r_is_macro a); [discriminate|]. rewrite HE in H. cbn [andb] in H. binv H. destruct r0; inv H; [|auto].
      destruct (_ && _); split; reflexivity.
    Qed.
    Lemma k_core fuel E o pos vs c r vs' c' : e_recog E = false -> quiet_ws (e_g E) (e_ws E) = true -> quiet (e_g E) o = true ->
      parse_core fuel rec E o pos vs c = Ok (r, vs', c') -> keep vs vs'.
    Proof.
      intros HE Hq Ho H. destruct o; cbn [parse_core] in *; cbn [quiet] in Ho; try discriminate.
      - unfold parse_seq in H. destruct kg as [kw|]; [|eapply k_seq; eauto]. binv H. destruct a as [[[x y] z]|]; [|eapply k_seq; eauto]. inv H.
        unfold parse_keyword_guarded in Hm. destruct (_ <? _); [inv Hm; auto|]. binv Hm. destruct (btest _ _); [|inv Hm; auto]. binv Hm.
        assert (Hgo : forall q z, (let vs1 := if e_recog E then vs else push_tok q vs in let* r := then_skip E rec pos z vs1 c in Ok (Some r)) = Ok (Some (r, vs', c')) -> keep vs vs').
        { intros q z Hx. rewrite HE in Hx. cbv zeta in Hx. binv Hx. match type of Hx with Ok (Some ?a) = _ => destruct a as [[a1 a2] a3] end. injection Hx as <- <- <-. match goal with Ht : then_skip _ _ _ _ _ _ = _ |- _ => apply k_then in Ht; auto end. }
        destruct (_ && _); [|eapply Hgo; eauto]. destruct (existsb _ _); [inv Hm; auto|]. destruct (existsb _ _); [discriminate|eapply Hgo; eauto].
      - unfold parse_rep in H. destruct span; [binv H; destruct (_ <? _); inv H; auto|]. binv H. eapply k_min in Hm; eauto. destruct r0; [|inv H; auto].
        destruct max as [m|]; [destruct (_ <? _); [|inv H; auto]|]; eapply k_more in H; eauto; eapply keep_trans; eauto.
      - unfold parse_and in H. binv H. inv H. split; reflexivity.
      - unfold parse_not in H. binv H. destruct r0; inv H; split; reflexivity.
      - eapply k_lit; eauto.
      - unfold parse_cls, fail_at in H. destruct (_ =? 0); [inv H; auto|]. binv H. binv H. destruct (xorb _ _); inv H; auto.
      - unfold parse_chr, fail_at in H. destruct (_ =? 0); [inv H; auto|]. binv H. destruct (_ =? _)%N; inv H; auto.
      - unfold parse_dot, fail_at in H. binv H. destruct (_ <? _); inv H; auto.
      - unfold parse_csc in H. binv H. inv H. eapply Hrec; eauto.
      - unfold parse_cap in H. binv H. apply Hrec in Hm; auto. destruct r0; inv H; auto.
      - unfold parse_tok in H. cbv zeta in H. binv H. apply Hrec in Hm; auto. destruct r0; [|inv H; auto]. rewrite HE in H. binv H. inv H.
        apply k_then in Hm0; auto. eapply keep_trans; eauto.
      - unfold parse_ign in H. binv H. inv H. auto.
      - eapply Hrec; eauto. exact Ho.
      - eapply k_hld; eauto.
      - unfold parse_ref in H. destruct rule as [r0|]; [|discriminate].
        assert (Hd : forall c r vs' c', parse_dispatch E rec (Some r0) iarg args pos vs c = Ok (r, vs', c') -> keep vs vs').
        { clear H. intros c0 r1 vs1 c1 H. unfold parse_dispatch in H. binv H. unfold get_rule in Hm. pose proof Ho as Ho'.
          destruct (nth_error (e_g E) r0) as [d|] eqn:Hd; [|discriminate]. inv Hm. apply negb_true_iff in Ho. rewrite Ho in H.
          assert (Hh : quiet (e_g E) (Hld r0) = true) by (cbn [quiet]; now rewrite Hd).
          destruct (_ && _); [eapply Hrec; eauto|]. binv H. inv H. eapply Hrec; eauto. }
        destruct (e_tracer E); [|eauto]. cbv zeta in H. binv H. inv H. eauto.
      - unfold parse_wsp in H. destruct (c_inws c); [inv H; auto|]. binv H. inv H. eapply Hrec; eauto.
      - unfold parse_bkr in H. destruct (last_capture _ _); [eapply k_lit; eauto|inv H; auto].
      - unfold parse_rcv in H. destruct o; try discriminate. cbv zeta in H. binv H. binv H. binv H. inv H. auto.
      - inv H. auto.
    Qed.
  End Ops.
  Lemma parse_keep fuel : rec_keep (parse fuel).
  Proof.
    induction fuel as [|fuel IH]; intros E o pos vs c r vs' c' HE Hq Ho H; cbn [parse] in H; [discriminate|].
    unfold traced in H. destruct (is_traceable E o c).
    - binv H. inv H. eapply k_core in Hm; eauto.
    - eapply k_core in H; eauto.
  Qed.

  (** A choice and a dictionary set the numbers. *)
  Lemma cho_sets rec E fs total l : forall id pos vs c n vs' c', cho_loop E rec fs total l id pos vs c = Ok (Some n, vs', c') ->
    v_cc vs' = total /\ id <= v_ch vs' < id + List.length l.
  Proof.
    induction l as [|o l IH]; cbn [cho_loop]; intros id pos vs c n vs' c' H; [discriminate|]. binv H. destruct a.
    - apply IH in H. cbn [List.length]. intuition lia.
    - cbv zeta in H. binv H. destruct r.
      + inv H. cbn. lia.
      + destruct (_ && _); [discriminate|]. apply IH in H. cbn [List.length]. intuition lia.
  Qed.
  Definition late (o : ope) : bool := match o with Dic _ => true | Tok e => is_choice_like e | _ => false end.
  Definition sets (o : ope) vs' : Prop :=
    let e := match o with Tok e => e | _ => o end in is_choice_like e = true -> picked e (v_cc vs') (v_ch vs').
  Definition rec_sets (rec : rec_t) : Prop := forall E o pos vs c n vs' c', e_recog E = false -> (late o = true -> quiet_ws (e_g E) (e_ws E) = true) ->
    rec E o pos vs c = Ok (Some n, vs', c') -> sets o vs'.
  Lemma core_sets fuel rec E o pos vs c n vs' c' : rec_keep rec -> rec_sets rec -> e_recog E = false -> (late o = true -> quiet_ws (e_g E) (e_ws E) = true) ->
    parse_core fuel rec E o pos vs c = Ok (Some n, vs', c') -> sets o vs'.
  Proof.
    intros Hr Hs HE Hq H. destruct o; try (intros Hx; discriminate Hx); cbn [parse_core] in H.
    - intros _. unfold parse_cho in H. cbv zeta in H. binv H. inv H. apply cho_sets in Hm. cbn. lia.
    - intros _. unfold parse_dic, fail_at in H. destruct (trie_match _ _) as [i id]. destruct (_ =? 0); [discriminate|]. cbv zeta in H. binv H.
      destruct a; [|discriminate]. apply (k_then rec Hr) in H; auto. destruct H as [H _]. cbn [picked]. rewrite H. reflexivity.
    - unfold parse_tok in H. cbv zeta in H. binv H. destruct r as [k1|]; [|discriminate]. rewrite HE in H. binv H. inversion H; subst; clear H.
      intros Hx. cbn [late] in Hq. assert (Hse : sets o v). { eapply Hs; eauto. }
      assert (Hw : quiet_ws (e_g E) (e_ws E) = true) by auto. apply (k_then rec Hr) in Hm0; auto. destruct Hm0 as [H1 H2]. rewrite H1, H2.
      destruct o; try discriminate Hx; exact (Hse Hx).
  Qed.
  Lemma parse_sets fuel : rec_sets (parse fuel).
  Proof.
    induction fuel as [|fuel IH]; intros E o pos vs c n vs' c' HE Hq H; cbn [parse] in H; [discriminate|]. unfold traced in H. destruct (is_traceable E o c).
    - binv H. inversion H; subst; clear H. eapply core_sets; eauto using parse_keep.
    - eapply core_sets; eauto using parse_keep.
  Qed.

  (** So does the body of a rule. *)
  Lemma body_told rec E r d body pos c n vs' c' q : rec_keep rec -> rec_sets rec ->
    e_recog E = false -> r_body d = Some body ->
    parse_ope_body E rec r d body pos sv_new c = Ok (Some n, vs', c') ->
    let inner := match body with Tok e => e | _ => body end in
    let vs1 := set_name (Some r) (set_span q vs') in
    let vs2 := if is_choice_like inner then vs1 else set_choice 0 0 vs1 in
    told (e_g E) (e_ws E) d (v_cc vs2) (v_ch vs2).
  Proof.
    intros Hr Hs HE Hb H inner vs1 vs2.
    assert (Hset : (late body = true -> quiet_ws (e_g E) (e_ws E) = true) -> (is_choice_like inner = true -> r_no_whitespace d = true -> quiet_ws (e_g E) (e_ws E) = true) -> sets body vs').
    { intros Hl Hn Hi. unfold parse_ope_body in H. cbv zeta in H. binv H. inversion H; subst; clear H. destruct (r_no_whitespace d) eqn:Hw.
      - binv Hm. destruct r0; [|discriminate]. apply (k_then rec Hr) in Hm; auto. destruct Hm as [H1 H2]. rewrite H1, H2.
        apply Hs in Hm0; auto.
      - apply Hs in Hm; auto. }
    assert (Hfin : (is_choice_like inner = true -> sets body vs') -> picked inner (v_cc vs2) (v_ch vs2)).
    { intros Hx. subst vs2 vs1. destruct (is_choice_like inner) eqn:Hi.
      - exact (Hx eq_refl Hi).
      - destruct inner; try discriminate Hi; cbn; auto. }
    unfold told. rewrite Hb.
    destruct body; auto; intros Hq; apply Hfin; intros Hi; apply Hset; cbn [late]; auto; try discriminate.
  Qed.

  (** The number reported is that of the alternative that matched. *)
  Lemma cho_loop_taken rec E fs total l : forall id pos vs c n vs' c', cho_loop E rec fs total l id pos vs c = Ok (Some n, vs', c') ->
    exists o vs1 c1 vs2 c2, nth_error l (v_ch vs' - id) = Some o /\ rec E o pos vs1 c1 = Ok (Some n, vs2, c2)
      /\ v_vals vs' = v_vals vs2 /\ v_toks vs' = v_toks vs2.
  Proof.
    induction l as [|o l IH]; cbn [cho_loop]; intros id pos vs c n vs' c' H; [discriminate|]. pose proof H as H0. binv H.
    assert (Hnext : forall vs c, cho_loop E rec fs total l (S id) pos vs c = Ok (Some n, vs', c') ->
      exists o' vs1 c1 vs2 c2, nth_error (o :: l) (v_ch vs' - id) = Some o' /\ rec E o' pos vs1 c1 = Ok (Some n, vs2, c2)
      /\ v_vals vs' = v_vals vs2 /\ v_toks vs' = v_toks vs2).
    { intros vs0 c0 Hl. pose proof (cho_sets _ _ _ _ _ _ _ _ _ _ _ _ Hl) as (_ & Hge & _). apply IH in Hl.
      replace (v_ch vs' - id) with (S (v_ch vs' - S id)) by lia. exact Hl. }
    destruct a; [eauto|]. cbv zeta in H. binv H. destruct r as [m|].
    - injection H as <- <- <-. cbn [v_ch set_choice]. rewrite Nat.sub_diag. cbn [nth_error].
      do 5 eexists. split; [reflexivity|]. split; [eassumption|]. split; reflexivity.
    - destruct (_ && _); [discriminate|]. eauto.
  Qed.
  Lemma cho_taken fuel E fl fs l pos vs c n vs' c' : e_tracer E = false ->
    parse (S fuel) E (Cho fl fs l) pos vs c = Ok (Some n, vs', c') ->
    v_cc vs' = List.length l /\ exists o vs1 c1 vs2 c2, nth_error l (v_ch vs') = Some o
      /\ parse fuel E o pos vs1 c1 = Ok (Some n, vs2, c2) /\ v_vals vs' = v_vals vs2 /\ v_toks vs' = v_toks vs2.
  Proof.
    intros Ht H. cbn [parse] in H. unfold traced, is_traceable in H. rewrite Ht in H. cbn [andb parse_core] in H.
    unfold parse_cho in H. cbv zeta in H. binv H. inversion H; subst; clear H.
    pose proof (cho_sets _ _ _ _ _ _ _ _ _ _ _ _ Hm) as (Hc & _). split; [exact Hc|].
    apply cho_loop_taken in Hm. rewrite Nat.sub_0_r in Hm. exact Hm.
  Qed.
End Choice.
