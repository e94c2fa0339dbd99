(** * Left calls and repetitions of the textbook PEG an ordinary grammar denotes
    (C33, C45). *)
From Verif Require Import Base BaseLemmas Utf8 Utf8Spec Escape TrieM LineInfo Ope Ctx ErrLog Engine EngineLemmas Top Scope RefSem FirstSetM FirstSpec FirstSetup FirstTop
  PackratFilter PrecSpec PrecM LoadM LoadSpec LoadRefs DicDen PegDen LoadPeg LoadLoop LoadLR LoadMain.
From Verif Require PegSpec PegFacts.

Section Wf.
  Variable g : grammar.
  Variable wr : option rid.
  Hypothesis Hg : ordinary_grammar g.
  Hypothesis Hlink : forall d b, In d g -> r_is_macro d = false -> r_body d = Some b -> named_refs g b.
  Hypothesis Hwp : forall w, wr = Some w -> plain_rule g w.
  Notation ws := (ws_expr g wr).
  Notation G := (peg_of g ws).
  Import PegSpec PegFacts.

  Definition nt_ws (n : nt) : bool := match n with NRule _ m | NSkip m => m_ws m | _ => false end.
  Definition nt_plain (n : nt) : Prop := match n with NRule r _ => plain_rule g r | _ => True end.
  Lemma in_range d b : In d g -> r_is_macro d = false -> r_body d = Some b ->
    forall x, inside [] b x -> forall n r ia mac args, x = Ref n (Some r) ia mac args -> r < List.length g.
  Proof.
    intros Hd Hpl Hb x Hx n r ia mac args ->. destruct (Hlink d b Hd Hpl Hb n r ia mac args Hx) as (d' & Hd' & _).
    apply nth_error_Some. congruence.
  Qed.
  Lemma rule_step r m n : plain_rule g r -> (forall d, nth_error g r = Some d -> r_lr d = false) -> left_call G (G (NRule r m)) n ->
    (exists r' m', n = NRule r' m' /\ m_ws m' = m_ws m /\ first_call g r r') \/ (exists m', n = NSkip m' /\ m_ws m' = m_ws m)
    \/ (n = NBad /\ nth_error g r = None) \/ (exists t, n = NDic t).
  Proof.
    intros Hpr Hl H. cbn [peg_of] in H. destruct (nth_error g r) as [d|] eqn:Hd; [|right; right; left; cbn in H; auto].
    pose proof (Hpr d Hd) as Hm. pose proof (Hg d (nth_error_In _ _ Hd) Hm) as Ho. destruct (r_body d) as [b|] eqn:Hb; [|destruct Ho].
    rewrite Hm, (Hl d eq_refl) in H. cbn [orb] in H.
    assert (Hden : forall m0, m_ws m0 = m_ws m -> left_call G (den g ws (r_params d, []) m0 b) n ->
      (exists r' m', n = NRule r' m' /\ m_ws m' = m_ws m /\ first_call g r r') \/ (exists m', n = NSkip m' /\ m_ws m' = m_ws m) \/ (n = NBad /\ Some d = None) \/ (exists t, n = NDic t)).
    { intros m0 Hm0 Hc. destruct (den_left g ws Hg b Ho (in_range d b (nth_error_In _ _ Hd) Hm Hb) _ _ _ Hc) as [(r' & m' & A & B & C)|[(m' & A & B)|A]].
      - left. exists r', m'. split; [exact A|]. split; [congruence|]. exists d, b. auto.
      - right; left. exists m'. split; [exact A|congruence].
      - right; right; right. exact A. }
    destruct (r_no_whitespace d); [|now apply (Hden m)].
    cbn in H. destruct H as [H|[_ <-]]; [|right; left; eauto]. apply (Hden _ (inside_token_ws ws m) H).
  Qed.
  Lemma skip_step m n : left_call G (G (NSkip m)) n ->
    m_ws m = false /\ ((exists r' m', n = NRule r' m' /\ m_ws m' = true /\ plain_rule g r') \/ (exists m', n = NSkip m' /\ m_ws m' = true) \/ (exists t, n = NDic t)).
  Proof.
    cbn [peg_of]. destruct wr as [w|] eqn:Ew; cbn [ws_expr]; [|intros []]. destruct (nth_error g w) as [d|] eqn:Hd; [|intros []].
    destruct (r_body d) as [b|] eqn:Hb; [|intros []]. destruct (m_tok m); [intros []|]. cbn [den]. destruct (m_ws m); [intros []|].
    intros H. split; [reflexivity|]. pose proof (Hwp w eq_refl d Hd) as Hm. pose proof (Hg d (nth_error_In _ _ Hd) Hm) as Ho. rewrite Hb in Ho.
    destruct (den_left g _ Hg b Ho (in_range d b (nth_error_In _ _ Hd) Hm Hb) _ _ _ H) as [(r' & m' & A & B & C)|[(m' & A & B)|A]]; [cbn in B..|]; eauto 6.
    left. exists r', m'. split; [exact A|]. split; [exact B|]. eapply first_plain; eauto.
  Qed.

  (** Nonterminal [n'] can be called, directly or indirectly, before [n] consumes. *)
  Hypothesis Hlr : forall d, In d g -> r_lr d = false.
  Lemma lr_off r d : nth_error g r = Some d -> r_lr d = false.
  Proof. intros H. apply Hlr. eapply nth_error_In; eauto. Qed.
  Lemma first_left r r' : first_call g r r' -> left_reaches g r r'.
  Proof. intros (d & b & A & B & C). econstructor; eauto. Qed.
  Lemma left_plain r r' : left_reaches g r r' -> plain_rule g r -> plain_rule g r'.
  Proof. induction 1 as [r r' d b A B C|]; auto. intros Hp. eapply first_call_plain; [exact Hg| |exact Hp]. exists d, b. auto. Qed.
  Lemma path r m n : plain_rule g r -> calls_left G (NRule r m) n ->
    (exists r' m', n = NRule r' m' /\ m_ws m' = m_ws m /\ left_reaches g r r') \/ (exists m', n = NSkip m' /\ m_ws m' = m_ws m)
    \/ (m_ws m = false /\ nt_ws n = true /\ nt_plain n) \/ n = NBad \/ (exists t, n = NDic t).
  Proof.
    intros Hpr H. remember (NRule r m) as n0 eqn:E. revert E. induction H as [n n' H|n n1 n2 H IH H']; intros ->.
    - destruct (rule_step r m n' Hpr (lr_off r) H) as [(r' & m' & A & B & C)|[(m' & A & B)|[[A _]|A]]].
      + left. exists r', m'. split; [exact A|]. split; [exact B|now apply first_left].
      + right; left; eauto.
      + tauto.
      + tauto.
    - destruct (IH eq_refl) as [(r1 & m1 & -> & B & C)|[(m1 & -> & B)|[(B & C & D)|[-> | [t ->]]]]].
      + destruct (rule_step r1 m1 n2 (left_plain _ _ C Hpr) (lr_off r1) H') as [(r' & m' & A' & B' & C')|[(m' & A' & B')|[[A' _]|A']]]; [left|right; left|tauto|tauto].
        * exists r', m'. split; [exact A'|]. split; [congruence|]. eapply lr_more; [exact C|now apply first_left].
        * exists m'. split; [exact A'|congruence].
      + apply skip_step in H' as [A' [(r' & m' & -> & D & D')|[(m' & -> & D)|D]]]; [right; right; left; (split; [congruence|split; [exact D|]])..|tauto]; [exact D'|exact I].
      + destruct n1 as [r1 m1| | |m1|td|]; cbn in C; try discriminate.
        * destruct (rule_step r1 m1 n2 D (lr_off r1) H') as [(r' & m' & -> & B' & C')|[(m' & -> & B')|[[A' _]|A']]]; [right; right; left|right; right; left|tauto|tauto];
            (split; [exact B|]; split; [cbn; congruence|]); cbn; [eapply first_call_plain; eauto|exact I].
        * apply skip_step in H' as [A' _]. congruence.
      + right; right; right; left. cbn in H'. congruence.
      + destruct (dic_no_left g ws t n2 H').
  Qed.
  Theorem left_cycle r m : plain_rule g r -> calls_left G (NRule r m) (NRule r m) -> left_reaches g r r.
  Proof.
    intros Hpr H. destruct (path r m _ Hpr H) as [(r' & m' & A & B & C)|[(m' & A & B)|[(A & B & _)|[A|[t A]]]]]; try discriminate.
    - injection A as <- <-. exact C.
    - cbn in B. congruence.
  Qed.

  (** ** Well-formed PEGs *)
  Lemma cf_mentions o r : calls_first g o r -> mentions o r.
  Proof.
    assert (Hp : forall o p r, In p (parts [] o) -> mentions p r -> mentions o r) by (intros; eapply mentions_part; eauto).
    induction 1; try (eapply Hp; [left; reflexivity|assumption]).
    - eapply Hp; [|eassumption]. cbn. apply in_app_iff. right. now left.
    - eapply Hp; [|eassumption]. assumption.
    - exists n, ia, mac, args. constructor.
  Qed.
  (** The rules that matter: those reached from somewhere. *)
  Variable Rr : rid -> Prop.
  Hypothesis Rin : forall r, Rr r -> r < List.length g.
  Hypothesis Rcl : forall r r', Rr r -> calls g r r' -> Rr r'.
  Hypothesis Rws : forall w, wr = Some w -> Rr w.
  Hypothesis Rpl : forall r, Rr r -> plain_rule g r.
  Hypothesis Hacc : forall r, Rr r -> Acc (fun r' r => first_call g r r') r.
  Hypothesis Hloop : forall r d b e mn sp, Rr r -> nth_error g r = Some d -> r_body d = Some b -> inside [] b (Rep e mn None sp) -> ~ may_be_empty g e.
  Hypothesis Hlit : forall r d b x w, Rr r -> nth_error g r = Some d -> r_body d = Some b -> inside [] b x -> word_of x w -> valid_utf8 w.

  Definition Rn (n : nt) : Prop := match n with NRule r _ => Rr r | NSkip _ => True | NDic t => forall w, In w (dic_words t) -> valid_utf8 w | _ => False end.
  Notation lstep := (fun n' n => left_call G (G n) n').
  Lemma fc_R r r' : Rr r -> first_call g r r' -> Rr r'.
  Proof. intros H (d & b & A & B & C). apply (Rcl r); [exact H|]. exists d, b. split; [exact A|]. split; [exact B|now apply cf_mentions]. Qed.
  Lemma acc_skip1 m : m_ws m = true -> Acc lstep (NSkip m).
  Proof. intros H. constructor. intros n Hn. apply skip_step in Hn as [A _]. congruence. Qed.
  Lemma not_out r : Rr r -> nth_error g r = None -> False.
  Proof. intros H E. apply nth_error_None in E. specialize (Rin r H). lia. Qed.
  Lemma acc_dic t : Acc lstep (NDic t).
  Proof. constructor. intros n Hn. destruct (dic_no_left g ws t n Hn). Qed.
  Lemma acc_rules b : (forall m, m_ws m = b -> Acc lstep (NSkip m)) -> forall r, Rr r -> forall m, m_ws m = b -> Acc lstep (NRule r m).
  Proof.
    intros Hs r HR. induction (Hacc r HR) as [r _ IH]. intros m Hm. constructor. intros n Hn.
    destruct (rule_step r m n (Rpl r HR) (lr_off r) Hn) as [(r' & m' & -> & B & C)|[(m' & -> & B)|[[_ A]|[t ->]]]].
    - apply IH; [exact C|eapply fc_R; eauto|congruence].
    - apply Hs. congruence.
    - destruct (not_out r HR A).
    - apply acc_dic.
  Qed.
  Lemma skip_R m n : left_call G (G (NSkip m)) n -> Rn n \/ exists t, n = NDic t.
  Proof.
    cbn [peg_of]. destruct wr as [w|] eqn:Ew; cbn [ws_expr]; [|intros []]. destruct (nth_error g w) as [d|] eqn:Hd; [|intros []].
    destruct (r_body d) as [b|] eqn:Hb; [|intros []]. destruct (m_tok m); [intros []|]. cbn [den]. destruct (m_ws m); [intros []|].
    intros H. pose proof (Hwp w eq_refl d Hd) as Hm. pose proof (Hg d (nth_error_In _ _ Hd) Hm) as Ho. rewrite Hb in Ho.
    destruct (den_left g _ Hg b Ho (in_range d b (nth_error_In _ _ Hd) Hm Hb) _ _ _ H) as [(r' & m' & -> & B & C)|[(m' & -> & B)|A]]; cbn; [|left; exact I|right; exact A].
    left. apply (fc_R w); [now apply Rws|]. exists d, b. auto.
  Qed.
  Lemma acc_skip m : Acc lstep (NSkip m).
  Proof.
    destruct (m_ws m) eqn:Hm; [now apply acc_skip1|]. constructor. intros n Hn. destruct (skip_R m n Hn) as [HR|[t ->]]; [|apply acc_dic].
    apply skip_step in Hn as [_ [(r' & m' & -> & D & _)|[(m' & -> & D)|[t ->]]]]; [|now apply acc_skip1|apply acc_dic].
    apply (acc_rules true acc_skip1); assumption.
  Qed.
  Lemma acc_all n : Rn n -> Acc lstep n.
  Proof.
    destruct n as [r m| | |m|td|]; intros H; [|destruct H|destruct H|apply acc_skip|apply acc_dic|destruct H]. apply (acc_rules (m_ws m)); [intros; apply acc_skip|exact H|reflexivity].
  Qed.

  Lemma wf_seqs l : Forall (well_formed_exp G Rn) l -> well_formed_exp G Rn (PSeqs l).
  Proof. induction 1; cbn; auto. Qed.
  Lemma wf_alts l : Forall (well_formed_exp G Rn) l -> well_formed_exp G Rn (PAlts l).
  Proof. induction 1; cbn; auto. Qed.
  Lemma wf_times n a : well_formed_exp G Rn a -> well_formed_exp G Rn (PTimes n a).
  Proof. induction n; cbn; auto. Qed.
  Lemma wf_upto n a : well_formed_exp G Rn a -> well_formed_exp G Rn (PUpTo n a).
  Proof. induction n; cbn; auto. Qed.
  Lemma wf_repeat mn mx a : well_formed_exp G Rn a -> (mx = None -> ~ PegSpec.can_be_empty G a) -> well_formed_exp G Rn (PRepeat mn mx a).
  Proof.
    intros H Hn. unfold PRepeat. destruct mx as [x|]; [destruct (mn <? x)|]; cbn; auto using wf_times, wf_upto.
  Qed.
  Lemma wf_den o : ordinary g o = true ->
    (forall e mn sp, inside [] o (Rep e mn None sp) -> ~ may_be_empty g e) -> (forall x w, inside [] o x -> word_of x w -> valid_utf8 w) ->
    (forall r, mentions o r -> Rr r) -> forall fr m, well_formed_exp G Rn (den g ws fr m o).
  Proof.
    assert (Hp : forall o p, In p (parts [] o) ->
      (forall e mn sp, inside [] o (Rep e mn None sp) -> ~ may_be_empty g e) -> (forall x w, inside [] o x -> word_of x w -> valid_utf8 w) -> (forall r, mentions o r -> Rr r) ->
      (forall e mn sp, inside [] p (Rep e mn None sp) -> ~ may_be_empty g e) /\ (forall x w, inside [] p x -> word_of x w -> valid_utf8 w) /\ (forall r, mentions p r -> Rr r)).
    { intros o0 p Hin A B C. split; [|split].
      - intros e mn sp H. apply (A e mn sp). eapply inside_part; eauto.
      - intros x w H. apply (B x w). eapply inside_part; eauto.
      - intros r H. apply C. eapply mentions_part; eauto. }
    induction o using ope_ind'; cbn [ordinary den]; intros Ho A B C fr mo; try discriminate; try exact I;
      try (match type of C with forall r, mentions ?q r -> _ => destruct (Hp q o (or_introl eq_refl) A B C) as (A' & B' & C') end; cbn; now apply IHo).
    - apply andb_prop in Ho as [_ Ho]. rewrite forallb_forall in Ho. rewrite Forall_forall in H. apply wf_seqs, Forall_map, Forall_forall. intros x Hx.
      destruct (Hp (Seq kg l) x Hx A B C) as (A' & B' & C'). apply H; auto.
    - apply andb_prop in Ho as [_ Ho]. rewrite forallb_forall in Ho. rewrite Forall_forall in H. apply wf_alts, Forall_map, Forall_forall. intros x Hx.
      destruct (Hp (Cho fl fs l) x Hx A B C) as (A' & B' & C'). apply H; auto.
    - destruct (Hp (Rep o mn mx sp) o (or_introl eq_refl) A B C) as (A' & B' & C'). apply wf_repeat; [now apply IHo|]. intros -> He.
      apply (A o mn sp (inside_self _ _)). eapply means_empty; eauto.
    - cbn. split; [|exact I]. intros w Hw. exact (B (Dic t) w (inside_self _ _) Hw).
    - cbn. split; [|exact I]. exact (B (Lit s ic) s (inside_self _ _) eq_refl).
    - destruct ic; [discriminate|exact I].
    - destruct (Hp (Tok o) o (or_introl eq_refl) A B C) as (A' & B' & C'). cbn. split; [now apply IHo|exact I].
    - destruct rl as [r|]; [|discriminate]. destruct m; [discriminate|]. destruct args; [|discriminate].
      assert (HR : Rr r) by (apply C; exists n, ia, false, []; constructor).
      destruct (nth_error g r) as [d|] eqn:Hd; [|destruct (not_out r HR Hd)]. rewrite (Rpl r HR d Hd). exact HR.
  Qed.
  Lemma wf_body r d b : Rr r -> nth_error g r = Some d -> r_body d = Some b -> forall fr m, well_formed_exp G Rn (den g ws fr m b).
  Proof.
    intros HR Hd Hb. pose proof (Hg d (nth_error_In _ _ Hd) (Rpl r HR d Hd)) as Ho. rewrite Hb in Ho. apply wf_den; [exact Ho|..].
    - intros e mn sp. eapply Hloop; eauto.
    - intros x w. eapply Hlit; eauto.
    - intros r' Hm. apply (Rcl r); [exact HR|]. exists d, b. auto.
  Qed.
  Lemma skip_body m : G (NSkip m) = PEps \/ exists w d b mo, wr = Some w /\ nth_error g w = Some d /\ r_body d = Some b /\ G (NSkip m) = den g ws ([], []) mo b.
  Proof.
    cbn [peg_of]. destruct ws as [e|] eqn:E; [|auto]. unfold ws_expr in E. destruct wr as [w|]; [|discriminate]. destruct (nth_error g w) as [d|] eqn:Hd; [|discriminate].
    destruct (r_body d) as [b|] eqn:Hb; [|discriminate]. injection E as <-. destruct (m_tok m); [auto|]. cbn [den]. destruct (m_ws m); [auto|].
    right. eexists _, _, _, _. split; [reflexivity|]. split; [exact Hd|]. split; [exact Hb|reflexivity].
  Qed.
  Theorem wf_peg : well_formed G Rn.
  Proof.
    intros n HR. split; [|now apply acc_all]. destruct n as [r m| | |m|td|]; [|destruct HR|destruct HR| | |destruct HR]; cbn [peg_of].
    - destruct (nth_error g r) as [d|] eqn:Hd; [|destruct (not_out r HR Hd)].
      pose proof (Rpl r HR d Hd) as Hm. pose proof (Hg d (nth_error_In _ _ Hd) Hm) as Ho. destruct (r_body d) as [b|] eqn:Hb; [|destruct Ho].
      rewrite Hm, (lr_off r d Hd). cbn [orb]. destruct (r_no_whitespace d); [cbn; split; [|exact I]|]; eapply wf_body; eauto.
    - change (well_formed_exp G Rn (G (NSkip m))). destruct (skip_body m) as [-> | (w & d & b & mo & Hw & Hd & Hb & ->)]; [exact I|].
      eapply (wf_body w d b); eauto.
    - apply wf_alts, Forall_map, Forall_forall. intros w Hw. cbn. auto.
  Qed.
End Wf.
