(** * Which expressions can match the empty text, and which rules are called first:
    the static notions against the meaning of the grammar (C32, C33, C45). *)
From Verif Require Import Base BaseLemmas Utf8 Escape TrieM LineInfo Ope Ctx ErrLog Engine EngineLemmas Top Scope RefSem FirstSetM FirstSpec
  PackratFilter PrecSpec PrecM LoadM LoadSpec LoadRefs DicDen PegDen.
From Verif Require PegSpec PegFacts.

Lemma rule_body_ext g g' r d b : map r_body g = map r_body g' -> rule_body g r d b -> exists d', rule_body g' r d' b.
Proof.
  intros E [H1 H2]. assert (H : nth_error (map r_body g') r = Some (Some b)) by (rewrite <- E, nth_error_map, H1; cbn; congruence).
  rewrite nth_error_map in H. destruct (nth_error g' r) as [d'|] eqn:Hd; [|discriminate]. exists d'. split; [exact Hd|]. now inv H.
Qed.
Section MeInd.
  Variable g : grammar.
  Variable P : ope -> Prop.
  Hypotheses (Hseq : forall kg l, Forall (may_be_empty g) l -> Forall P l -> P (Seq kg l))
    (Hcho : forall fl fs l o, In o l -> may_be_empty g o -> P o -> P (Cho fl fs l))
    (Hrep0 : forall e mx sp, P (Rep e 0 mx sp)) (Hrep : forall e mn mx sp, may_be_empty g e -> P e -> P (Rep e mn mx sp))
    (Hand : forall e, P (And e)) (Hnot : forall e, P (Not e)) (Hcut : P Cut) (Hlit : forall ic, P (Lit [] ic))
    (Hcsc : forall e, P e -> P (Csc e)) (Hcap : forall n e, P e -> P (Cap n e)) (Htok : forall e, P e -> P (Tok e))
    (Hign : forall e, P e -> P (Ign e)) (Hwsp : forall e, P e -> P (Wsp e)) (Hrcv : forall e, P e -> P (Rcv e))
    (Hpre : forall a b i r, P a -> P (Pre a b i r))
    (Hwkh : forall r d b, rule_body g r d b -> may_be_empty g b -> P b -> P (Wkh r))
    (Hhld : forall r d b, rule_body g r d b -> may_be_empty g b -> P b -> P (Hld r))
    (Href : forall nm r ia m args d b, rule_body g r d b -> may_be_empty g b -> P b -> P (Ref nm (Some r) ia m args)).
  Fixpoint me_ind' (o : ope) (H : may_be_empty g o) : P o :=
    let fix all (l : list ope) (F : Forall (may_be_empty g) l) : Forall P l :=
      match F with Forall_nil _ => Forall_nil P | Forall_cons x Hx F' => Forall_cons x (me_ind' x Hx) (all _ F') end in
    match H with
    | me_seq _ kg l F => Hseq kg l F (all l F)
    | me_cho _ fl fs l o Hi Ho => Hcho fl fs l o Hi Ho (me_ind' o Ho)
    | me_rep0 _ e mx sp => Hrep0 e mx sp
    | me_rep _ e mn mx sp He => Hrep e mn mx sp He (me_ind' e He)
    | me_and _ e => Hand e
    | me_not _ e => Hnot e
    | me_cut _ => Hcut
    | me_lit _ ic => Hlit ic
    | me_csc _ e He => Hcsc e (me_ind' e He)
    | me_cap _ n e He => Hcap n e (me_ind' e He)
    | me_tok _ e He => Htok e (me_ind' e He)
    | me_ign _ e He => Hign e (me_ind' e He)
    | me_wsp _ e He => Hwsp e (me_ind' e He)
    | me_rcv _ e He => Hrcv e (me_ind' e He)
    | me_pre _ a b i r Ha => Hpre a b i r (me_ind' a Ha)
    | me_wkh _ r d b Hr Hb => Hwkh r d b Hr Hb (me_ind' b Hb)
    | me_hld _ r d b Hr Hb => Hhld r d b Hr Hb (me_ind' b Hb)
    | me_ref _ nm r ia m args d b Hr Hb => Href nm r ia m args d b Hr Hb (me_ind' b Hb)
    end.
End MeInd.
Lemma me_ext g g' o : map r_body g = map r_body g' -> may_be_empty g o -> may_be_empty g' o.
Proof.
  intros E H. induction H using me_ind'; try (econstructor; eassumption).
  - destruct (rule_body_ext _ _ _ _ _ E H) as [d' Hd]. econstructor; eauto.
  - destruct (rule_body_ext _ _ _ _ _ E H) as [d' Hd]. econstructor; eauto.
  - destruct (rule_body_ext _ _ _ _ _ E H) as [d' Hd]. econstructor; eauto.
Qed.

(** ** Stages of emptiness *)
Section Stage.
  Variable g : grammar.
  Fixpoint nlb (ok : rid -> bool) (o : ope) : bool :=
    match o with
    | Seq _ l => forallb (nlb ok) l
    | Cho _ _ l => existsb (nlb ok) l
    | Rep e mn _ _ => (mn =? 0) || nlb ok e
    | And _ | Not _ | Cut => true
    | Lit s _ => match s with [] => true | _ => false end
    | Csc e | Cap _ e | Tok e | Ign e | Wsp e | Rcv e => nlb ok e
    | Pre a _ _ _ => nlb ok a
    | Wkh r | Hld r | Ref _ (Some r) _ _ _ => ok r
    | _ => false
    end.
  Fixpoint stage (k : nat) (r : rid) : bool :=
    match k with
    | O => false
    | S k' => match nth_error g r with Some d => match r_body d with Some b => nlb (stage k') b | None => false end | None => false end
    end.
  Lemma nlb_mono ok ok' o : (forall r, ok r = true -> ok' r = true) -> nlb ok o = true -> nlb ok' o = true.
  Proof.
    intros H. induction o using ope_ind'; cbn [nlb]; auto.
    - rewrite !forallb_forall. rewrite Forall_forall in *. auto.
    - rewrite !existsb_exists. rewrite Forall_forall in *. intros (x & A & B). eauto.
    - rewrite !orb_true_iff. intuition.
    - destruct rl; auto.
  Qed.
  Lemma stage_mono k : forall r, stage k r = true -> stage (S k) r = true.
  Proof.
    induction k as [|k IH]; intros r H; [discriminate|]. cbn [stage] in H |- *.
    destruct (nth_error g r) as [d|]; [|discriminate]. destruct (r_body d) as [b|]; [|discriminate]. eapply nlb_mono; [|exact H]. exact IH.
  Qed.
  Lemma stage_le j k r : j <= k -> stage j r = true -> stage k r = true.
  Proof. induction 1; auto using stage_mono. Qed.
  Lemma me_stage o : may_be_empty g o -> exists k, nlb (stage k) o = true.
  Proof.
    intros H. induction H using me_ind'; cbn [nlb]; try (now exists 0); eauto.
    - enough (exists k, Forall (fun o => nlb (stage k) o = true) l) as [k Hk] by (exists k; apply forallb_forall; now apply Forall_forall).
      clear -H0. induction H0 as [|x l [k Hk] _ [j Hj]]; [exists 0; constructor|]. exists (max k j).
      constructor; [eapply nlb_mono; [|exact Hk]; intros r; apply stage_le; lia|].
      eapply Forall_impl; [|exact Hj]. intros a Ha. eapply nlb_mono; [|exact Ha]. intros r; apply stage_le; lia.
    - destruct IHmay_be_empty as [k Hk]. exists k. apply existsb_exists. eauto.
    - destruct IHmay_be_empty as [k Hk]. exists k. rewrite Hk. apply orb_true_r.
    - destruct IHmay_be_empty as [k Hk], H as [H1 H2]. exists (S k). cbn. now rewrite H1, H2.
    - destruct IHmay_be_empty as [k Hk], H as [H1 H2]. exists (S k). cbn. now rewrite H1, H2.
    - destruct IHmay_be_empty as [k Hk], H as [H1 H2]. exists (S k). cbn. now rewrite H1, H2.
  Qed.
  Lemma nlb_me ok o : (forall r, ok r = true -> exists d b, rule_body g r d b /\ may_be_empty g b) -> nlb ok o = true -> may_be_empty g o.
  Proof.
    intros Hok. induction o using ope_ind'; cbn [nlb]; intros H1; try discriminate; try (constructor; auto; fail).
    - constructor. rewrite forallb_forall in H1. rewrite Forall_forall in *. auto.
    - apply existsb_exists in H1 as (x & A & B). rewrite Forall_forall in H. econstructor; eauto.
    - apply orb_prop in H1 as [H1|H1]; [apply Nat.eqb_eq in H1 as ->; constructor|constructor 4; auto].
    - destruct s; [constructor|discriminate].
    - destruct (Hok _ H1) as (d & b & A & B). econstructor; eauto.
    - destruct (Hok _ H1) as (d & b & A & B). econstructor; eauto.
    - destruct rl as [r|]; [|discriminate]. destruct (Hok _ H1) as (d & b & A & B). econstructor; eauto.
  Qed.
  Lemma stage_me k : forall r, stage k r = true -> exists d b, rule_body g r d b /\ may_be_empty g b.
  Proof.
    induction k as [|k IH]; intros r H; [discriminate|]. cbn [stage] in H.
    destruct (nth_error g r) as [d|] eqn:Hd; [|discriminate]. destruct (r_body d) as [b|] eqn:Hb; [|discriminate].
    exists d, b. split; [split; assumption|]. eapply nlb_me; [exact IH|exact H].
  Qed.
End Stage.

(** ** The meaning of the grammar *)
(** Operators with a meaning in the textbook PEG, ordinary references only (to rules that
    are not macros). *)
Fixpoint ordinary (g : grammar) (o : ope) : bool :=
  match o with
  | Seq _ l => negb (match l with [] => true | _ => false end) && forallb (ordinary g) l
  | Cho _ _ l => negb (match l with [] => true | _ => false end) && forallb (ordinary g) l
  | Rep e _ _ _ | And e | Not e | Csc e | Cap _ e | Tok e | Ign e => ordinary g e
  | Lit _ _ | Dic _ | Cls _ _ false | Chr _ | Dot => true
  | Ref _ (Some r) _ false [] => match nth_error g r with Some d => negb (r_is_macro d) | None => true end
  | _ => false
  end.
(** Macros may be there (every grammar text brings the built-in macro %recover), but
    the other rules do not call them. *)
Definition ordinary_grammar (g : grammar) : Prop :=
  forall d, In d g -> r_is_macro d = false -> match r_body d with Some b => ordinary g b = true | None => False end.

(** Not a macro. *)
Definition plain_rule (g : grammar) (r : rid) : Prop := forall d, nth_error g r = Some d -> r_is_macro d = false.

Section Meaning.
  Variable g : grammar.
  Variable ws : option ope.
  Hypothesis Hg : ordinary_grammar g.
  Notation G := (peg_of g ws).
  Import PegSpec PegFacts.

  Definition empty_nt (n : nt) : Prop :=
    match n with NRule r _ => exists d b, rule_body g r d b /\ may_be_empty g b | NBad | NDic _ => False | _ => True end.
  Fixpoint empty_exp (e : pexp nt) : Prop :=
    match e with
    | PNot PEps => False
    | PEps | PStar _ | PNot _ => True
    | PLit _ w => w = []
    | PChr _ => False
    | PNT n => empty_nt n
    | PSeq a b => empty_exp a /\ empty_exp b
    | PAlt a b => empty_exp a \/ empty_exp b
    end.
  Lemma empty_seqs l : empty_exp (PSeqs l) <-> Forall empty_exp l.
  Proof. induction l as [|x l IH]; cbn; [intuition|]. rewrite IH, Forall_cons_iff. reflexivity. Qed.
  Lemma empty_alts l : empty_exp (PAlts l) -> exists x, In x l /\ empty_exp x.
  Proof. induction l as [|x l IH]; cbn; [intros []|]. intros [H|H]; [eauto|]. destruct (IH H) as (y & A & B). eauto. Qed.

  Lemma den_empty o : ordinary g o = true -> forall fr m, empty_exp (den g ws fr m o) -> may_be_empty g o.
  Proof.
    induction o using ope_ind'; cbn [ordinary den]; intros Ho fr mo He; try discriminate; try (constructor; eauto; fail).
    - constructor. apply andb_prop in Ho as [_ Ho]. rewrite empty_seqs in He. rewrite forallb_forall in Ho. rewrite Forall_forall in *.
      intros x Hx. eapply H; eauto. apply He. apply in_map_iff. eauto.
    - apply andb_prop in Ho as [_ Ho]. apply empty_alts in He as (x & Hx & He). apply in_map_iff in Hx as (y & <- & Hy).
      rewrite forallb_forall in Ho. rewrite Forall_forall in *. econstructor; eauto.
    - destruct mn as [|mn]; [constructor|]. constructor 4. unfold PRepeat in He. destruct mx as [x|].
      + destruct (S mn <? x); cbn in He; [destruct He as [[He _] _]|destruct He as [He _]]; eauto.
      + cbn in He. destruct He as [[He _] _]. eauto.
    - destruct He as [[] _].
    - cbn in He. destruct He as [-> _]. constructor.
    - destruct ic; [discriminate|]. destruct He.
    - destruct He.
    - destruct He.
    - cbn in He. destruct He as [He _]. constructor. eauto.
    - destruct rl as [r|]; [|discriminate]. destruct m; [discriminate|]. destruct args; [|discriminate].
      destruct (nth_error g r) as [d|] eqn:Hd; [|destruct He]. apply negb_true_iff in Ho. rewrite Ho in He.
      destruct He as (d' & b & A & B). econstructor; eauto.
  Qed.
  Lemma empty_closed n : empty_exp (G n) -> empty_nt n.
  Proof.
    destruct n as [r m|r m args|fr m a|m|t|]; cbn [peg_of empty_nt]; auto; [|intros He; apply empty_alts in He as (x & Hx & He); apply in_map_iff in Hx as (w & <- & Hw); exact (dic_words_pos _ _ Hw He)]. destruct (nth_error g r) as [d|] eqn:Hd; [|intros []].
    destruct (r_body d) as [b|] eqn:Hb; [|intros []]. destruct (r_is_macro d) eqn:A; [intros []|]. pose proof (Hg d (nth_error_In _ _ Hd) A) as B. rewrite Hb in B. cbn [orb]. destruct (r_lr d); [intros []|].
    intros He. exists d, b. split; [split; assumption|]. destruct (r_no_whitespace d); [destruct He as [He _]|]; eapply den_empty; eauto.
  Qed.
  Lemma peg_empty e s r : peg G e s r -> r = Some s -> empty_exp e.
  Proof.
    induction 1; intros Hr; try discriminate; cbn [empty_exp]; auto.
    - injection Hr as Hr. assert (x = []) as -> by (eapply app_nil_of; symmetry; eauto). destruct w; [reflexivity|]. destruct ic; discriminate.
    - injection Hr as Hr. assert (x = []) as -> by (eapply app_nil_of; symmetry; eauto). destruct (chr_nonempty cp []); auto.
    - apply empty_closed. auto.
    - subst r. destruct (peg_suffix _ _ _ _ H t eq_refl) as [x Hx]. destruct (peg_suffix _ _ _ _ H0 s eq_refl) as [y Hy].
      assert (t = s) as ->.
      { subst t. destruct x; [exact (eq_sym Hx)|]. apply (f_equal (@List.length _)) in Hx. rewrite !app_length in Hx. cbn in Hx. lia. }
      auto.
    - destruct a; auto. inversion H; discriminate.
  Qed.
  (** What can match the empty text in the textbook sense may be empty statically. *)
  Lemma means_empty o fr m : ordinary g o = true -> PegSpec.can_be_empty G (den g ws fr m o) -> may_be_empty g o.
  Proof. intros Ho [s H]. eapply den_empty; eauto. eapply peg_empty; eauto. Qed.
End Meaning.
