(** * A decidable check for the conditions of FirstSpec.v (used by the examples beside
    the theorems; nothing in the theorems depends on it). *)
From Verif Require Import Base BaseLemmas Utf8 Escape TrieM Ope Ctx ErrLog Engine EngineLemmas Scope Refine Top GrammarCond FirstSetM FirstSpec FirstSem FirstProofs FirstSetup FirstAnn FirstTop.

Definition is_gap w := match w with Gap => true | _ => false end.
Definition is_nul w := match w with NulByte => true | _ => false end.
Definition is_case w := match w with Case => true | _ => false end.
Definition is_nested w := match w with Nested => true | _ => false end.
Definition is_operand w := match w with Operand => true | _ => false end.
Definition has_nul (rs : ranges) : bool := existsb (fun p => (fst p =? 0)%N) rs.
Definition every_byte (p : byte -> bool) : bool := forallb (fun n => p (byteN (N.of_nat n))) (seq 0 256).
Definition range_case (rs : ranges) (b : byte) : bool :=
  existsb (fun p => negb (every_byte (fun b0 => negb ((fst p <=? bN b0)%N && (bN b0 <=? snd p)%N && beq (tolower b0) (tolower b))))) rs.
Definition class_exactb (rs : ranges) : bool :=
  every_byte (fun b => Bool.eqb (match in_ranges true rs (bN b) with Ok true => true | _ => false end) (range_case rs b)).

Lemma every_byteP p : every_byte p = true -> forall b, p b = true.
Proof.
  intros H b. unfold every_byte in H. rewrite forallb_forall in H.
  specialize (H (N.to_nat (bN b))). rewrite N2Nat.id, byteN_bN in H. apply H. apply in_seq. pose proof (bN_lt b). lia.
Qed.
Lemma every_byteF p : every_byte p = false -> exists b, p b = false.
Proof.
  intros H. unfold every_byte in H. assert (X : exists n, p (byteN (N.of_nat n)) = false).
  { revert H. generalize (seq 0 256). induction l as [|n l IH]; cbn; [discriminate|]. destruct (p (byteN (N.of_nat n))) eqn:Hp; eauto. }
  destruct X as [n Hn]. eauto.
Qed.
Lemma range_caseP rs b : range_case rs b = true <-> exists lo hi b0, In (lo, hi) rs /\ (lo <= bN b0 <= hi)%N /\ tolower b0 = tolower b.
Proof.
  unfold range_case. rewrite existsb_exists. split.
  - intros ((lo & hi) & Hin & H). apply negb_true_iff in H. apply every_byteF in H as [b0 H]. apply negb_false_iff in H.
    rewrite !andb_true_iff in H. destruct H as [[H1 H2] H3]. cbn in H1, H2. apply N.leb_le in H1, H2. apply Byte.byte_dec_bl in H3.
    exists lo, hi, b0. auto.
  - intros (lo & hi & b0 & Hin & [H1 H2] & H3). exists (lo, hi). split; [exact Hin|]. apply negb_true_iff.
    destruct (every_byte _) eqn:He; [|reflexivity]. exfalso. pose proof (every_byteP _ He b0) as X. cbn in X.
    apply N.leb_le in H1, H2. rewrite H1, H2 in X. cbn in X. apply negb_true_iff in X.
    assert (Y : beq (tolower b0) (tolower b) = true) by (rewrite H3; now apply Byte.byte_dec_lb). congruence.
Qed.
Lemma class_exactP rs : class_exactb rs = true -> class_exact rs.
Proof.
  intros H b. unfold class_exactb in H. pose proof (every_byteP _ H b) as X. cbv beta in X. apply Bool.eqb_prop in X. rewrite <- range_caseP, <- X.
  destruct (in_ranges true rs (bN b)) as [[]| | |]; split; congruence.
Qed.

Section Check.
  Variable g : grammar.
  (* certificate: nullable rules, first calls, irregular beginnings *)
  Variable nul : rid -> bool.
  Variable lc : rid -> rid -> bool.
  Variable od : rid -> oddity -> bool.
  Fixpoint nulc (o : ope) : bool :=
    match o with
    | Seq _ l => forallb nulc l
    | Cho _ _ l => existsb nulc l
    | Rep e mn _ _ => (mn =? 0) || nulc e
    | And _ | Not _ | Cut | Lit [] _ => true
    | Csc e | Cap _ e | Tok e | Ign e | Wsp e | Rcv e | Pre e _ _ _ => nulc e
    | Wkh r | Hld r | Ref _ (Some r) _ _ _ => nul r
    | _ => false
    end.
  (** [p c]: may the expression begin with a sequence, all before it nullable. *)
  Section Any.
    Variable p : ope -> bool.
    Fixpoint first_seq (l : list ope) : bool := match l with [] => false | o :: l' => p o || (nulc o && first_seq l') end.
  End Any.
  Fixpoint callc (r' : rid) (o : ope) : bool :=
    match o with
    | Seq _ l => first_seq (callc r') l
    | Cho _ _ l => existsb (callc r') l
    | Rep e _ _ _ | Csc e | Cap _ e | Tok e | Ign e | Wsp e | Rcv e | Pre e _ _ _ => callc r' e
    | Wkh r | Hld r => lc r r'
    | Ref _ (Some r) _ _ _ => (r =? r') || lc r r'
    | _ => false
    end.
  Definition no_ws_rule (r : rid) : bool := match nth_error g r with Some d => r_no_whitespace d | None => false end.
  Fixpoint oddc (w : oddity) (o : ope) : bool :=
    match o with
    | Seq _ l => first_seq (oddc w) l
    | Cho _ _ l => existsb (oddc w) l
    | Rep e _ _ _ | Csc e | Cap _ e | Ign e | Rcv e => oddc w e
    | Pre e _ _ _ => (is_operand w && nulc e) || oddc w e
    | Wsp e => is_nested w || oddc w e
    | Tok e => (is_gap w && nulc e) || oddc w e
    | Lit [] _ => is_gap w
    | Wkh r | Hld r | Ref _ (Some r) _ _ _ => (is_gap w && no_ws_rule r && nul r) || od r w
    | Cls rs false ic => (if is_nul w then has_nul rs else false) || (if is_case w && ic then negb (class_exactb rs) else false)
    | Chr cp => is_nul w && (cp =? 0)%N
    | _ => false
    end.
  (** Every choice, repetition and sequence in an expression. *)
  Section Sub.
    Variables (gaps odd guards : bool).
    Definition alt_ok (o : ope) : bool :=
      negb (oddc Case o) && negb (oddc Nested o) && negb (oddc Operand o) && implb gaps (negb (oddc Gap o)) && implb odd (negb (oddc NulByte o)).
    Definition span_ok (e : ope) (mn : nat) (mx : option nat) : bool :=
      match e with
      | Cls rs false ic => negb (ascii_ranges rs)
          || (match mx with Some x => mn <=? x | None => true end && (if ic then class_exactb rs else true) && implb odd (negb (has_nul rs)))
      | _ => true
      end.
    Fixpoint sub_ok (o : ope) : bool :=
      match o with
      | Seq _ l => (if guards then match kw_guard_of g l with None => true | Some _ => false end else true) && forallb sub_ok l
      | Cho _ _ l => forallb alt_ok l && forallb sub_ok l
      | Rep e mn mx _ => span_ok e mn mx && sub_ok e
      | And e | Not e | Csc e | Cap _ e | Ign e | Tok e | Wsp e | Rcv e | Pre e _ _ _ => sub_ok e
      | _ => true
      end.
    Definition rule_certified (p : rid * rule) : bool :=
      match r_body (snd p) with
      | None => true
      | Some b =>
        implb (nulc b) (nul (fst p))
        && forallb (fun r' => implb (callc r' b) (lc (fst p) r')) (seq 0 (List.length g))
        && implb (lc (fst p) (fst p)) (negb (nulc b))
        && forallb (fun w => implb (oddc w b) (od (fst p) w)) [Gap; NulByte; Case; Nested; Operand]
        && sub_ok b
      end.
    Definition certified : bool := forallb rule_certified (combine (seq 0 (List.length g)) g).

    Hypothesis Hcert : certified = true.
    Lemma cert_rule r d b : rule_body g r d b -> rule_certified (r, d) = true.
    Proof. intros [A _]. unfold certified in Hcert. rewrite forallb_forall in Hcert. apply Hcert. now apply in_combine_seq. Qed.
    Ltac rule Hb := let H := fresh "Hrule" in pose proof (cert_rule _ _ _ Hb) as H; unfold rule_certified in H; cbn [fst snd] in H;
      rewrite (proj2 Hb) in H; rewrite !andb_true_iff in H; destruct H as [[[[Rn Rc] Rl] Ro] Rs].
    Lemma implb_true a b : implb a b = true -> a = true -> b = true.
    Proof. destruct a, b; auto. Qed.
    Lemma nulcP : forall o, may_be_empty g o -> nulc o = true.
    Proof.
      fix IH 2. intros o H. destruct H as [kg l Hl|fl fs l o Hin Ho|e mx sp|e mn mx sp He|e|e| |ic|e He|nm e He|e He|e He|e He|e He|a b i r He|r d b Hb He|r d b Hb He|nm r ia m args d b Hb He];
        cbn [nulc]; try reflexivity; try (apply IH; exact He).
      - induction Hl as [|x l Hx Hl IHl]; [reflexivity|]. cbn. rewrite (IH _ Hx). exact IHl.
      - apply existsb_exists. exists o. split; [exact Hin|]. now apply IH.
      - rewrite (IH _ He). apply orb_true_r.
      - rule Hb. eapply implb_true; eauto.
      - rule Hb. eapply implb_true; eauto.
      - rule Hb. eapply implb_true; eauto.
    Qed.
    Lemma first_seqP p l1 o l2 : Forall (may_be_empty g) l1 -> p o = true -> first_seq p (l1 ++ o :: l2) = true.
    Proof.
      induction 1 as [|x l1 Hx _ IH]; intros Ho; cbn.
      - now rewrite Ho.
      - rewrite (nulcP _ Hx), (IH Ho). apply orb_true_r.
    Qed.
    Lemma callcP o c : starts g o c -> forall r', c = SCall r' -> r' < List.length g -> callc r' o = true.
    Proof.
      induction 1 as [kg l1 o l2 c Hl _ IH|fl fs l o c Hin _ IH|e mn mx sp c _ IH|e c _ IH|nm e c _ IH|e c _ IH|e c _ IH|e c _ IH|e c _ IH|a b i r c _ IH
        | | | | | | | | | | |nm r ia m args|nm r ia m args d b c Hb _ IH|r d b c Hb _ IH|r d b c Hb _ IH| | | | | | | | | | ];
        intros r' Hc Hlt; try discriminate; cbn [callc]; try (now apply IH).
      - apply first_seqP; auto.
      - apply existsb_exists. eauto.
      - inv Hc. now rewrite Nat.eqb_refl.
      - rule Hb. rewrite forallb_forall in Rc. rewrite (implb_true _ _ (Rc r' ltac:(apply in_seq; lia)) (IH r' Hc Hlt)). apply orb_true_r.
      - rule Hb. rewrite forallb_forall in Rc. exact (implb_true _ _ (Rc r' ltac:(apply in_seq; lia)) (IH r' Hc Hlt)).
      - rule Hb. rewrite forallb_forall in Rc. exact (implb_true _ _ (Rc r' ltac:(apply in_seq; lia)) (IH r' Hc Hlt)).
    Qed.
    Lemma oddcP o c : starts g o c -> forall w, c = SOdd w -> oddc w o = true.
    Proof.
      assert (Hgap : forall r d b, rule_body g r d b -> r_no_whitespace d = true -> may_be_empty g b -> no_ws_rule r && nul r = true).
      { intros r d b Hb Hn He. unfold no_ws_rule. rewrite (proj1 Hb), Hn. rule Hb. cbn. eapply implb_true; eauto. now apply nulcP. }
      assert (Hod : forall r d b w, rule_body g r d b -> oddc w b = true -> od r w = true).
      { intros r d b w Hb Ho. rule Hb. rewrite forallb_forall in Ro. eapply implb_true; [apply Ro|exact Ho]. destruct w; cbn; auto 10. }
      induction 1 as [kg l1 o l2 c Hl _ IH|fl fs l o c Hin _ IH|e mn mx sp c _ IH|e c _ IH|nm e c _ IH|e c _ IH|e c _ IH|e c _ IH|e c _ IH|a b i r c _ IH
        | | | | | | | | | | | |nm r ia m args d b c Hb _ IH|r d b c Hb _ IH|r d b c Hb _ IH
        |e He|ic|e|a b i r Hpe|nm r ia m args d b Hb Hn He|r d b Hb Hn He|r d b Hb Hn He|rs lo hi ic Hin Hlo| |rs b Hin Hno ];
        intros w Hc; try discriminate; cbn [oddc]; try (now apply IH); try (inv Hc; cbn [is_gap is_nul is_case is_nested andb orb]).
      - apply first_seqP; auto.
      - apply existsb_exists. eauto.
      - rewrite (IH w Hc). apply orb_true_r.
      - rewrite (IH w Hc). apply orb_true_r.
      - rewrite (IH w Hc). apply orb_true_r.
      - rewrite (Hod _ _ _ _ Hb (IH w Hc)). apply orb_true_r.
      - rewrite (Hod _ _ _ _ Hb (IH w Hc)). apply orb_true_r.
      - rewrite (Hod _ _ _ _ Hb (IH w Hc)). apply orb_true_r.
      - now rewrite (nulcP _ He).
      - reflexivity.
      - reflexivity.
      - cbn. now rewrite (nulcP _ Hpe).
      - now rewrite (Hgap _ _ _ Hb Hn He).
      - now rewrite (Hgap _ _ _ Hb Hn He).
      - now rewrite (Hgap _ _ _ Hb Hn He).
      - assert (X : has_nul rs = true) by (apply existsb_exists; exists (0%N, hi); auto). rewrite X. reflexivity.
      - reflexivity.
      - destruct (class_exactb rs) eqn:Hx; [|reflexivity]. exfalso. apply class_exactP in Hx. destruct (Hx b) as [H1 _].
        destruct (H1 Hin) as (lo & hi & b0 & A & B & C). exact (Hno lo hi b0 A B C).
    Qed.
    Theorem certified_no_empty_recursion : no_empty_recursion g.
    Proof.
      intros r d b Hb Hs He. pose proof (nulcP _ He) as Hn.
      assert (Hlt : r < List.length g) by (apply nth_error_Some; rewrite (proj1 Hb); discriminate).
      pose proof (callcP _ _ Hs r eq_refl Hlt) as Hc. rule Hb. rewrite forallb_forall in Rc.
      pose proof (implb_true _ _ (Rc r ltac:(apply in_seq; lia)) Hc) as Hl. apply (implb_true _ _ Rl) in Hl. rewrite Hn in Hl. discriminate.
    Qed.
    Lemma sub_ok_sub x : forall o, sub_ope x o -> sub_ok o = true -> sub_ok x = true.
    Proof.
      assert (Hl : forall l, Forall (fun o => sub_ope x o -> sub_ok o = true -> sub_ok x = true) l -> forallb sub_ok l = true ->
        (fix any l := match l with [] => False | a :: l' => sub_ope x a \/ any l' end) l -> sub_ok x = true).
      { induction 1 as [|a l Ha _ IHl]; intros Hf Hx; [destruct Hx|]. cbn in Hf. apply andb_prop in Hf as [H1 H2]. destruct Hx as [Hx|Hx]; auto. }
      induction o using ope_ind'; cbn [sub_ope]; intros [Heq|Hs] Hok; try (rewrite Heq; exact Hok); try contradiction; try (now apply IHo).
      - cbn [sub_ok] in Hok. apply andb_prop in Hok as [_ H1]. eapply Hl; eauto.
      - cbn [sub_ok] in Hok. apply andb_prop in Hok as [_ H1]. eapply Hl; eauto.
      - cbn [sub_ok] in Hok. apply andb_prop in Hok as [_ H1]. now apply IHo.
      - cbn [sub_ok] in Hok. now apply IHo1.
    Qed.
    Theorem certified_alternatives : regular_alternatives g gaps odd.
    Proof.
      intros r d b fl fs l o Hb Hs Hin. rule Hb. pose proof (sub_ok_sub _ _ Hs Rs) as H. cbn [sub_ok] in H. apply andb_prop in H as [H _].
      rewrite forallb_forall in H. specialize (H o Hin). unfold alt_ok in H. rewrite !andb_true_iff in H. destruct H as [[[[H4 H5] H5'] H6] H7].
      apply negb_true_iff in H4, H5, H5'.
      split; [|split; [|split]].
      - intros X. apply (fun Y => oddcP _ _ Y _ eq_refl) in X. congruence.
      - split; intros X; apply (fun Y => oddcP _ _ Y _ eq_refl) in X; congruence.
      - intros Hg X. apply (fun Y => oddcP _ _ Y _ eq_refl) in X. rewrite Hg, X in H6. discriminate.
      - intros Hg X. apply (fun Y => oddcP _ _ Y _ eq_refl) in X. rewrite Hg, X in H7. discriminate.
    Qed.
    Theorem certified_spans : regular_spans g odd.
    Proof.
      intros r d b rs ic mn mx sp Hb Hs Ha. rule Hb. pose proof (sub_ok_sub _ _ Hs Rs) as H. cbn [sub_ok span_ok] in H. apply andb_prop in H as [H _].
      rewrite Ha in H. cbn [negb orb] in H. rewrite !andb_true_iff in H. destruct H as [[H4 H5] H6]. split; [|split].
      - intros x ->. now apply Nat.leb_le.
      - intros ->. now apply class_exactP.
      - intros -> lo hi Hin Hlo. cbn in H6. apply negb_true_iff in H6.
        assert (X : has_nul rs = true) by (apply existsb_exists; exists (lo, hi); split; [exact Hin|now rewrite Hlo]). congruence.
    Qed.
    Theorem certified_guards : guards = true -> no_keyword_guard g.
    Proof.
      intros Hg r d b kg l Hb Hs. rule Hb. pose proof (sub_ok_sub _ _ Hs Rs) as H. cbn [sub_ok] in H. apply andb_prop in H as [H _].
      rewrite Hg in H. cbn in H. destruct (kw_guard_of g l); [discriminate|reflexivity].
    Qed.
  End Sub.
End Check.
