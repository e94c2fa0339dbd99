(** * Executable checks for the conditions of C32, C33 and C45, used in the examples. *)
From Verif Require Import Base BaseLemmas Ope Scope FirstSetM FirstSpec LoadSpec LoadRefs LoadPeg LoadLoop LoadLR.

Section Check.
  Variable g : grammar.
  Variable k : nat.
  Definition stable : bool :=
    forallb (fun rd => match r_body (snd rd) with Some b => implb (nlb (stage g k) b) (stage g k (fst rd)) | None => true end) (combine (seq 0 (List.length g)) g).
  Hypothesis Hst : stable = true.
  Lemma nth_combine {A} (l : list A) : forall j r d, nth_error l r = Some d -> In (j + r, d) (combine (seq j (List.length l)) l).
  Proof.
    induction l as [|x l IH]; intros j [|r] d H; try discriminate; cbn in *.
    - injection H as ->. left. f_equal. lia.
    - right. rewrite <- Nat.add_succ_comm. now apply IH.
  Qed.
  Lemma rule_checked r d b : rule_body g r d b -> nlb (stage g k) b = true -> stage g k r = true.
  Proof.
    intros [H1 H2] Hb. unfold stable in Hst. rewrite forallb_forall in Hst. specialize (Hst _ (nth_combine g 0 r d H1)). cbn [fst snd Nat.add] in Hst.
    rewrite H2, Hb in Hst. exact Hst.
  Qed.
  Lemma me_checked o : may_be_empty g o -> nlb (stage g k) o = true.
  Proof.
    intros H. induction H using me_ind'; cbn [nlb]; auto.
    - apply forallb_forall. now apply Forall_forall.
    - apply existsb_exists. eauto.
    - rewrite IHmay_be_empty. apply orb_true_r.
    - exact (rule_checked _ _ _ H IHmay_be_empty).
    - exact (rule_checked _ _ _ H IHmay_be_empty).
    - exact (rule_checked _ _ _ H IHmay_be_empty).
  Qed.
  Lemma me_iff o : may_be_empty g o <-> nlb (stage g k) o = true.
  Proof. split; [apply me_checked|]. apply nlb_me. apply stage_me. Qed.

  (** Everything inside, as a list. *)
  Fixpoint insides (o : ope) : list ope :=
    o :: match o with
         | Seq _ l | Cho _ _ l => List.concat (map insides l)
         | Rep e _ _ _ | And e | Not e | Csc e | Cap _ e | Tok e | Ign e | Wsp e | Rcv e => insides e
         | Pre a b _ _ => insides a ++ insides b
         | Ref _ _ _ _ args => List.concat (map insides args)
         | _ => []
         end.
  Lemma inside_listed o x : inside [] o x -> In x (insides o).
  Proof.
    intros H. induction H as [o|o p x Hp H IH]; [destruct o; left; reflexivity|].
    assert (Hc : forall l, In p l -> In x (List.concat (map insides l))) by (intros l Hl; apply in_concat; exists (insides p); split; [now apply in_map|exact IH]).
    destruct o; cbn [parts insides] in *; try contradiction; right; try (destruct Hp as [<- | []]; exact IH); auto.
    destruct Hp as [<- | [<- | []]]; apply in_or_app; auto.
  Qed.
  Fixpoint last_of (l : list ope) : bool :=
    match l with [] => false | [x] => nlb (stage g k) x | _ :: l' => last_of l' end.
  Lemma last_of_spec l : last_of l = true -> exists l' y, l = l' ++ [y] /\ may_be_empty g y.
  Proof.
    induction l as [|x l IH]; [discriminate|]. destruct l as [|y l]; intros H.
    - exists [], x. split; [reflexivity|now apply me_iff].
    - destruct (IH H) as (l' & z & E & Hz). exists (x :: l'), z. rewrite E. auto.
  Qed.
  Definition regular_at (x : ope) : bool :=
    match x with
    | Cho _ _ l => implb (existsb (nlb (stage g k)) l) (last_of l)
    | Rep e mn _ _ => (mn =? 0) || negb (nlb (stage g k) e)
    | _ => true
    end.
  Lemma regular_checked b : forallb regular_at (insides b) = true -> regular g b.
  Proof.
    intros H x Hx. apply inside_listed in Hx. rewrite forallb_forall in H. specialize (H x Hx). destruct x; try exact I; cbn [regular_at] in H.
    - intros Hex. apply last_of_spec. apply Exists_exists in Hex as (y & A & B).
      replace (existsb (nlb (stage g k)) l) with true in H; [exact H|]. symmetry. apply existsb_exists. exists y. split; [exact A|now apply me_iff].
    - intros Hmn He. apply me_iff in He. rewrite He in H. cbn in H. rewrite orb_false_r in H. apply Nat.eqb_eq in H. lia.
  Qed.
  Definition body_sat (p : ope -> bool) : bool := forallb (fun d => match r_body d with Some b => p b | None => true end) g.
  Lemma body_sat_spec p : body_sat p = true -> forall d b, In d g -> r_body d = Some b -> p b = true.
  Proof. intros H d b Hd Hb. unfold body_sat in H. rewrite forallb_forall in H. specialize (H d Hd). now rewrite Hb in H. Qed.

  (** The rules called first, as a list. *)
  Fixpoint fcs (o : ope) : list rid :=
    match o with
    | Seq _ l => (fix go l := match l with [] => [] | x :: l' => fcs x ++ (if nlb (stage g k) x then go l' else []) end) l
    | Cho _ _ l => List.concat (map fcs l)
    | Rep e _ _ _ | And e | Not e | Csc e | Cap _ e | Tok e | Ign e => fcs e
    | Ref _ (Some r) _ _ _ => [r]
    | _ => []
    end.
  Lemma cf_listed o r : calls_first g o r -> In r (fcs o).
  Proof.
    induction 1; cbn [fcs]; auto.
    - induction l1 as [|x l1 IH]; cbn [app].
      + apply in_or_app. now left.
      + inversion H; subst. apply in_or_app. right. rewrite (proj1 (me_iff x) H3). auto.
    - apply in_concat. exists (fcs o). split; [now apply in_map|assumption].
    - now left.
  Qed.
  Definition first_of (r : rid) : list rid := match nth_error g r with Some d => match r_body d with Some b => fcs b | None => [] end | None => [] end.
  Lemma first_listed r r' : first_call g r r' -> In r' (first_of r).
  Proof. intros (d & b & A & B & C). unfold first_of. rewrite A, B. now apply cf_listed. Qed.
  Definition within (V l : list rid) : bool := forallb (fun r => existsb (Nat.eqb r) V) l.
  Lemma within_spec V l : within V l = true -> forall r, In r l -> In r V.
  Proof.
    intros H r Hr. unfold within in H. rewrite forallb_forall in H. specialize (H r Hr). apply existsb_exists in H as (x & A & B). apply Nat.eqb_eq in B. now subst.
  Qed.
  Lemma not_left V r : within V (first_of r) = true -> forallb (fun r' => within V (first_of r')) V = true -> existsb (Nat.eqb r) V = false -> ~ left_reaches g r r.
  Proof.
    intros H1 H2 H3 Hl. assert (Hc : forall r1 r2, In r1 V -> first_call g r1 r2 -> In r2 V).
    { intros r1 r2 Hi Hf. rewrite forallb_forall in H2. exact (within_spec _ _ (H2 r1 Hi) _ (first_listed _ _ Hf)). }
    destruct (left_reaches_in g V Hc r r Hl) as [_ X]. specialize (X (fun r2 Hf => within_spec _ _ H1 _ (first_listed _ _ Hf))).
    assert (E : existsb (Nat.eqb r) V = true) by (apply existsb_exists; exists r; split; [exact X|apply Nat.eqb_refl]). congruence.
  Qed.
End Check.
