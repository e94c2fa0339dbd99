(** * Printing an AST: proofs (C52). *)
From Coq Require Import Decimal DecimalNat.
From Verif Require Import Base BaseLemmas LineInfo Ope Ctx AstM AstSpec AstProofs AstText AstTextSpec.

Lemma digits_inj u : forall v, digits u = digits v -> u = v.
Proof. induction u; intros []; cbn [digits]; intros H; try discriminate H; try reflexivity; injection H as H; f_equal; auto. Qed.
Lemma to_string_inj m n : to_string m = to_string n -> m = n.
Proof. intros H. apply digits_inj in H. rewrite <- (Unsigned.of_to m), <- (Unsigned.of_to n). now rewrite H. Qed.
Definition digit (b : byte) : Prop := In b [x30; x31; x32; x33; x34; x35; x36; x37; x38; x39].
Lemma digits_digit u : Forall digit (digits u).
Proof. induction u; cbn [digits]; constructor; auto; unfold digit; cbn; tauto. Qed.

(** The text, without fuel. *)
Section Text.
  Variable input : bytes.
  Fixpoint text (level : nat) (t : tree) : bytes :=
    match t with T d l => node_line input d level ++ flat_map (text (S level)) l end.
  Lemma text_lines : forall t level, text level t = flat_map (fun p => node_line input (snd p) (fst p)) (with_depths level t).
  Proof.
    induction t as [d l IH] using tree_ind'. intros level. cbn [text with_depths flat_map fst snd]. f_equal. revert IH.
    induction 1 as [|t l Ht _ IHl]; [reflexivity|]. cbn [flat_map]. rewrite flat_map_app. now rewrite Ht, IHl.
  Qed.
  Lemma print_core h : forall t a, tree_at h a t -> exists f0, forall f s level, f0 <= f ->
    ast_to_s_core h input None f a s level = Ok (s ++ text level t).
  Proof.
    induction t as [d l IH] using tree_ind'. intros a H. inversion H as [a0 c ts Hc Hts E1 E2]; subst.
    assert (G : exists f0, forall f s level, f0 <= f ->
      (fix each (ns : list addr) (s : bytes) : outcome bytes := match ns with
         | [] => Ok s
         | n :: l' => let* s' := ast_to_s_core h input None f n s (level + 1) in each l' s'
         end) (n_nodes c) s = Ok (s ++ flat_map (text (S level)) l)).
    { clear H. revert IH. induction Hts as [|n t ns ts Hn Hns IHn]; intros IH.
      - exists 0. intros f s level _. cbn. now rewrite app_nil_r.
      - inversion IH as [|? ? Ht Hl]; subst. destruct (Ht n Hn) as [f1 H1]. destruct (IHn Hl) as [f2 H2]. exists (f1 + f2).
        intros f s level Hf. cbn [flat_map]. rewrite H1 by lia. cbn [bind]. rewrite Nat.add_1_r. rewrite Nat.add_1_r in H2 || idtac.
        specialize (H2 f (s ++ text (S level) t) level ltac:(lia)). rewrite Nat.add_1_r in H2. rewrite H2. now rewrite app_assoc. }
    destruct G as [f0 G]. exists (S f0). intros [|f] s level Hf; [lia|]. cbn [ast_to_s_core]. unfold get_cell. rewrite Hc. cbn [bind].
    rewrite G by lia. cbn [text]. now rewrite app_assoc.
  Qed.
End Text.

(** ** Reading the text back *)
Lemma split_at (P : byte -> Prop) (a1 a2 : bytes) c1 c2 r1 r2 : Forall P a1 -> Forall P a2 -> ~ P c1 -> ~ P c2 ->
  a1 ++ c1 :: r1 = a2 ++ c2 :: r2 -> a1 = a2 /\ c1 = c2 /\ r1 = r2.
Proof.
  intros H1. revert a2. induction H1 as [|x a1 Hx _ IH]; intros [|y a2] H2 N1 N2 E; cbn in E.
  - injection E as -> ->. auto.
  - injection E as -> _. inversion H2; subst. contradiction.
  - injection E as -> _. contradiction.
  - injection E as -> E. inversion H2; subst. apply IH in E as (-> & -> & ->); auto.
Qed.
Definition mark (c : byte) : Prop := c = x2d \/ c = x2b.
Lemma blanks_x20 l : Forall (fun b => b = x20) (blanks l).
Proof. induction l; cbn [blanks]; auto. Qed.
Lemma blanks_inj : forall l k, blanks l = blanks k -> l = k.
Proof. induction l as [|l IH]; intros [|k] H; cbn in H; try discriminate; auto. injection H as H. f_equal. auto. Qed.
Lemma blanks_mark l k c c' r r' : mark c -> mark c' -> blanks l ++ c :: r = blanks k ++ c' :: r' -> l = k /\ c = c' /\ r = r'.
Proof.
  intros Hc Hc' H. apply (split_at (fun b => b = x20)) in H as (A & B & C); auto using blanks_x20.
  - apply blanks_inj in A. auto.
  - intros ->. destruct Hc; discriminate.
  - intros ->. destruct Hc'; discriminate.
Qed.

(** What may follow the text of a node of level [l]. *)
Definition shallow (l : nat) (r : bytes) : Prop := r = [] \/ exists k c r', k <= l /\ mark c /\ r = blanks k ++ c :: r'.

(** The part of a line between the mark and the end. *)
Definition tail_of (input : bytes) (d : adata) : bytes :=
  shown_name d ++ (if a_is_token d then bs " (" ++ sub input (fst (a_token d)) (snd (a_token d)) ++ bs ")" ++ [x0a] else [x0a]).
Definition mark_of (d : adata) : byte := if a_is_token d then x2d else x2b.
Lemma line_shape input d level r : node_line input d level ++ r = blanks level ++ mark_of d :: x20 :: tail_of input d ++ r.
Proof. unfold node_line, tail_of, mark_of. destruct (a_is_token d); repeat (progress (cbn; rewrite <- ?app_assoc)); reflexivity. Qed.
Lemma mark_of_mark d : mark (mark_of d).
Proof. unfold mark_of, mark. destruct (a_is_token d); auto. Qed.

Lemma plain_not (n : bytes) b : plain_name n -> In b n -> ~ In b [x20; x0a; x2f; x5b].
Proof. intros H Hi. unfold plain_name in H. rewrite Forall_forall in H. auto. Qed.
Lemma bytes_eqb_dec a b : bytes_eqb a b = if bytes_dec a b then true else false.
Proof. destruct (bytes_dec a b) as [->|n]; [now apply bytes_eqb_eq|]. apply not_true_iff_false. intros H. now apply bytes_eqb_eq in H. Qed.

Definition no_name_end (b : byte) : Prop := ~ In b [x20; x0a; x2f; x5b].
(** The optional parts after the original name. *)
Definition alt_part (d : adata) : bytes := if 0 <? a_original_choice_count d then bs "/" ++ to_string (a_original_choice d) else [].
Definition merged_part (d : adata) : bytes := if bytes_eqb (a_name d) (a_original_name d) then [] else bs "[" ++ a_name d ++ bs "]".
Lemma shown_parts d : shown_name d = a_original_name d ++ alt_part d ++ merged_part d.
Proof. reflexivity. Qed.

(** [e]: a blank or a newline. *)
Lemma name_read d1 d2 e1 e2 r1 r2 : plain_name (a_original_name d1) -> plain_name (a_original_name d2) ->
  plain_name (a_name d1) -> plain_name (a_name d2) -> (e1 = x20 \/ e1 = x0a) -> (e2 = x20 \/ e2 = x0a) ->
  shown_name d1 ++ e1 :: r1 = shown_name d2 ++ e2 :: r2 ->
  a_original_name d1 = a_original_name d2 /\ alt_part d1 = alt_part d2 /\ merged_part d1 = merged_part d2 /\ e1 = e2 /\ r1 = r2.
Proof.
  intros O1 O2 N1 N2 E1 E2 H. rewrite !shown_parts, <- !app_assoc in H.
  assert (Hm : forall d e r, (e = x20 \/ e = x0a) -> plain_name (a_name d) -> exists c t, merged_part d ++ e :: r = c :: t /\ ~ digit c /\ (c = x5b \/ c = e)
    /\ (c = x5b -> merged_part d = bs "[" ++ a_name d ++ bs "]") /\ (c = e -> merged_part d = [])).
  { intros d e r He Hp. unfold merged_part. destruct (bytes_eqb _ _).
    - exists e, r. split; [reflexivity|]. split; [intros Hd; destruct He as [-> | ->]; cbn in Hd; intuition discriminate|]. split; [auto|]. split; [|auto].
      intros ->. destruct He; discriminate.
    - exists x5b, ((a_name d ++ bs "]") ++ e :: r). split; [reflexivity|]. split; [intros Hd; cbn in Hd; intuition discriminate|]. split; [auto|]. split; [reflexivity|].
      intros <-. destruct He; discriminate. }
  assert (Ha : forall d e r, (e = x20 \/ e = x0a) -> plain_name (a_name d) -> exists c t, alt_part d ++ merged_part d ++ e :: r = c :: t /\ In c [x20; x0a; x2f; x5b]
     /\ (c = x2f <-> (0 <? a_original_choice_count d) = true)).
  { intros d e r He Hp. unfold alt_part. destruct (_ <? _).
    - exists x2f, (to_string (a_original_choice d) ++ merged_part d ++ e :: r). split; [reflexivity|]. split; [cbn; tauto|tauto].
    - destruct (Hm d e r He Hp) as (c & t & A & _ & C & _). exists c, t. split; [exact A|]. split.
      + destruct C as [-> | ->]; [cbn; tauto|]. destruct He as [-> | ->]; cbn; tauto.
      + split; [|discriminate]. intros ->. destruct C as [C|C]; [discriminate|]. subst. destruct He; discriminate. }
  destruct (Ha d1 e1 r1 E1 N1) as (c1 & t1 & A1 & B1 & C1). destruct (Ha d2 e2 r2 E2 N2) as (c2 & t2 & A2 & B2 & C2).
  rewrite A1, A2 in H. apply (split_at no_name_end) in H as (H & -> & ->); auto; [|unfold no_name_end; tauto..].
  split; [exact H|]. rewrite <- A2 in A1. clear A2. rename A1 into K.
  assert (K' : alt_part d1 = alt_part d2 /\ merged_part d1 ++ e1 :: r1 = merged_part d2 ++ e2 :: r2).
  { unfold alt_part in *. destruct (0 <? a_original_choice_count d1) eqn:X1, (0 <? a_original_choice_count d2) eqn:X2.
    - destruct (Hm d1 e1 r1 E1 N1) as (m1 & u1 & M1 & D1 & _). destruct (Hm d2 e2 r2 E2 N2) as (m2 & u2 & M2 & D2 & _).
      rewrite M1, M2, <- !app_assoc in K. cbn in K. injection K as K. apply (split_at digit) in K as (K1 & K2 & K3); [|apply digits_digit|apply digits_digit|assumption|assumption].
      split; [now rewrite K1|]. rewrite M1, M2. congruence.
    - exfalso. assert (c2 = x2f) by tauto. destruct C2 as [C2 _]; specialize (C2 H0); discriminate.
    - exfalso. assert (c2 = x2f) by tauto. destruct C1 as [C1 _]; specialize (C1 H0); discriminate.
    - auto. }
  destruct K' as [K1 K2]. split; [exact K1|].
  destruct (Hm d1 e1 r1 E1 N1) as (m1 & u1 & M1 & _ & D1 & F1 & G1). destruct (Hm d2 e2 r2 E2 N2) as (m2 & u2 & M2 & _ & D2 & F2 & G2).
  assert (m1 = m2) by congruence. subst m2.
  destruct D1 as [-> | ->].
  - rewrite (F1 eq_refl). rewrite (F1 eq_refl) in K2. destruct D2 as [_|D2]; [|subst e2; destruct E2; discriminate].
    rewrite (F2 eq_refl). rewrite (F2 eq_refl) in K2. cbn in K2. injection K2 as K2. rewrite <- !app_assoc in K2. cbn in K2.
    (* the names contain no blank or newline but may contain a closing bracket *)
    change (a_name d1 ++ x5d :: e1 :: r1) with (a_name d1 ++ [x5d] ++ e1 :: r1) in K2. change (a_name d2 ++ x5d :: e2 :: r2) with (a_name d2 ++ [x5d] ++ e2 :: r2) in K2.
    rewrite !app_assoc in K2. apply (split_at (fun b => ~ (b = x20 \/ b = x0a))) in K2 as (K2 & K3 & K4); auto.
    + split; [|auto]. cbn. now rewrite K2.
    + apply Forall_app. split; [|constructor; [intros [X|X]; discriminate|constructor]]. eapply Forall_impl; [|exact N1]. cbn. intros b Hb [-> | ->]; apply Hb; tauto.
    + apply Forall_app. split; [|constructor; [intros [X|X]; discriminate|constructor]]. eapply Forall_impl; [|exact N2]. cbn. intros b Hb [-> | ->]; apply Hb; tauto.
  - rewrite (G1 eq_refl) in *. destruct D2 as [D2|D2]; [subst e1; destruct E1; discriminate|]. rewrite (G2 D2) in *. cbn in K2. injection K2 as -> ->. auto.
Qed.

Lemma tail_read input1 input2 d1 d2 ts1 ts2 r1 r2 : plain_node input1 (T d1 ts1) -> plain_node input2 (T d2 ts2) -> mark_of d1 = mark_of d2 ->
  tail_of input1 d1 ++ r1 = tail_of input2 d2 ++ r2 -> label_of input1 d1 = label_of input2 d2 /\ r1 = r2.
Proof.
  intros (N1 & O1 & T1) (N2 & O2 & T2) Hk H. cbn [t_data] in *. unfold tail_of in H. rewrite <- !app_assoc in H.
  assert (Hl : a_is_token d1 = a_is_token d2 /\ a_original_name d1 = a_original_name d2 /\ alt_part d1 = alt_part d2 /\ merged_part d1 = merged_part d2
    /\ (a_is_token d1 = true -> sub input1 (fst (a_token d1)) (snd (a_token d1)) = sub input2 (fst (a_token d2)) (snd (a_token d2))) /\ r1 = r2).
  { unfold mark_of in Hk. destruct (a_is_token d1), (a_is_token d2); try discriminate Hk.
    - cbn in H. apply name_read in H as (A & B & C & _ & D); auto. repeat (split; [assumption || reflexivity|]).
      injection D as D. rewrite <- !app_assoc in D. cbn in D.
      specialize (T1 eq_refl). specialize (T2 eq_refl).
      change (?a ++ x29 :: x0a :: ?r) with (a ++ [x29] ++ x0a :: r) in D. rewrite !app_assoc in D.
      apply (split_at (fun b => b <> x0a)) in D as (D1 & _ & D2); auto.
      + apply app_inj_tail in D1 as [D1 _]. auto.
      + apply Forall_app. split; [|constructor; [discriminate|constructor]]. apply Forall_forall. intros b Hb ->. auto.
      + apply Forall_app. split; [|constructor; [discriminate|constructor]]. apply Forall_forall. intros b Hb ->. auto.
    - cbn in H. apply name_read in H as (A & B & C & _ & D); auto. repeat (split; [assumption || reflexivity|]). split; [discriminate|exact D]. }
  destruct Hl as (A & B & C & D & F & G). split; [|exact G]. unfold label_of. rewrite B. f_equal.
  - unfold alt_part in C. destruct (_ <? _), (_ <? _); cbn in C; try discriminate; [|reflexivity]. injection C as C. apply to_string_inj in C. now rewrite C.
  - unfold merged_part in D. rewrite !bytes_eqb_dec, B in D. destruct (bytes_dec (a_name d1) _), (bytes_dec (a_name d2) _); cbn in D; try discriminate; [reflexivity|].
    injection D as D. apply app_inj_tail in D as [D _]. now rewrite D.
  - rewrite <- A. destruct (a_is_token d1); [|reflexivity]. now rewrite F.
Qed.

Lemma text_shape input t level : exists r, text input level t = blanks level ++ mark_of (t_data t) :: r.
Proof. destruct t as [d l]. cbn [text t_data]. rewrite line_shape. eauto. Qed.
Lemma texts_shallow input level l r : shallow level r -> shallow (S level) (flat_map (text input (S level)) l ++ r).
Proof.
  intros H. destruct l as [|t l].
  - destruct H as [-> |(k & c & r' & Hk & Hc & ->)]; [now left|]. right. exists k, c, r'. split; [lia|auto].
  - right. destruct (text_shape input t (S level)) as [r' Hr]. cbn [flat_map]. rewrite Hr, <- !app_assoc. cbn. exists (S level), (mark_of (t_data t)).
    eexists. split; [lia|]. split; [apply mark_of_mark|reflexivity].
Qed.

Lemma text_read input1 input2 : forall t1 t2 level r1 r2, plain_tree input1 t1 -> plain_tree input2 t2 -> shallow level r1 -> shallow level r2 ->
  text input1 level t1 ++ r1 = text input2 level t2 ++ r2 -> outline_of input1 t1 = outline_of input2 t2 /\ r1 = r2.
Proof.
  induction t1 as [d1 l1 IH] using tree_ind'. intros [d2 l2] level r1 r2 P1 P2 S1 S2 H. cbn [text] in H. rewrite <- !app_assoc, !line_shape in H.
  apply blanks_mark in H as (_ & Hm & H); [|apply mark_of_mark..]. injection H as H.
  unfold plain_tree in P1, P2. cbn [nodes_of] in P1, P2. inversion P1 as [|? ? P1h P1t]; subst. inversion P2 as [|? ? P2h P2t]; subst.
  apply (tail_read input1 input2 d1 d2 l1 l2) in H as [Hl H]; auto. cbn [outline_of]. rewrite Hl.
  assert (G : map (outline_of input1) l1 = map (outline_of input2) l2 /\ r1 = r2); [|destruct G as [-> ->]; auto].
  clear P1 P2 P1h P2h Hl Hm. revert l2 P2t H. induction IH as [|t1 l1 Ht _ IHl]; intros l2 P2t H.
  - destruct l2 as [|t2 l2]; [cbn in H; auto|exfalso]. cbn [flat_map] in H. destruct (text_shape input2 t2 (S level)) as [r Hr]. rewrite Hr, <- !app_assoc in H. cbn in H.
    destruct S1 as [-> |(k & c & r' & Hk & Hc & ->)]; [discriminate|].
    change (x20 :: x20 :: blanks level ++ mark_of (t_data t2) :: ?x) with (blanks (S level) ++ mark_of (t_data t2) :: x) in H.
    apply blanks_mark in H as (E & _); [lia|assumption|apply mark_of_mark].
  - destruct l2 as [|t2 l2].
    + exfalso. cbn [flat_map] in H. destruct (text_shape input1 t1 (S level)) as [r Hr]. rewrite Hr, <- !app_assoc in H. cbn in H.
      destruct S2 as [-> |(k & c & r' & Hk & Hc & ->)]; [discriminate|].
      change (x20 :: x20 :: blanks level ++ mark_of (t_data t1) :: ?x) with (blanks (S level) ++ mark_of (t_data t1) :: x) in H.
      apply blanks_mark in H as (E & _); [lia|apply mark_of_mark|assumption].
    + cbn [flat_map] in *. apply Forall_app in P1t as [P1a P1b]. apply Forall_app in P2t as [P2a P2b]. rewrite <- !app_assoc in H.
      apply Ht in H as [H1 H]; [|assumption..|apply texts_shallow; assumption|apply texts_shallow; assumption].
      apply IHl in H as [H2 H3]; auto. cbn [map]. split; [now rewrite H1, H2|exact H3].
Qed.

Lemma blanks_repeat l : blanks l = repeat x20 (2 * l).
Proof. induction l as [|l IH]; [reflexivity|]. replace (2 * S l) with (S (S (2 * l))) by lia. cbn [blanks repeat]. now rewrite IH. Qed.
Lemma node_line_text input d level : node_line input d level = line_text level (label_of input d).
Proof.
  unfold node_line, line_text. rewrite blanks_repeat.
  assert (Ht : title (label_of input d) = shown_name d).
  { unfold title, label_of, shown_name. cbn [l_rule l_choice l_merged]. rewrite bytes_eqb_dec. destruct (_ <? _), (bytes_dec _ _); reflexivity. }
  rewrite Ht. unfold label_of. cbn [l_token]. destruct (a_is_token d); rewrite <- ?app_assoc; reflexivity.
Qed.
Theorem print_text h input a t : tree_at h a t -> exists f0, forall f, f0 <= f ->
  ast_to_s h input None f a = Ok (flat_map (fun p => line_text (fst p) (label_of input (snd p))) (with_depths 0 t)).
Proof.
  assert (Hx : forall l, flat_map (fun p => node_line input (snd p) (fst p)) l = flat_map (fun p => line_text (fst p) (label_of input (snd p))) l).
  { intros l. apply flat_map_ext. intros [n d]. apply node_line_text. }
  intros H. destruct (print_core input h t a H) as [f0 G]. exists f0. intros f Hf. unfold ast_to_s. rewrite G by assumption. now rewrite text_lines, Hx.
Qed.
Lemma print_ok h input : forall f t a s level s', tree_at h a t -> ast_to_s_core h input None f a s level = Ok s' -> s' = s ++ text input level t.
Proof.
  induction f as [|f IH]; intros t a s level s' Ht H; [discriminate|]. inversion Ht as [a0 c ts Hc Hts E1 E2]; subst. cbn [ast_to_s_core] in H.
  unfold get_cell in H. rewrite Hc in H. cbn [bind] in H. cbn [text]. rewrite app_assoc. revert H. generalize (s ++ node_line input (n_data c) level). clear Ht Hc.
  induction Hts as [|n t ns ts Hn Hns IHn]; intros s0 H.
  - injection H as <-. cbn. now rewrite app_nil_r.
  - destruct (ast_to_s_core h input None f n s0 (level + 1)) as [s1| | |] eqn:E; try discriminate H. cbn [bind] in H.
    apply (IH t) in E; [|assumption]. apply IHn in H. subst. cbn [flat_map]. rewrite Nat.add_1_r. now rewrite app_assoc.
Qed.
Theorem print_read h1 h2 input1 input2 a1 a2 t1 t2 f1 f2 s : tree_at h1 a1 t1 -> tree_at h2 a2 t2 -> plain_tree input1 t1 -> plain_tree input2 t2 ->
  ast_to_s h1 input1 None f1 a1 = Ok s -> ast_to_s h2 input2 None f2 a2 = Ok s -> outline_of input1 t1 = outline_of input2 t2.
Proof.
  intros T1 T2 P1 P2 H1 H2. apply (print_ok _ _ _ t1) in H1; [|assumption]. apply (print_ok _ _ _ t2) in H2; [|assumption].
  cbn [app] in *. subst s. destruct (text_read input1 input2 t1 t2 0 [] [] P1 P2 (or_introl eq_refl) (or_introl eq_refl)) as [E _]; [|exact E].
  now rewrite !app_nil_r.
Qed.
