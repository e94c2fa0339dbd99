(** * What precedence climbing builds (reference level): the grouped tree. *)
From Verif Require Import Base BaseLemmas Utf8 Escape TrieM LineInfo Ope Ctx ErrLog Engine RefSem PrecSpec.

Section PrecTree.
  Context {V U : Type}.
  Variable E : env V U.
  Variable run : ope -> nat -> sv V -> option (rv V).
  Variable tok : nat -> option bytes.
  Variables (atom binop : ope) (info : binop_info) (rl : rid).
  (* operands and operators leave one value *)
  Hypothesis Hatom : forall p n vs, run atom p sv_new = Some (Some (n, vs)) -> exists v, v_vals vs = [v].
  Hypothesis Hbin : forall p n vs, run binop p sv_new = Some (Some (n, vs)) -> exists v, v_vals vs = [v].

  Notation etree := (tree (operand_at V) (operator_at V)).
  Definition t_operand (x : operand_at V) : Prop :=
    exists vs, run atom (oa_pos x) sv_new = Some (Some (oa_len x, vs)) /\ v_vals vs = [oa_val x].
  Definition t_operator (o : operator_at V) : Prop :=
    (exists vs, run binop (op_pos o) sv_new = Some (Some (op_len o, vs)) /\ v_vals vs = [op_val o])
    /\ tok (op_pos o) = Some (op_tok o) /\ binfo_find info (op_tok o) <> None.
  Definition t_prec (o : operator_at V) : nat * bool :=
    match binfo_find info (op_tok o) with Some p => p | None => (0, false) end.
  Definition t_act (s n : nat) (a o b v : option V) : Prop :=
    match e_action E rl with
    | Some f => exists vs, v_vals vs = [a; o; b] /\ v_sv vs = (s, n) /\ v = fst (f (e_input E) vs (e_u0 E) None)
    | None => v = a
    end.
  (** No operator of level [mn] or more can follow at [p]. *)
  Definition t_ended (mn p : nat) : Prop :=
    inlen E <= p \/ run binop p sv_new = Some None
    \/ exists n vs t, run binop p sv_new = Some (Some (n, vs)) /\ tok p = Some t
         /\ match binfo_find info t with Some (lv, _) => lv < mn | None => True end.
  Definition next_ok (t : etree) : Prop :=
    match t with
    | Leaf _ => True
    | Node _ o _ => forall o', stop t < inlen E -> t_operator o' -> op_pos o' = stop t ->
        level t_prec o' < level t_prec o \/ (level t_prec o' = level t_prec o /\ left_assoc t_prec o)
    end.
  Record good (mn pos stp : nat) (t : etree) (w : option V) : Prop := {
    g_placed : placed t_operand t_operator t;
    g_start : start t = pos;
    g_stop : stop t = stp;
    g_grouped : grouped t_prec t;
    g_min : forall o, has_op t o -> mn <= level t_prec o;
    g_val : evaluates t_act t w
  }.
  Lemma has_op_node l o r o' : has_op (Node l o r) o' <-> has_op (L := operand_at V) (O := operator_at V) l o' \/ o' = o \/ has_op r o'.
  Proof.
    unfold has_op. cbn [yield]. rewrite in_app_iff. cbn. split; intros [H|[H|H]]; auto; [injection H; auto|subst; auto].
  Qed.
  Lemma placed_le (t : etree) : placed t_operand t_operator t -> start t <= stop t.
  Proof. induction t as [x|l IHl o r IHr]; cbn; [lia|]. intros (A & B & _ & C & D). specialize (IHl A). specialize (IHr D). lia. Qed.

  (** Growing a tree to the right. *)
  Lemma good_node mn pos mid pos2 stp t o t2 a b v :
    good mn pos mid t a -> next_ok t -> mid < inlen E -> t_operator o -> op_pos o = mid -> op_pos o + op_len o = pos2 ->
    mn <= level t_prec o ->
    good (if snd (t_prec o) then S (level t_prec o) else level t_prec o) pos2 stp t2 b ->
    t_act pos (stp - pos) a (op_val o) b v -> good mn pos stp (Node t o t2) v.
  Proof.
    intros [P1 P2 P3 P4 P5 P6] Hn Hlt Ho Hp1 Hp2 Hmn [Q1 Q2 Q3 Q4 Q5 Q6] Hact. constructor; cbn [placed start stop grouped]; auto.
    - repeat (split; [first [assumption|congruence]|]). assumption.
    - split; [assumption|]. split; [assumption|]. split.
      + intros o' Hin. destruct t as [x|l o1 r]; [destruct Hin as [Hin|[]]; discriminate|].
        rewrite <- P3 in Hlt. cbn [next_ok] in Hn. specialize (Hn o Hlt Ho ltac:(congruence)).
        cbn [grouped] in P4. destruct P4 as (_ & _ & G1 & G2). apply has_op_node in Hin as [Hin|[->|Hin]].
        * specialize (G1 _ Hin). destruct Hn as [Hn|[Hn _]], G1 as [G1|[G1 G3]]; try (left; lia). right. split; [lia|exact G3].
        * destruct Hn as [Hn|[Hn H2]]; [now left|]. right. split; [lia|exact H2].
        * specialize (G2 _ Hin). destruct Hn as [Hn|[Hn H3]], G2 as [G2|[G2 G3]]; try (left; lia). contradiction.
      + intros o' Hin. specialize (Q5 _ Hin). unfold left_assoc, level in *. destruct (snd (t_prec o)) eqn:Hl; [left; lia|].
        destruct (Nat.eq_dec (fst (t_prec o)) (fst (t_prec o'))); [right; split; [assumption|discriminate]|left; lia].
    - intros o' Hin. apply has_op_node in Hin as [Hin|[->|Hin]]; auto. specialize (Q5 _ Hin). destruct (snd (t_prec o)); lia.
    - econstructor; eauto. rewrite P2, Q3. exact Hact.
  Qed.
  Lemma ended_next o l r mn stp : stop (Node l o r) = stp -> t_ended mn stp ->
    mn = (if snd (t_prec o) then S (level t_prec o) else level t_prec o) -> next_ok (Node l o r).
  Proof.
    intros Hs He ->. cbn [next_ok]. intros o' Hlt [(vs & H1 & _) [H2 H3]] Hp. rewrite Hs in *. rewrite Hp in *.
    destruct He as [He|[He|(n & vs2 & tk & A & B & C)]]; [lia|congruence|].
    rewrite H2 in B. injection B as B. subst tk. unfold level, left_assoc in *.
    assert (Hlv : match binfo_find info (op_tok o') with Some (lv, _) => lv | None => 0 end = fst (t_prec o')).
    { unfold t_prec. destruct (binfo_find info (op_tok o')) as [[]|]; reflexivity. }
    destruct (binfo_find info (op_tok o')) as [[lv la]|]; [|congruence]. rewrite <- Hlv. destruct (snd (t_prec o)) eqn:Hl; [|left; lia].
    assert (lv <= fst (t_prec o)) by lia. destruct (Nat.eq_dec lv (fst (t_prec o))); [right; auto|left; lia].
  Qed.

  (** The loop extends a tree until no operator of its level follows. *)
  Theorem climb_tree : forall fuel mn pos i vs t w x, v_vals vs = [w] -> good mn pos (pos + i) t w -> next_ok t ->
    ref_climb fuel E run tok atom binop info rl mn pos i vs = Some x ->
    match x with
    | Some (i', vs') => exists t' w', v_vals vs' = [w'] /\ good mn pos (pos + i') t' w' /\ t_ended mn (pos + i')
    | None => exists t' o, placed t_operand t_operator t' /\ start t' = pos /\ t_operator o /\ op_pos o = stop t'
               /\ run atom (op_pos o + op_len o) sv_new = Some None
    end.
  Proof.
    induction fuel as [|fuel IH]; intros mn pos i vs t w x Hv Hg Hn H; cbn [ref_climb] in H.
    { destruct (pos + i <? inlen E) eqn:Hlt; [discriminate|]. injection H as <-. exists t, w. apply Nat.ltb_ge in Hlt.
      split; [exact Hv|]. split; [exact Hg|]. now left. }
    destruct (pos + i <? inlen E) eqn:Hlt.
    2:{ injection H as <-. exists t, w. apply Nat.ltb_ge in Hlt. split; [exact Hv|]. split; [exact Hg|]. now left. }
    apply Nat.ltb_lt in Hlt.
    destruct (run binop (pos + i) sv_new) as [[[n ov]|]|] eqn:Hrb; [| |discriminate]; cbn [obind] in H.
    2:{ injection H as <-. exists t, w. split; [exact Hv|]. split; [exact Hg|]. right. now left. }
    destruct (tok (pos + i)) as [tk|] eqn:Htk; [|discriminate]. cbn [obind] in H.
    destruct (binfo_find info tk) as [[lv la]|] eqn:Hbi.
    2:{ injection H as <-. exists t, w. split; [exact Hv|]. split; [exact Hg|]. right. right. exists n, ov, tk. rewrite Hbi. auto. }
    destruct (lv <? mn) eqn:Hmn.
    { injection H as <-. exists t, w. apply Nat.ltb_lt in Hmn. split; [exact Hv|]. split; [exact Hg|]. right. right. exists n, ov, tk. rewrite Hbi. auto. }
    apply Nat.ltb_ge in Hmn. destruct (Hbin _ _ _ Hrb) as [o Ho]. rewrite Ho in H. cbn [hd_error obind] in H.
    set (op := {| op_pos := pos + i; op_len := n; op_tok := tk; op_val := o |}).
    assert (Hop : t_operator op) by (split; [exists ov; auto|]; cbn; split; [assumption|congruence]).
    assert (Hpr : t_prec op = (lv, la)) by (unfold t_prec; cbn; now rewrite Hbi).
    assert (Hlv : level t_prec op = lv) by (unfold level; now rewrite Hpr).
    destruct (run atom (pos + (i + n)) sv_new) as [[[n2 va]|]|] eqn:Hra; [| |discriminate]; cbn [obind] in H.
    2:{ injection H as <-. exists t, op. split; [apply Hg|]. split; [apply Hg|]. split; [exact Hop|]. split; [symmetry; apply Hg|].
        cbn. rewrite <- Nat.add_assoc. exact Hra. }
    destruct (Hatom _ _ _ Hra) as [a Ha].
    set (leaf := Leaf {| oa_pos := pos + (i + n); oa_len := n2; oa_val := a |} : etree).
    destruct (ref_climb fuel E run tok atom binop info rl (if la then S lv else lv) (pos + (i + n)) n2 va) as [re|] eqn:Hre; [|discriminate].
    cbn [obind] in H.
    assert (Hleaf : good (if la then S lv else lv) (pos + (i + n)) (pos + (i + n) + n2) leaf a).
    { constructor; cbn; auto; [exists va; auto|intros o' [X|[]]; discriminate|].
      exact (ev_leaf t_act {| oa_pos := pos + (i + n); oa_len := n2; oa_val := a |}). }
    pose proof (IH _ _ _ _ leaf a _ Ha Hleaf I Hre) as Hsub. destruct re as [[l2 ve]|].
    2:{ injection H as <-. destruct Hsub as (t' & o' & A & B & C & D & F). exists (Node t op t'), o'. split; [|auto].
        - cbn [placed]. split; [apply Hg|]. split; [apply Hg|]. split; [exact Hop|]. split; [cbn; lia|exact A].
        - split; [cbn; apply Hg|]. auto. }
    destruct Hsub as (t2 & b & Hb & Hg2 & He2). rewrite Hb in H. cbn [hd_error obind] in H. rewrite Hv in H. cbn [app] in H.
    match type of H with ref_climb fuel E run tok atom binop info rl mn pos ?i2 ?v3 = _ => set (i3 := i2) in H; set (vs3 := v3) in H end.
    assert (Hv3 : exists v, v_vals vs3 = [v] /\ t_act pos i3 w o b v).
    { unfold vs3, t_act. destruct (e_action E rl) as [f|]; [|exists w; auto].
      eexists. split; [reflexivity|]. eexists. split; [|split; [|reflexivity]]; reflexivity. }
    destruct Hv3 as (v & Hv3 & Hact).
    assert (Hstp : pos + (i + n) + l2 = pos + i3) by (unfold i3; lia).
    rewrite Hstp in Hg2, He2.
    apply (IH mn pos i3 vs3 (Node t op t2) v x Hv3); [| |exact H].
    - apply (good_node mn pos (pos + i) (pos + (i + n)) (pos + i3) t op t2 w b v); auto.
      + cbn. lia.
      + now rewrite Hlv.
      + now rewrite Hlv, Hpr.
      + replace (pos + i3 - pos) with i3 by lia. exact Hact.
    - eapply ended_next; [|exact He2|]; [apply Hg2|]. now rewrite Hlv, Hpr.
  Qed.

  (** A precedence expression: the grouped tree of everything up to where no
      operator of the table follows; or an operand is missing. *)
  Theorem pre_tree fuel pos x :
    ref_pre fuel E run tok atom binop info rl pos sv_new = Some x ->
    match x with
    | Some (n, vs) => exists t w, v_vals vs = [w] /\ good 0 pos (pos + n) t w /\ t_ended 0 (pos + n)
    | None => run atom pos sv_new = Some None
              \/ exists t o, placed t_operand t_operator t /\ start t = pos /\ t_operator o /\ op_pos o = stop t
                   /\ run atom (op_pos o + op_len o) sv_new = Some None
    end.
  Proof.
    intros H. unfold ref_pre in H. destruct (run atom pos sv_new) as [[[n va]|]|] eqn:Hra; [| |discriminate]; cbn [obind] in H.
    2:{ injection H as <-. now left. }
    destruct (Hatom _ _ _ Hra) as [a Ha].
    set (leaf := Leaf {| oa_pos := pos; oa_len := n; oa_val := a |} : etree).
    assert (Hleaf : good 0 pos (pos + n) leaf a).
    { constructor; cbn; auto; [exists va; auto|intros o' [X|[]]; discriminate|].
      exact (ev_leaf t_act {| oa_pos := pos; oa_len := n; oa_val := a |}). }
    pose proof (climb_tree _ _ _ _ _ leaf a _ Ha Hleaf I H) as Hc. destruct x as [[n' vs']|]; [exact Hc|]. right. exact Hc.
  Qed.
End PrecTree.
