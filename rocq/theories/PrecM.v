(** * Building the operator table and applying the precedence instruction. *)
From Verif Require Import Base BaseLemmas Utf8 Escape TrieM LineInfo Ope Ctx ErrLog Engine PrecSpec.

(** [binOpeInfo[tok] = p] (std::map). *)
Fixpoint bput (k : bytes) (p : nat * bool) (info : binop_info) : binop_info :=
  match info with
  | [] => [(k, p)]
  | (k', p') :: info' => if bytes_eqb k' k then (k', p) :: info' else (k', p') :: bput k p info'
  end.
(** The action of PrecedenceClimbing, peglib.h 6078-6091.  A line is the vector of
    tokens of one PrecedenceInfo (6095); [true] if its first token begins with L. *)
Definition prec_line (lv : nat) (la : bool) (toks : list bytes) (info : binop_info) : binop_info :=
  fold_left (fun i tk => bput tk (lv, la) i) toks info.
Fixpoint prec_lines (lv : nat) (ls : table_lines) (info : binop_info) : binop_info :=
  match ls with
  | [] => info
  | (la, toks) :: ls' => prec_lines (S lv) ls' (prec_line lv la toks info)
  end.
Definition prec_table (ls : table_lines) : binop_info := prec_lines 1 ls [].

(** apply_precedence_instruction, 6136-6175: the body of the rule must be
    [atom (binop atom)*] with references for [atom] and [binop].  [None]: the
    instruction cannot be applied. *)
Definition apply_precedence (r : rid) (info : binop_info) (body : ope) : option ope :=
  match body with
  | Seq _ (Ref na ra ia ma aa :: Rep (Seq _ (Ref nb rb ib mb ab :: Ref na1 _ _ _ _ :: _)) 0 None _ :: _) =>
    if bytes_eqb na na1 && negb (bytes_eqb na nb) then Some (Pre (Ref na ra ia ma aa) (Ref nb rb ib mb ab) info r) else None
  | _ => None
  end.

Lemma bytes_eqb_refl k : bytes_eqb k k = true.
Proof. now apply bytes_eqb_eq. Qed.
Lemma bfind_put k p info t : binfo_find (bput k p info) t = if bytes_eqb k t then Some p else binfo_find info t.
Proof.
  unfold binfo_find. induction info as [|[k' p'] info IH]; cbn [bput find fst].
  - destruct (bytes_eqb k t); reflexivity.
  - destruct (bytes_eqb k' k) eqn:H; cbn [find fst].
    + apply bytes_eqb_eq in H as ->. destruct (bytes_eqb k t) eqn:Hk; [reflexivity|]. reflexivity.
    + destruct (bytes_eqb k' t) eqn:Hk; [|exact IH]. apply bytes_eqb_eq in Hk as ->.
      destruct (bytes_eqb k t) eqn:Hkt; [|reflexivity]. apply bytes_eqb_eq in Hkt as ->. now rewrite bytes_eqb_refl in H.
Qed.
Lemma bfind_line lv la toks : forall info t,
  binfo_find (prec_line lv la toks info) t = if existsb (fun k => bytes_eqb k t) toks then Some (lv, la) else binfo_find info t.
Proof.
  unfold prec_line. induction toks as [|k toks IH]; intros info t; cbn [fold_left existsb]; [reflexivity|].
  rewrite IH, bfind_put. destruct (existsb _ toks); [now rewrite orb_true_r|]. destruct (bytes_eqb k t); reflexivity.
Qed.
Lemma existsb_tok toks t : existsb (fun k => bytes_eqb k t) toks = true <-> In t toks.
Proof.
  rewrite existsb_exists. split; [intros (k & H & He); apply bytes_eqb_eq in He as ->; exact H|].
  intros H. exists t. split; [exact H|apply bytes_eqb_refl].
Qed.
Lemma bfind_lines ls : forall lv info t n la, binfo_find (prec_lines lv ls info) t = Some (n, la) <->
  (exists i toks, n = lv + i /\ nth_error ls i = Some (la, toks) /\ In t toks
     /\ forall j la' toks', i < j -> nth_error ls j = Some (la', toks') -> ~ In t toks')
  \/ (binfo_find info t = Some (n, la) /\ forall j la' toks', nth_error ls j = Some (la', toks') -> ~ In t toks').
Proof.
  induction ls as [|[la0 toks0] ls IH]; intros lv info t n la; cbn [prec_lines].
  - split; [intros H; right; split; [exact H|]; intros [|j] ? ? X; discriminate|].
    intros [(i & toks & _ & H & _)|[H _]]; [destruct i; discriminate|exact H].
  - rewrite IH, bfind_line. split.
    + intros [(i & toks & -> & H1 & H2 & H3)|[H1 H2]].
      * left. exists (S i), toks. split; [lia|]. split; [exact H1|]. split; [exact H2|].
        intros [|j] la' toks' Hj Hn; [lia|]. apply (H3 j la'); [lia|exact Hn].
      * destruct (existsb _ toks0) eqn:He.
        -- injection H1 as <- <-. left. exists 0, toks0. split; [lia|]. split; [reflexivity|]. split; [now apply existsb_tok|].
           intros [|j] la' toks' Hj Hn; [lia|]. exact (H2 j la' toks' Hn).
        -- right. split; [exact H1|]. intros [|j] la' toks' Hn; [|exact (H2 j la' toks' Hn)]. injection Hn as <- <-. intros Hin.
           apply existsb_tok in Hin. congruence.
    + intros [(i & toks & -> & H1 & H2 & H3)|[H1 H2]].
      * destruct i as [|i].
        -- injection H1 as -> ->. right. rewrite (proj2 (existsb_tok _ _) H2). split; [f_equal; f_equal; lia|].
           intros j la' toks' Hn. apply (H3 (S j) la'); [lia|exact Hn].
        -- left. exists i, toks. split; [lia|]. split; [exact H1|]. split; [exact H2|]. intros j la' toks' Hj Hn. apply (H3 (S j) la'); [lia|exact Hn].
      * right. split; [|intros j la' toks' Hn; exact (H2 (S j) la' toks' Hn)].
        destruct (existsb _ toks0) eqn:He; [|exact H1]. exfalso. apply existsb_tok in He. exact (H2 0 la0 toks0 eq_refl He).
Qed.
(** An operator's level is the number of the last line it is on. *)
Theorem prec_table_line ls t n la : binfo_find (prec_table ls) t = Some (n, la) <-> on_line ls t n la.
Proof.
  unfold prec_table. rewrite bfind_lines. split.
  - intros [(i & toks & -> & H1 & H2 & H3)|[H _]]; [|discriminate]. exists toks. replace (1 + i - 1) with i by lia.
    split; [exact H1|]. split; [lia|]. split; [exact H2|]. intros m la' toks' Hm Hn. apply (H3 (m - 1) la'); [lia|exact Hn].
  - intros (toks & H1 & H2 & H3 & H4). left. exists (n - 1), toks. split; [lia|]. split; [exact H1|]. split; [exact H3|].
    intros j la' toks' Hj Hn. apply (H4 (S j) la' toks'); [lia|]. replace (S j - 1) with j by lia. exact Hn.
Qed.
