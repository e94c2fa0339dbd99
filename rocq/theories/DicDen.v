(** * A dictionary is the prioritized choice of its words, longest first. *)
From Verif Require Import Base BaseLemmas Escape TrieM TrieSpec TrieProofs PegSpec.

(** The words a dictionary holds: the listed texts that it matches in full, longest first. *)
Definition dic_holds (t : trie) (w : bytes) : bool := fst (trie_match t w) =? List.length w.
Definition dic_words (t : trie) : list bytes :=
  flat_map (fun n => filter (fun w => (List.length w =? n) && dic_holds t w) (map fst (t_dic t))) (rev (seq 1 (t_max_len t))).

Lemma dfind_In k d i : dfind k d = Some i -> In k (map fst d).
Proof.
  induction d as [|[k' v] d IH]; [discriminate|]. cbn. destruct (bytes_eqb k' k) eqn:E; [|auto].
  intros _. left. now apply bytes_eqb_eq in E.
Qed.
Lemma loop_ge d s l : forall f len m id, fst (trie_loop f d s l len m id) = m \/
  (len <= fst (trie_loop f d s l len m id) <= l /\ In (firstn (fst (trie_loop f d s l len m id)) s) (map fst d)).
Proof.
  induction f as [|f IH]; intros len m id; cbn [trie_loop]; [auto|].
  destruct (len <=? l) eqn:Hl; [|auto]. apply Nat.leb_le in Hl.
  destruct (dfind (firstn len s) d) as [it|] eqn:Hd; [|auto].
  assert (Hk : In (firstn len s) (map fst d)) by (eapply dfind_In; eauto).
  destruct (i_done it); cbn [fst].
  - destruct (i_match it); [right; split; [lia|exact Hk]|auto].
  - destruct (IH (len + 1) (if i_match it then len else m) (if i_match it then Some (i_id it) else id)) as [H|[H1 H2]].
    + rewrite H. destruct (i_match it); [right; split; [lia|exact Hk]|auto].
    + right. split; [lia|exact H2].
Qed.
(** A longer text with the same beginning is matched at least as far. *)
Lemma loop_ext d a b la lb : la <= lb -> (forall n, n <= la -> firstn n a = firstn n b) ->
  forall fa fb len m ia ib, la < len + fa -> lb < len + fb -> m < len -> m <= la ->
  let ra := fst (trie_loop fa d a la len m ia) in let rb := fst (trie_loop fb d b lb len m ib) in
  ra <= rb /\ (rb <= la -> ra = rb).
Proof.
  intros Hab Hn. induction fa as [|fa IH]; intros fb len m ia ib Ha Hb Hm Hma.
  - cbn [trie_loop fst]. destruct (loop_ge d b lb fb len m ib) as [H|[H _]]; cbv zeta; lia.
  - cbn [trie_loop]. destruct (len <=? la) eqn:Hl; [|apply Nat.leb_gt in Hl; cbn [fst]; destruct (loop_ge d b lb fb len m ib) as [H|[H _]]; cbv zeta; lia].
    apply Nat.leb_le in Hl. destruct fb as [|fb]; [lia|]. cbn [trie_loop]. replace (len <=? lb) with true by (symmetry; apply Nat.leb_le; lia).
    rewrite (Hn len Hl). destruct (dfind (firstn len b) d) as [it|]; [|cbn; lia].
    destruct (i_done it); [cbn; lia|]. apply IH; try lia; destruct (i_match it); lia.
Qed.

Lemma same_text_firstn ic n s : same_text ic (firstn n s) = firstn n (same_text ic s).
Proof. unfold same_text. destruct ic; [|reflexivity]. symmetry. apply firstn_map. Qed.
Lemma same_text_twice ic s : same_text ic (same_text ic s) = same_text ic s.
Proof. unfold same_text. destruct ic; [|reflexivity]. rewrite map_map. apply map_ext. now intros []. Qed.
(** The text walked by the trie. *)
Lemma walked t s n : n <= Nat.min (List.length s) (t_max_len t) ->
  firstn n (if t_ignore_case t then to_lower (firstn (Nat.min (List.length s) (t_max_len t)) s) else s) = same_text (t_ignore_case t) (firstn n s).
Proof.
  intros Hn. unfold same_text. destruct (t_ignore_case t); [|reflexivity]. rewrite to_lower_fold, firstn_map, firstn_firstn. do 2 f_equal. lia.
Qed.
Lemma match_len t s : fst (trie_match t s) <= Nat.min (List.length s) (t_max_len t).
Proof. unfold trie_match. edestruct (loop_ge (t_dic t)) as [H|[H _]]; [|exact (proj2 H)]. rewrite H. lia. Qed.
(** The matched text is one of the words. *)
Lemma match_word t s : 0 < fst (trie_match t s) ->
  In (same_text (t_ignore_case t) (firstn (fst (trie_match t s)) s)) (dic_words t).
Proof.
  intros H0. pose proof (match_len t s) as Hl. remember (fst (trie_match t s)) as i eqn:Hi.
  set (w := same_text (t_ignore_case t) (firstn i s)).
  assert (Hw : List.length w = i) by (unfold w; rewrite same_text_length, firstn_length; lia).
  unfold dic_words. apply in_flat_map. exists i. split; [rewrite <- in_rev; apply in_seq; lia|]. apply filter_In. split.
  - unfold trie_match in Hi. edestruct (loop_ge (t_dic t)) as [H|[_ H]]; [rewrite H in Hi; lia|].
    rewrite <- Hi, walked in H by lia. exact H.
  - rewrite Hw, Nat.eqb_refl. unfold dic_holds. rewrite Hw. apply Nat.eqb_eq.
    assert (Hwl : Nat.min (List.length w) (t_max_len t) = i) by lia.
    assert (X : forall n, n <= i -> firstn n (if t_ignore_case t then to_lower (firstn (Nat.min (List.length w) (t_max_len t)) w) else w)
      = firstn n (if t_ignore_case t then to_lower (firstn (Nat.min (List.length s) (t_max_len t)) s) else s)).
    { intros n Hn. rewrite !walked by lia. unfold w. rewrite same_text_firstn, same_text_twice, <- same_text_firstn, firstn_firstn. f_equal. f_equal. lia. }
    unfold trie_match in Hi |- *. etransitivity; [|symmetry; exact Hi]. apply loop_ext; try lia. intros n Hn. apply X. lia.
Qed.
(** Any word that fits is at most as long as what is matched. *)
Lemma word_match t s w : In w (dic_words t) -> same_text (t_ignore_case t) (firstn (List.length w) s) = same_text (t_ignore_case t) w ->
  0 < List.length w <= fst (trie_match t s).
Proof.
  intros H Hs. unfold dic_words in H. apply in_flat_map in H as (n & Hn & H). rewrite <- in_rev, in_seq in Hn.
  apply filter_In in H as [_ H]. apply andb_prop in H as [H1 H2]. apply Nat.eqb_eq in H1. subst n. split; [lia|].
  unfold dic_holds in H2. apply Nat.eqb_eq in H2. rewrite <- H2 at 1.
  assert (Hl : List.length w <= List.length s).
  { apply (f_equal (@List.length _)) in Hs. rewrite !same_text_length, firstn_length in Hs. lia. }
  unfold trie_match. apply loop_ext; try lia.
  intros n Hm. rewrite !walked by lia.
  replace (firstn n s) with (firstn n (firstn (List.length w) s)) by (rewrite firstn_firstn; f_equal; lia).
  rewrite (same_text_firstn _ n (firstn _ s)), Hs. apply same_text_firstn.
Qed.
Lemma dic_words_pos t w : In w (dic_words t) -> w <> [].
Proof.
  intros H ->. unfold dic_words in H. apply in_flat_map in H as (n & Hn & H). rewrite <- in_rev, in_seq in Hn.
  apply filter_In in H as [_ H]. apply andb_prop in H as [H _]. apply Nat.eqb_eq in H. cbn in H. lia.
Qed.
(** Longer words come first. *)
Lemma words_sorted t l1 w l2 w' : dic_words t = l1 ++ w :: l2 -> In w' l2 -> List.length w' <= List.length w.
Proof.
  unfold dic_words. generalize (map fst (t_dic t)). intros ks. generalize (dic_holds t). intros h.
  revert l1. generalize (t_max_len t). intros n. 
  assert (B : forall n w, In w (flat_map (fun n => filter (fun w => (List.length w =? n) && h w) ks) (rev (seq 1 n))) -> List.length w <= n).
  { clear. intros n w H. apply in_flat_map in H as (k & Hk & H). rewrite <- in_rev, in_seq in Hk. apply filter_In in H as [_ H].
    apply andb_prop in H as [H _]. apply Nat.eqb_eq in H. lia. }
  induction n as [|n IH]; intros l1 H Hw; [destruct l1; discriminate|].
  rewrite seq_S, rev_app_distr in H. cbn [rev app plus flat_map] in H.
  set (A := filter (fun w => (List.length w =? S n) && h w) ks) in H. assert (HA : forall x, In x A -> List.length x = S n).
  { intros x Hx. apply filter_In in Hx as [_ Hx]. apply andb_prop in Hx as [Hx _]. now apply Nat.eqb_eq in Hx. }
  clearbody A. revert l1 H. induction A as [|a A IHA]; intros l1 H; [cbn in H; eapply IH; eauto|].
  destruct l1 as [|x l1]; cbn in H; injection H as -> H.
  - rewrite (HA w) by (now left). rewrite <- H in Hw. apply in_app_or in Hw as [Hw|Hw]; [rewrite (HA w') by (now right); lia|]. apply B in Hw. lia.
  - eapply IHA; [|exact H]. intros; apply HA; now right.
Qed.

(** ** The dictionary as an expression *)
Definition dic_exp {NT} (t : trie) : pexp NT := PAlts (map (PLit (t_ignore_case t)) (dic_words t)).

Section Exp.
  Context {NT : Type}.
  Variable G : NT -> pexp NT.
  Lemma lit_result ic w s r : peg G (PLit ic w) s r ->
    match r with
    | Some t => same_text ic (firstn (List.length w) s) = same_text ic w /\ t = skipn (List.length w) s
    | None => same_text ic (firstn (List.length w) s) <> same_text ic w
    end.
  Proof.
    intros H. inversion H as [|? ? x t Hx E1 E2 E3|? ? t Hn E1 E2 E3| | | | | | | | | | | |]; subst.
    - assert (Hl : List.length x = List.length w) by (apply (f_equal (@List.length _)) in Hx; now rewrite !same_text_length in Hx).
      rewrite <- Hl, firstn_app, firstn_all, skipn_app, skipn_all, Nat.sub_diag. cbn. rewrite app_nil_r. auto.
    - eapply Hn. symmetry. apply firstn_skipn.
  Qed.
  Lemma alts_result ic l s r : peg G (PAlts (map (PLit ic) l)) s r ->
    match r with
    | Some t => exists l1 w l2, l = l1 ++ w :: l2 /\ same_text ic (firstn (List.length w) s) = same_text ic w /\ t = skipn (List.length w) s
                  /\ forall w', In w' l1 -> same_text ic (firstn (List.length w') s) <> same_text ic w'
    | None => forall w, In w l -> same_text ic (firstn (List.length w) s) <> same_text ic w
    end.
  Proof.
    revert r. induction l as [|w l IH]; intros r H; cbn [map PAlts fold_right] in H.
    - inversion H; subst; [intros ? []|]. match goal with X : peg _ PEps _ None |- _ => inversion X end.
    - inversion H as [| | | | | | | | |? ? ? t H1 E1 E2 E3|? ? ? r' H1 H2 E1 E2 E3| | | |]; subst.
      + apply lit_result in H1 as [H1 H2]. exists [], w, l. split; [reflexivity|]. split; [exact H1|]. split; [exact H2|]. intros ? [].
      + apply lit_result in H1. apply IH in H2. destruct r as [t|].
        * destruct H2 as (l1 & w1 & l2 & -> & A & B & C). exists (w :: l1), w1, l2. split; [reflexivity|]. split; [exact A|]. split; [exact B|].
          intros w' [<- | Hw]; auto.
        * intros w' [<- | Hw]; auto.
  Qed.
  (** The expression of a dictionary does what the dictionary does. *)
  Theorem dic_result t s r : peg G (dic_exp t) s r ->
    r = if fst (trie_match t s) =? 0 then None else Some (skipn (fst (trie_match t s)) s).
  Proof.
    intros H. apply alts_result in H. destruct (fst (trie_match t s)) as [|n] eqn:Hn; cbn [Nat.eqb].
    - destruct r as [u|]; [|reflexivity]. destruct H as (l1 & w & l2 & E & A & B & C). exfalso.
      destruct (word_match t s w) as [X Y]; [rewrite E; apply in_elt|exact A|]. lia.
    - assert (Hin : In (same_text (t_ignore_case t) (firstn (S n) s)) (dic_words t)) by (rewrite <- Hn; apply match_word; lia).
      pose proof (match_len t s) as Hl. rewrite Hn in Hl.
      set (x := same_text (t_ignore_case t) (firstn (S n) s)) in *.
      assert (Hx : List.length x = S n) by (unfold x; rewrite same_text_length, firstn_length; lia).
      assert (Hm : same_text (t_ignore_case t) (firstn (List.length x) s) = same_text (t_ignore_case t) x) by (rewrite Hx; unfold x; now rewrite same_text_twice).
      destruct r as [u|]; [|exfalso; exact (H x Hin Hm)].
      destruct H as (l1 & w & l2 & E & A & B & C). subst u.
      assert (Hw : List.length w <= S n) by (destruct (word_match t s w) as [_ Y]; [rewrite E; apply in_elt|exact A|lia]).
      assert (Hw2 : S n <= List.length w).
      { rewrite E in Hin. apply in_app_or in Hin as [Hin|[<- | Hin]]; [exfalso; exact (C x Hin Hm)|lia|]. rewrite <- Hx. eapply words_sorted; eauto. }
      do 2 f_equal. lia.
  Qed.
  Lemma alts_total ic l s : exists r, peg G (PAlts (map (PLit ic) l)) s r.
  Proof.
    induction l as [|w l [r IH]]; cbn [map PAlts fold_right].
    - exists None. eapply peg_not. constructor.
    - destruct (bytes_eqb (same_text ic (firstn (List.length w) s)) (same_text ic w)) eqn:E.
      + apply bytes_eqb_eq in E. exists (Some (skipn (List.length w) s)). apply peg_alt1.
        rewrite <- (firstn_skipn (List.length w) s) at 1. now apply peg_lit.
      + apply bytes_eqb_neq in E. exists r. apply peg_alt2; [|exact IH]. apply peg_lit_no. intros x t -> Hx. apply E.
        assert (Hl : List.length x = List.length w) by (apply (f_equal (@List.length _)) in Hx; now rewrite !same_text_length in Hx).
        rewrite <- Hl, firstn_app, firstn_all, Nat.sub_diag. cbn. now rewrite app_nil_r.
  Qed.
  Theorem dic_total t s : peg G (dic_exp t) s (if fst (trie_match t s) =? 0 then None else Some (skipn (fst (trie_match t s)) s)).
  Proof. destruct (alts_total (t_ignore_case t) (dic_words t) s) as [r H]. rewrite <- (dic_result t s r H). exact H. Qed.
End Exp.
Lemma dic_any {N1 N2} (G1 : N1 -> pexp N1) (G2 : N2 -> pexp N2) t s r : peg G1 (dic_exp t) s r -> peg G2 (dic_exp t) s r.
Proof. intros H. rewrite (dic_result G1 t s r H). apply dic_total. Qed.

(** The words are those the dictionary was made of (up to case if case is ignored). *)
Theorem dic_words_made (items : list bytes) (ic : bool) :
  (forall w, In w (dic_words (make_trie items ic)) -> exists item, In item items /\ item <> [] /\ same_text ic w = same_text ic item)
  /\ (forall item, In item items -> item <> [] -> In (same_text ic item) (dic_words (make_trie items ic))).
Proof.
  assert (Hic : t_ignore_case (make_trie items ic) = ic) by (unfold make_trie; now destruct (trie_items ic items 0 [] 0)).
  split.
  - intros w H. pose proof (word_match _ w w H) as X. rewrite firstn_all in X. specialize (X eq_refl).
    destruct (trie_match_best items ic w) as [(A & _ & _)|(A & B & _ & C)]; [lia|].
    destruct B as [(item & Hi & [Hne Hp] & Hl) _]. exists item. split; [exact Hi|]. split; [exact Hne|].
    pose proof (match_len (make_trie items ic) w). apply prefix_same_len in Hp; [congruence|]. rewrite !same_text_length. lia.
  - intros item Hi Hne. set (t := make_trie items ic) in *.
    assert (Hm : fst (trie_match t item) = List.length item).
    { pose proof (match_len t item). assert (W : word_matches ic item item) by (split; [exact Hne|exists []; now rewrite app_nil_r]).
      destruct (trie_match_best items ic item) as [(_ & _ & A)|(_ & [_ B] & _)]; [destruct (A item Hi W)|]. specialize (B item Hi W). fold t in B. lia. }
    assert (H : In (same_text (t_ignore_case t) (firstn (fst (trie_match t item)) item)) (dic_words t)).
    { apply match_word. rewrite Hm. destruct item; [congruence|cbn; lia]. }
    rewrite Hm, firstn_all, Hic in H. exact H.
Qed.
