From Verif Require Import Base BaseLemmas Escape TrieM TrieSpec.

Lemma dfind_dset k v d k' : dfind k' (dset k v d) = if bytes_eqb k k' then Some v else dfind k' d.
Proof.
  induction d as [|[k0 v0] d IH]; cbn [dset dfind].
  - reflexivity.
  - destruct (bytes_eqb k0 k) eqn:E; cbn [dfind].
    + apply bytes_eqb_eq in E. subst k0. destruct (bytes_eqb k k'); reflexivity.
    + destruct (bytes_eqb k0 k') eqn:E2.
      * apply bytes_eqb_eq in E2. subst k0.
        destruct (bytes_eqb k k') eqn:E3; [|reflexivity].
        apply bytes_eqb_eq in E3. subst k'. rewrite (proj2 (bytes_eqb_eq k k) eq_refl) in E. discriminate.
      * exact IH.
Qed.

Lemma bytes_eqb_refl k : bytes_eqb k k = true.
Proof. apply bytes_eqb_eq. reflexivity. Qed.

Lemma bytes_eqb_neq a b : bytes_eqb a b = false <-> a <> b.
Proof.
  split.
  - intros H ->. rewrite bytes_eqb_refl in H. discriminate.
  - intro H. destruct (bytes_eqb a b) eqn:E; [|reflexivity]. apply bytes_eqb_eq in E. contradiction.
Qed.

Definition upd (last : bool) (id : nat) (o : option info) : info :=
  match o with
  | None => {| i_done := last; i_match := last; i_id := id |}
  | Some it => if last then {| i_done := i_done it; i_match := true; i_id := i_id it |}
               else {| i_done := false; i_match := i_match it; i_id := i_id it |}
  end.

Lemma trie_step_find s id d len k :
  dfind k (trie_step s id d len) =
  if bytes_eqb (firstn len s) k then Some (upd (len =? List.length s) id (dfind k d)) else dfind k d.
Proof.
  unfold trie_step. set (sv := firstn len s).
  destruct (bytes_eqb sv k) eqn:E.
  - apply bytes_eqb_eq in E. subst k. destruct (dfind sv d) as [it|]; cbn [upd].
    + destruct (len =? List.length s); rewrite dfind_dset, bytes_eqb_refl; reflexivity.
    + rewrite dfind_dset, bytes_eqb_refl. reflexivity.
  - destruct (dfind sv d) as [it|]; [destruct (len =? List.length s)|]; rewrite dfind_dset, E; reflexivity.
Qed.

Lemma firstn_inj_len (s : bytes) a b : a <= List.length s -> b <= List.length s ->
  firstn a s = firstn b s -> a = b.
Proof.
  intros Ha Hb E. apply (f_equal (@List.length byte)) in E.
  rewrite !firstn_length in E. lia.
Qed.

(** One insertion, seen through lookups. *)
Lemma trie_fold_find s id lens : NoDup lens -> (forall l, In l lens -> l <= List.length s) ->
  forall d k,
  dfind k (fold_left (trie_step s id) lens d) =
  (if existsb (fun len => bytes_eqb (firstn len s) k) lens
   then Some (upd (List.length k =? List.length s) id (dfind k d)) else dfind k d).
Proof.
  induction 1 as [|len lens Hnin Hnd IH]; intros Hl d k; cbn [fold_left existsb]; [reflexivity|].
  rewrite IH by (intros; apply Hl; right; assumption).
  rewrite trie_step_find.
  destruct (bytes_eqb (firstn len s) k) eqn:E; cbn [orb].
  - apply bytes_eqb_eq in E.
    assert (Hlen : List.length k = len).
    { subst k. rewrite firstn_length. specialize (Hl len (or_introl eq_refl)). lia. }
    replace (existsb (fun len0 => bytes_eqb (firstn len0 s) k) lens) with false.
    + rewrite Hlen. reflexivity.
    + symmetry. destruct (existsb _ lens) eqn:Ex; [|reflexivity].
      apply existsb_exists in Ex as (l2 & Hin & E2). apply bytes_eqb_eq in E2.
      exfalso. apply Hnin. replace len with l2; [exact Hin|].
      apply (firstn_inj_len s); [apply Hl; right; exact Hin|apply Hl; left; reflexivity|congruence].
  - reflexivity.
Qed.

Definition prefixb (k w : bytes) : bool := bytes_eqb (firstn (List.length k) w) k.
Lemma prefixb_spec k w : prefixb k w = true <-> prefix k w.
Proof.
  unfold prefixb, prefix. rewrite bytes_eqb_eq. split.
  - intro H. exists (skipn (List.length k) w). rewrite <- H at 1. symmetry. apply firstn_skipn.
  - intros [r ->]. rewrite firstn_app, Nat.sub_diag, firstn_all, firstn_O, app_nil_r. reflexivity.
Qed.

Lemma prefix_len k w : prefix k w -> List.length k <= List.length w.
Proof. intros [r ->]. rewrite app_length. lia. Qed.

Lemma prefix_same_len k w : prefix k w -> List.length k = List.length w -> k = w.
Proof.
  intros [r ->] H. rewrite app_length in H. destruct r; [rewrite app_nil_r; reflexivity|cbn in H; lia].
Qed.

Lemma trie_insert_find s id d k : k <> [] ->
  dfind k (trie_insert s id d) =
  if prefixb k s then Some (upd (List.length k =? List.length s) id (dfind k d)) else dfind k d.
Proof.
  intro Hk. unfold trie_insert. rewrite trie_fold_find.
  - replace (existsb (fun len => bytes_eqb (firstn len s) k) (seq 1 (List.length s))) with (prefixb k s); [reflexivity|].
    destruct (prefixb k s) eqn:E; symmetry.
    + pose proof E as E'. apply prefixb_spec in E'. apply prefix_len in E'.
      apply existsb_exists. exists (List.length k). split; [|exact E].
      apply in_seq. destruct k; [contradiction|cbn in *; lia].
    + destruct (existsb _ _) eqn:Ex; [|reflexivity].
      apply existsb_exists in Ex as (l2 & Hin & E2). apply in_seq in Hin.
      apply bytes_eqb_eq in E2. exfalso.
      assert (HH : prefixb k s = true); [|congruence].
      apply prefixb_spec. exists (skipn l2 s). rewrite <- E2. symmetry. apply firstn_skipn.
  - apply seq_NoDup.
  - intros l Hl. apply in_seq in Hl. lia.
Qed.

(** Index of the first word that has [k] as a prefix. *)
Fixpoint first_idx (k : bytes) (ws : list bytes) (i : nat) : option nat :=
  match ws with
  | [] => None
  | w :: ws' => if prefixb k w then Some i else first_idx k ws' (S i)
  end.

Lemma first_idx_app k ws w i : first_idx k (ws ++ [w]) i =
  match first_idx k ws i with
  | Some j => Some j
  | None => if prefixb k w then Some (i + List.length ws) else None
  end.
Proof.
  revert i; induction ws as [|x ws IH]; intro i; cbn [app first_idx List.length].
  - rewrite Nat.add_0_r. reflexivity.
  - destruct (prefixb k x); [reflexivity|]. rewrite IH, Nat.add_succ_r. reflexivity.
Qed.

Definition trie_inv (ws : list bytes) (d : dic) : Prop :=
  forall k, k <> [] ->
    option_map i_id (dfind k d) = first_idx k ws 0
    /\ (forall it, dfind k d = Some it ->
          (i_match it = true <-> In k ws)
          /\ (i_done it = true -> forall w, In w ws -> prefix k w -> w = k)).

Lemma trie_inv_insert ws d s : trie_inv ws d -> trie_inv (ws ++ [s]) (trie_insert s (List.length ws) d).
Proof.
  intros Hinv k Hk. specialize (Hinv k Hk) as [H1 H2].
  rewrite trie_insert_find by exact Hk. rewrite first_idx_app.
  destruct (prefixb k s) eqn:E.
  - pose proof E as Ep. apply prefixb_spec in Ep.
    split.
    + cbn [option_map]. destruct (dfind k d) as [it|] eqn:Ed; cbn [option_map upd] in *.
      * rewrite <- H1. destruct (_ =? _); reflexivity.
      * rewrite <- H1. reflexivity.
    + intros it Hit. injection Hit as <-.
      destruct (List.length k =? List.length s) eqn:El.
      * apply Nat.eqb_eq in El. assert (k = s) by (apply prefix_same_len; assumption). subst s.
        destruct (dfind k d) as [it|] eqn:Ed; cbn [upd i_match i_done].
        -- destruct (H2 it eq_refl) as [A B]. split.
           ++ split; [intros _; apply in_or_app; right; left; reflexivity|reflexivity].
           ++ intros Hd w Hw Hp. apply in_app_or in Hw as [Hw|[<-|[]]]; [apply B; assumption|reflexivity].
        -- split.
           ++ split; [intros _; apply in_or_app; right; left; reflexivity|reflexivity].
           ++ intros _ w Hw Hp. apply in_app_or in Hw as [Hw|[<-|[]]]; [|reflexivity].
              exfalso. cbn [option_map] in H1. symmetry in H1. clear - H1 Hw Hp.
              revert H1. generalize 0. induction ws as [|x ws IH]; intros i H1; [contradiction|].
              cbn [first_idx] in H1. destruct (prefixb k x) eqn:E; [discriminate|].
              destruct Hw as [->|Hw]; [|eapply IH; eauto].
              apply prefixb_spec in Hp. congruence.
      * assert (Hne : k <> s) by (intros ->; rewrite Nat.eqb_refl in El; discriminate).
        destruct (dfind k d) as [it|] eqn:Ed; cbn [upd i_match i_done].
        -- destruct (H2 it eq_refl) as [A B]. split; [|discriminate].
           rewrite A. split; intro Hin; [apply in_or_app; left; exact Hin|].
           apply in_app_or in Hin as [Hin|[<-|[]]]; [exact Hin|contradiction].
        -- split; [|discriminate]. split; [discriminate|]. intro Hin. exfalso.
           apply in_app_or in Hin as [Hin|[<-|[]]]; [|contradiction].
           cbn [option_map] in H1. symmetry in H1.
           assert (Hp : prefix k k) by (exists (@nil byte); rewrite app_nil_r; reflexivity).
           clear - H1 Hin Hp. revert H1. generalize 0.
           induction ws as [|x ws IH]; intros i H1; [contradiction|].
           cbn [first_idx] in H1. destruct (prefixb k x) eqn:E; [discriminate|].
           destruct Hin as [->|Hin]; [|eapply IH; eauto].
           apply prefixb_spec in Hp. congruence.
  - assert (Hnp : ~ prefix k s) by (intro Hp; apply prefixb_spec in Hp; congruence).
    split.
    + rewrite H1. destruct (first_idx k ws 0); reflexivity.
    + intros it Hit. destruct (H2 it Hit) as [A B]. split.
      * rewrite A. split; intro Hin; [apply in_or_app; left; exact Hin|].
        apply in_app_or in Hin as [Hin|[<-|[]]]; [exact Hin|].
        exfalso. apply Hnp. exists (@nil byte). rewrite app_nil_r. reflexivity.
      * intros Hd w Hw Hp. apply in_app_or in Hw as [Hw|[<-|[]]]; [apply B; assumption|contradiction].
Qed.

Definition max_lens (ws : list bytes) (m : nat) : nat := fold_left (fun m w => Nat.max m (List.length w)) ws m.

Lemma trie_items_spec (ic : bool) (items : list bytes) : forall ws d m, trie_inv ws d ->
  trie_inv (ws ++ map (fun w => if ic then to_lower w else w) items)
           (fst (trie_items ic items (List.length ws) d m))
  /\ snd (trie_items ic items (List.length ws) d m) = max_lens items m.
Proof.
  induction items as [|w items IH]; intros ws d m Hinv; cbn [trie_items map].
  - rewrite app_nil_r. split; [exact Hinv|reflexivity].
  - set (s := if ic then to_lower w else w).
    specialize (IH (ws ++ [s]) (trie_insert s (List.length ws) d)
                   (if m <? List.length w then List.length w else m)
                   (trie_inv_insert _ _ _ Hinv)).
    rewrite app_length in IH. cbn [List.length] in IH.
    replace (List.length ws + 1) with (S (List.length ws)) in IH by lia.
    rewrite <- app_assoc in IH. cbn [app] in IH. destruct IH as [A B]. split; [exact A|].
    rewrite B. unfold max_lens. cbn [fold_left]. f_equal.
    destruct (m <? List.length w) eqn:E; [apply Nat.ltb_lt in E|apply Nat.ltb_ge in E]; lia.
Qed.

Lemma max_lens_ge ws : forall m, m <= max_lens ws m /\ forall w, In w ws -> List.length w <= max_lens ws m.
Proof.
  induction ws as [|x ws IH]; intro m; cbn [max_lens fold_left].
  - split; [auto|contradiction].
  - destruct (IH (Nat.max m (List.length x))) as [A B]. fold (max_lens ws (Nat.max m (List.length x))).
    split; [lia|]. intros w [->|Hw]; [lia|auto].
Qed.

Lemma trie_inv_nil : trie_inv [] [].
Proof. intros k _. split; [reflexivity|discriminate]. Qed.

Lemma first_idx_some k ws w i : In w ws -> prefix k w -> first_idx k ws i <> None.
Proof.
  revert i; induction ws as [|x ws IH]; intros i Hw Hp; [contradiction|].
  cbn [first_idx]. destruct (prefixb k x) eqn:E; [discriminate|].
  destruct Hw as [->|Hw]; [|apply IH; assumption].
  apply prefixb_spec in Hp. congruence.
Qed.

(** The scanning loop. [good mlen id]: best match among lengths below [len]. *)
Definition best (ws : list bytes) (text : bytes) (len mlen : nat) (id : option nat) : Prop :=
  (mlen = 0 /\ id = None /\ (forall w, In w ws -> w <> [] -> prefix w text -> len <= List.length w))
  \/ (1 <= mlen /\ mlen <= List.length text /\ In (firstn mlen text) ws
      /\ id = first_idx (firstn mlen text) ws 0 /\ mlen < len
      /\ (forall w, In w ws -> prefix w text -> List.length w < len -> List.length w <= mlen)).

Lemma prefix_firstn (w text : bytes) : prefix w text <-> firstn (List.length w) text = w.
Proof. rewrite <- prefixb_spec. unfold prefixb. apply bytes_eqb_eq. Qed.

Lemma prefix_firstn_le (w text : bytes) n : prefix w text -> n <= List.length w ->
  prefix (firstn n text) w.
Proof.
  intros [r ->] Hn. rewrite firstn_app. replace (n - List.length w) with 0 by lia.
  rewrite firstn_O, app_nil_r. exists (skipn n w). symmetry. apply firstn_skipn.
Qed.

Lemma trie_loop_best ws d text : trie_inv ws d -> forall limit,
  limit <= List.length text ->
  (forall w, In w ws -> prefix w text -> List.length w <= limit) ->
  forall fuel len mlen id,
  1 <= len -> limit + 1 < len + fuel -> len <= limit + 1 ->
  best ws text len mlen id ->
  best ws text (S limit) (fst (trie_loop fuel d text limit len mlen id))
                         (snd (trie_loop fuel d text limit len mlen id)).
Proof.
  intros Hinv limit Hlim Hmax. induction fuel as [|fuel IH]; intros len mlen id H1 Hf Hle Hb; [lia|].
  cbn [trie_loop]. destruct (len <=? limit) eqn:El.
  2:{ apply Nat.leb_gt in El. assert (len = S limit) by lia. subst len. exact Hb. }
  apply Nat.leb_le in El.
  assert (Hk : firstn len text <> []).
  { intro E. apply (f_equal (@List.length byte)) in E. rewrite firstn_length in E. cbn in E. lia. }
  assert (Lk : List.length (firstn len text) = len) by (rewrite firstn_length; lia).
  destruct (Hinv _ Hk) as [Hid Hit].
  (* anything that stops the scan at [len] without extension *)
  assert (Stop : forall mlen' id', best ws text (S len) mlen' id' ->
            (forall w, In w ws -> prefix w text -> List.length w <= len) ->
            best ws text (S limit) mlen' id').
  { intros mlen' id' [(A & B & C)|(A & B & C & D & E & F)] Hno.
    - left. repeat split; try assumption. intros w Hw Hne Hp.
      specialize (C w Hw Hne Hp). specialize (Hno w Hw Hp). lia.
    - right. repeat split; try assumption; [lia|]. intros w Hw Hp _.
      specialize (Hno w Hw Hp). apply F; try assumption. lia. }
  destruct (dfind (firstn len text) d) as [it|] eqn:Ed.
  - destruct (Hit it eq_refl) as [Hm Hdone].
    assert (Hb' : best ws text (S len) (if i_match it then len else mlen)
                     (if i_match it then Some (i_id it) else id)).
    { destruct (i_match it) eqn:Em.
      - right. split; [lia|]. split; [lia|]. split; [apply Hm; reflexivity|].
        split; [rewrite <- Hid; reflexivity|]. split; [lia|]. intros; lia.
      - assert (Hnw : forall w, In w ws -> prefix w text -> List.length w <> len).
        { intros w Hw Hp E. apply prefix_firstn in Hp. rewrite E in Hp.
          rewrite Hp in Hm. apply Hm in Hw. discriminate. }
        destruct Hb as [(A & B & C)|(A & B & C & D & E & F)].
        + left. repeat split; try assumption. intros w Hw Hne Hp.
          specialize (C w Hw Hne Hp). specialize (Hnw w Hw Hp). lia.
        + right. split; [lia|]. split; [lia|]. split; [assumption|]. split; [assumption|].
          split; [lia|]. intros w Hw Hp HL.
          specialize (Hnw w Hw Hp). apply F; try assumption. lia. }
    destruct (i_done it) eqn:Edn.
    + cbn [fst snd]. apply Stop; [exact Hb'|].
      intros w Hw Hp. destruct (Nat.le_gt_cases (List.length w) len) as [L|G]; [exact L|].
      assert (w = firstn len text).
      { apply Hdone; [reflexivity|exact Hw|]. apply prefix_firstn_le; [exact Hp|lia]. }
      subst w. lia.
    + apply IH; try lia. rewrite Nat.add_1_r. exact Hb'.
  - cbn [fst snd].
    assert (Hno : forall w, In w ws -> prefix w text -> List.length w < len).
    { intros w Hw Hp. destruct (Nat.lt_ge_cases (List.length w) len) as [L|G]; [exact L|].
      exfalso. cbn [option_map] in Hid. symmetry in Hid. revert Hid.
      apply (first_idx_some _ _ w); [exact Hw|]. apply prefix_firstn_le; [exact Hp|lia]. }
    destruct Hb as [(A & B & C)|(A & B & C & D & E & F)].
    + left. repeat split; try assumption. intros w Hw Hne Hp.
      specialize (C w Hw Hne Hp). specialize (Hno w Hw Hp). lia.
    + right. split; [lia|]. split; [lia|]. split; [assumption|]. split; [assumption|].
      split; [lia|]. intros w Hw Hp _. specialize (Hno w Hw Hp). apply F; try assumption.
Qed.

Lemma tolower_fold b : tolower b = fold_case b.
Proof. destruct b; reflexivity. Qed.
Lemma to_lower_fold s : to_lower s = map fold_case s.
Proof. unfold to_lower. apply map_ext. apply tolower_fold. Qed.

Lemma same_text_length ic s : List.length (same_text ic s) = List.length s.
Proof. unfold same_text. destruct ic; [apply map_length|reflexivity]. Qed.

(** What the dictionary match computes. [ws] are the words after case folding. *)
Lemma trie_match_best (items : list bytes) (ic : bool) (text : bytes) :
  let t := make_trie items ic in
  let ws := map (same_text ic) items in
  let txt := same_text ic text in
  let r := trie_match t text in
  (fst r = 0 /\ snd r = None /\ (forall w, In w items -> ~ word_matches ic w text))
  \/ (1 <= fst r /\ longest ic items text (fst r)
      /\ snd r = first_idx (firstn (fst r) txt) ws 0
      /\ In (firstn (fst r) txt) ws).
Proof.
  intros t ws txt r.
  destruct (trie_items_spec ic items [] [] 0 trie_inv_nil) as [Hinv Hm].
  cbn [List.length app] in Hinv, Hm.
  assert (Ews : map (fun w => if ic then to_lower w else w) items = ws).
  { apply map_ext. intro w. unfold same_text. destruct ic; [apply to_lower_fold|reflexivity]. }
  rewrite Ews in Hinv.
  assert (Et : t = {| t_dic := fst (trie_items ic items 0 [] 0); t_ignore_case := ic;
      t_items_count := List.length items; t_max_len := max_lens items 0 |}).
  { subst t. unfold make_trie. rewrite <- Hm. destruct (trie_items ic items 0 [] 0); reflexivity. }
  set (limit := Nat.min (List.length text) (max_lens items 0)).
  set (text' := if ic then to_lower (firstn limit text) else text).
  assert (Hf : forall n, n <= limit -> firstn n text' = firstn n txt).
  { intros n Hn. subst text' txt. unfold same_text. destruct ic; [|reflexivity].
    rewrite to_lower_fold, !firstn_map, firstn_firstn. repeat f_equal. lia. }
  assert (Er : r = trie_loop (S limit) (fst (trie_items ic items 0 [] 0)) text' limit 1 0 None).
  { subst r. rewrite Et. unfold trie_match. cbn [t_dic t_ignore_case t_max_len]. reflexivity. }
  (* loop only looks at the first [limit] bytes *)
  assert (Eloop : forall fuel len mlen id, 1 <= len ->
     trie_loop fuel (fst (trie_items ic items 0 [] 0)) text' limit len mlen id
     = trie_loop fuel (fst (trie_items ic items 0 [] 0)) txt limit len mlen id).
  { induction fuel as [|fuel IH]; intros len mlen id Hl; [reflexivity|]. cbn [trie_loop].
    destruct (len <=? limit) eqn:E; [|reflexivity]. apply Nat.leb_le in E.
    rewrite Hf by exact E. destruct (dfind _ _); [|reflexivity].
    destruct (i_done _); [reflexivity|]. apply IH. lia. }
  rewrite Eloop in Er by lia.
  assert (Hlen : List.length txt = List.length text) by apply same_text_length.
  assert (Hlim : limit <= List.length txt) by lia.
  assert (Hmaxw : forall w, In w ws -> prefix w txt -> List.length w <= limit).
  { intros w Hw Hp. apply prefix_len in Hp. apply in_map_iff in Hw as (w0 & <- & Hw0).
    rewrite same_text_length in *. pose proof (proj2 (max_lens_ge items 0) w0 Hw0). lia. }
  pose proof (trie_loop_best ws _ txt Hinv limit Hlim Hmaxw (S limit) 1 0 None
    ltac:(lia) ltac:(lia) ltac:(lia)) as HB.
  rewrite <- Er in HB.
  assert (HB0 : best ws txt 1 0 None).
  { left. split; [reflexivity|]. split; [reflexivity|]. intros w Hw Hne Hp.
    destruct w; [contradiction|cbn; lia]. }
  destruct (HB HB0) as [(A & B & C)|(A & B & C & D & E & F)].
  - left. split; [exact A|]. split; [exact B|]. intros w Hw [Hne Hp].
    assert (Hin : In (same_text ic w) ws) by (apply in_map; exact Hw).
    assert (Hne' : same_text ic w <> []).
    { intro H0. apply (f_equal (@List.length byte)) in H0. rewrite same_text_length in H0.
      destruct w; [contradiction|discriminate]. }
    specialize (C _ Hin Hne' Hp). specialize (Hmaxw _ Hin Hp). lia.
  - right. split; [exact A|]. split; [|split; [exact D|exact C]].
    split.
    + apply in_map_iff in C as (w & Ew & Hw). exists w. split; [exact Hw|].
      assert (Lw : List.length w = fst r).
      { rewrite <- (same_text_length ic w), Ew, firstn_length. lia. }
      split; [|exact Lw]. split.
      * intro H0. subst w. cbn [List.length] in Lw. lia.
      * rewrite Ew. exists (skipn (fst r) txt). symmetry. apply firstn_skipn.
    + intros w Hw [Hne Hp]. rewrite <- (same_text_length ic w).
      assert (Hin : In (same_text ic w) ws) by (apply in_map; exact Hw).
      specialize (Hmaxw _ Hin Hp). apply F; [exact Hin|exact Hp|lia].
Qed.

(** ** The reported id (C07). *)
(** If no earlier-listed word has a later one as a prefix, the id is the
    index of a word equal (up to case) to the matched text. *)
Lemma first_idx_exact ws k : forall i, In k ws ->
  (forall m n a b, m < n -> nth_error ws m = Some a -> nth_error ws n = Some b ->
     ~ prefix b a) ->
  exists j, first_idx k ws i = Some (i + j) /\ nth_error ws j = Some k.
Proof.
  induction ws as [|w ws IH]; intros i Hin Hno; [destruct Hin|].
  cbn [first_idx]. destruct (prefixb k w) eqn:E.
  - exists 0. rewrite Nat.add_0_r. split; [reflexivity|]. cbn. f_equal.
    destruct Hin as [H|Hin]; [exact H|]. exfalso.
    apply In_nth_error in Hin as [n Hn].
    apply (Hno 0 (S n) w k); [lia|reflexivity|exact Hn|].
    apply prefixb_spec. exact E.
  - destruct Hin as [H|Hin].
    + exfalso. subst w. assert (P : prefixb k k = true); [|congruence].
      apply prefixb_spec. exists []. symmetry. apply app_nil_r.
    + destruct (IH (S i) Hin) as (j & A & B).
      * intros m n a b Hmn Ha Hb. apply (Hno (S m) (S n)); [lia|exact Ha|exact Hb].
      * exists (S j). rewrite A. split; [f_equal; lia|exact B].
Qed.

Lemma trie_match_choice (items : list bytes) (ic : bool) (text : bytes) :
  (forall m n a b, m < n -> nth_error items m = Some a -> nth_error items n = Some b ->
     ~ prefix (same_text ic b) (same_text ic a)) ->
  1 <= fst (trie_match (make_trie items ic) text) ->
  exists j w, snd (trie_match (make_trie items ic) text) = Some j
    /\ nth_error items j = Some w /\ word_matches ic w text
    /\ List.length w = fst (trie_match (make_trie items ic) text).
Proof.
  intros Hno Hpos.
  destruct (trie_match_best items ic text) as [(A & _)|(A & B & C & D)]; [lia|].
  cbv zeta in A, B, C, D. remember (trie_match (make_trie items ic) text) as r eqn:Er. clear Er.
  destruct (first_idx_exact (map (same_text ic) items) _ 0 D) as (j & E & F).
  - intros m n a b Hmn Ha Hb.
    rewrite nth_error_map in Ha. rewrite nth_error_map in Hb.
    destruct (nth_error items m) as [x|] eqn:Hx; [|discriminate].
    destruct (nth_error items n) as [y|] eqn:Hy; [|discriminate].
    cbn in Ha, Hb. injection Ha as <-. injection Hb as <-. exact (Hno m n x y Hmn Hx Hy).
  - rewrite nth_error_map in F. destruct (nth_error items j) as [w|] eqn:Hw; [|discriminate].
    cbn [option_map] in F. injection F as F. exists j, w. rewrite C, E. split; [reflexivity|].
    assert (L : List.length w = fst r).
    { assert (LL : forall x, List.length (same_text ic x) = List.length x)
        by (intro x; unfold same_text; destruct ic; [apply map_length|reflexivity]).
      rewrite <- (LL w), F, firstn_length.
      destruct B as [(v & Hv & [_ [rest Hp]] & Hl) _].
      assert (Q : List.length (same_text ic text) = List.length (same_text ic v ++ rest)) by (rewrite Hp; reflexivity).
      rewrite app_length in Q. rewrite (LL text), (LL v) in Q. rewrite (LL text). lia. }
    split; [exact Hw|]. split; [|exact L]. split.
    + intros ->. cbn in L. lia.
    + exists (skipn (fst r) (same_text ic text)). rewrite F. symmetry. apply firstn_skipn.
Qed.

Lemma first_idx_least k ws : forall i j, first_idx k ws i = Some j ->
  i <= j /\ (exists w, nth_error ws (j - i) = Some w /\ prefix k w) /\ forall m w, m < j - i -> nth_error ws m = Some w -> ~ prefix k w.
Proof.
  induction ws as [|x ws IH]; intros i j H; cbn [first_idx] in H; [discriminate|]. destruct (prefixb k x) eqn:E.
  - injection H as <-. split; [lia|]. rewrite Nat.sub_diag. split; [exists x; split; [reflexivity|now apply prefixb_spec]|]. intros m w Hm. lia.
  - destruct (IH _ _ H) as (A & (w & B & C) & D). split; [lia|]. replace (j - i) with (S (j - S i)) by lia. split; [exists w; auto|].
    intros [|m] w' Hm Hw; cbn in Hw; [injection Hw as <-; intros X; apply prefixb_spec in X; congruence|]. apply (D m); [lia|exact Hw].
Qed.
Lemma trie_match_first (items : list bytes) (ic : bool) (text : bytes) :
  let r := trie_match (make_trie items ic) text in
  1 <= fst r ->
  exists j w, snd r = Some j /\ nth_error items j = Some w
    /\ prefix (firstn (fst r) (same_text ic text)) (same_text ic w)
    /\ forall i v, i < j -> nth_error items i = Some v -> ~ prefix (firstn (fst r) (same_text ic text)) (same_text ic v).
Proof.
  cbv zeta. intros Hpos. destruct (trie_match_best items ic text) as [(A & _)|(A & B & C & D)]; [lia|]. cbv zeta in A, B, C, D.
  destruct (first_idx (firstn (fst (trie_match (make_trie items ic) text)) (same_text ic text)) (map (same_text ic) items) 0) as [j|] eqn:E.
  2:{ exfalso. eapply first_idx_some; [exact D| |exact E]. exists []. now rewrite app_nil_r. }
  apply first_idx_least in E as (_ & (w & Hw & Hp) & Hl). rewrite Nat.sub_0_r in *. rewrite nth_error_map in Hw.
  destruct (nth_error items j) as [w0|] eqn:Hw0; [|discriminate]. injection Hw as <-. exists j, w0. split; [exact C|]. split; [exact Hw0|]. split; [exact Hp|].
  intros i v Hi Hv. apply (Hl i (same_text ic v)); [exact Hi|]. now rewrite nth_error_map, Hv.
Qed.
