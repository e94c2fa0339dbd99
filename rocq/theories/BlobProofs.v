(** * Reading back a written grammar. *)
From Verif Require Import Base BaseLemmas Escape TrieM TrieSpec TrieProofs Ope EngineLemmas Scope GrammarCond FirstSetM FirstSetup BlobM BlobSpec.
Require Import Lia.

(** ** Numbers, strings and lists *)
Lemma bN_byteN v : bN (byteN v) = (v mod 256)%N.
Proof.
  unfold bN, byteN. assert (H : (v mod 256 < 256)%N) by (apply N.mod_lt; discriminate).
  destruct (Byte.of_N (v mod 256)) as [b|] eqn:E.
  - now apply Byte.to_of_N in E.
  - exfalso. apply Byte.of_N_None_iff in E. lia.
Qed.
Lemma rle_le : forall k v rest, rle k (le k v ++ rest) = Ok ((v mod 256 ^ N.of_nat k)%N, rest).
Proof.
  induction k as [|k IH]; intros v rest; [cbn [le app rle]; cbn; now rewrite N.mod_1_r|].
  cbn [le rle app r8 bind]. rewrite IH. cbn [bind]. f_equal. f_equal. rewrite bN_byteN.
  rewrite Nat2N.inj_succ, N.pow_succ_r'. rewrite N.mod_mul_r by (try apply N.pow_nonzero; discriminate). lia.
Qed.
Lemma r32_w32 v rest : (v < 2 ^ 32)%N -> r32 (w32 v ++ rest) = Ok (v, rest).
Proof. intros H. unfold r32, w32. rewrite rle_le. change (256 ^ N.of_nat 4)%N with (2 ^ 32)%N. now rewrite N.mod_small. Qed.
Lemma r64_w64 v rest : (v < 2 ^ 64)%N -> r64 (w64 v ++ rest) = Ok (v, rest).
Proof. intros H. unfold r64, w64. rewrite rle_le. change (256 ^ N.of_nat 8)%N with (2 ^ 64)%N. now rewrite N.mod_small. Qed.
Lemma r8_w8 v rest : (v < 256)%N -> r8 (w8 v ++ rest) = Ok (v, rest).
Proof. intros H. unfold w8. cbn [le app r8]. rewrite bN_byteN, N.mod_small by assumption. reflexivity. Qed.
Lemma rbool_wbool b rest : rbool (wbool b ++ rest) = Ok (b, rest).
Proof. unfold rbool, wbool. destruct b; rewrite r8_w8 by lia; reflexivity. Qed.
Lemma firstn_app_len {A} (l r : list A) : firstn (List.length l) (l ++ r) = l.
Proof. rewrite firstn_app, Nat.sub_diag, firstn_O, app_nil_r. apply firstn_all. Qed.
Lemma skipn_app_len {A} (l r : list A) : skipn (List.length l) (l ++ r) = r.
Proof. rewrite skipn_app, Nat.sub_diag, skipn_all. reflexivity. Qed.
Lemma rstr_wstr s rest : fits32 (List.length s) -> rstr (wstr s ++ rest) = Ok (s, rest).
Proof.
  intros H. unfold rstr, wstr, wlen. rewrite <- app_assoc, r32_w32 by exact H. cbn [bind].
  destruct (N.ltb_spec (N.of_nat (List.length (s ++ rest))) (N.of_nat (List.length s))) as [Hl|_]; [rewrite app_length in Hl; lia|].
  rewrite Nat2N.id, firstn_app_len, skipn_app_len. reflexivity.
Qed.
Lemma le_length k v : List.length (le k v) = k.
Proof. revert v. induction k as [|k IH]; intros v; [reflexivity|]. cbn [le List.length]. now rewrite IH. Qed.
Lemma wstr_len s : 4 <= List.length (wstr s).
Proof. unfold wstr, wlen, w32. rewrite app_length, le_length. lia. Qed.

Lemma rloop_flat {A} (rd : reader A) (w : A -> bytes) (f : A -> A) l : forall fuel rest,
  Forall (fun x => 1 <= List.length (w x) /\ forall rest, List.length (w x ++ rest) <= fuel -> rd (w x ++ rest) = Ok (f x, rest)) l ->
  List.length (flat_map w l ++ rest) <= fuel ->
  rloop rd fuel (N.of_nat (List.length l)) (flat_map w l ++ rest) = Ok (map f l, rest).
Proof.
  induction l as [|x l IH]; intros fuel rest H Hf.
  - destruct fuel; reflexivity.
  - inversion H as [|? ? [H1 H2] H3]; subst. cbn [flat_map List.length map] in *. rewrite <- app_assoc in *.
    destruct fuel as [|fuel]; [rewrite app_length in Hf; lia|].
    assert (Hn : (N.of_nat (S (List.length l)) =? 0)%N = false) by (apply N.eqb_neq; lia).
    cbn [rloop]. rewrite Hn, H2 by assumption. cbn [bind].
    replace (N.pred (N.of_nat (S (List.length l)))) with (N.of_nat (List.length l)) by lia.
    rewrite IH; [reflexivity| |rewrite app_length in Hf; lia].
    eapply Forall_impl; [|exact H3]. cbn. intros y [Hy1 Hy2]. split; [assumption|]. intros r Hr. apply Hy2. lia.
Qed.
Lemma rlist_flat {A} (rd : reader A) (w : A -> bytes) (f : A -> A) l rest : fits32 (List.length l) ->
  Forall (fun x => 1 <= List.length (w x) /\ forall rest, rd (w x ++ rest) = Ok (f x, rest)) l ->
  rlist rd (wlen l ++ flat_map w l ++ rest) = Ok (map f l, rest).
Proof.
  intros Hl H. unfold rlist, wlen. rewrite r32_w32 by exact Hl. cbn [bind]. apply rloop_flat; [|lia].
  eapply Forall_impl; [|exact H]. cbn. intros x [H1 H2]. split; auto.
Qed.

(** ** The order of std::string *)
Lemma blt_irrefl a : blt a a = false.
Proof. induction a as [|x a IH]; [reflexivity|]. cbn [blt]. rewrite IH, andb_false_r, N.ltb_irrefl. reflexivity. Qed.
Lemma beq_eq x y : beq x y = true <-> x = y.
Proof. unfold beq. destruct (Byte.byte_eq_dec x y) as [->|N]; [split; auto; intros _; now apply Byte.byte_dec_lb|]. split; [apply Byte.byte_dec_bl|contradiction]. Qed.
Lemma blt_trans a : forall b c, blt a b = true -> blt b c = true -> blt a c = true.
Proof.
  induction a as [|x a IH]; intros [|y b] [|z c]; cbn [blt]; auto; try discriminate.
  intros H1 H2. apply orb_prop in H1, H2. apply orb_true_iff.
  destruct H1 as [H1|H1], H2 as [H2|H2].
  - left. apply N.ltb_lt in H1, H2. apply N.ltb_lt. lia.
  - apply andb_prop in H2 as [H2 _]. apply beq_eq in H2. subst. auto.
  - apply andb_prop in H1 as [H1 _]. apply beq_eq in H1. subst. auto.
  - apply andb_prop in H1 as [H1 H1'], H2 as [H2 H2']. apply beq_eq in H1, H2. subst. right. rewrite (IH _ _ H1' H2'). apply andb_true_iff. split; [now apply beq_eq|reflexivity].
Qed.
Lemma blt_neq a b : blt a b = true -> bytes_eqb a b = false.
Proof. intros H. apply bytes_eqb_neq. intros ->. rewrite blt_irrefl in H. discriminate. Qed.
Lemma blt_asym a b : blt a b = true -> blt b a = false.
Proof. intros H. destruct (blt b a) eqn:E; [|reflexivity]. pose proof (blt_trans _ _ _ H E) as C. rewrite blt_irrefl in C. discriminate. Qed.
Lemma blt_total a : forall b, a <> b -> blt a b = true \/ blt b a = true.
Proof.
  induction a as [|x a IH]; intros [|y b] H; cbn [blt]; try (now destruct H); try (now right); try (now left).
  destruct (N.ltb_spec (bN x) (bN y)) as [Hl|Hl]; [auto|]. destruct (N.ltb_spec (bN y) (bN x)) as [Hl'|Hl']; [auto|].
  assert (x = y). { assert (E : bN x = bN y) by lia. unfold bN in E. apply (f_equal Byte.of_N) in E. rewrite !Byte.of_to_N in E. now inversion E. }
  subst y. destruct (IH b) as [C|C]; [congruence|left|right]; rewrite C; apply orb_true_iff; right; apply andb_true_iff; split; auto; now apply beq_eq.
Qed.
Lemma sort_by_sorted {A} (key : A -> bytes) l : sorted (map key l) -> sort_by key l = l.
Proof.
  induction l as [|x l IH]; intros H; [reflexivity|]. cbn [map sorted] in H. destruct H as [H1 H2]. unfold sort_by in *. cbn [fold_right]. rewrite (IH H2).
  destruct l as [|y l]; [reflexivity|]. cbn [insert_by]. cbn [map] in H1. inversion H1 as [|? ? Hy _]; subst. now rewrite Hy.
Qed.
Lemma put_by_last {A} (key : A -> bytes) x l : Forall (fun y => blt (key y) (key x) = true) l -> put_by key x l = l ++ [x].
Proof.
  induction l as [|y l IH]; intros H; [reflexivity|]. inversion H as [|? ? H1 H2]; subst. cbn [put_by app].
  destruct (bytes_eqb (key x) (key y)) eqn:E; [apply bytes_eqb_eq in E; rewrite E, blt_irrefl in H1; discriminate|].
  rewrite (blt_asym _ _ H1). now rewrite IH.
Qed.
Lemma map_of_sorted {A} (key : A -> bytes) l : sorted (map key l) -> map_of key l = l.
Proof.
  assert (H : forall l2 l1, sorted (map key (l1 ++ l2)) -> fold_left (fun m x => put_by key x m) l2 l1 = l1 ++ l2).
  { induction l2 as [|x l2 IH]; intros l1 Hs; cbn [fold_left]; [now rewrite app_nil_r|].
    rewrite put_by_last; [rewrite IH; [now rewrite <- app_assoc|now rewrite <- app_assoc]|].
    clear IH. induction l1 as [|y l1 IH]; [constructor|]. cbn [app map sorted] in Hs. destruct Hs as [H1 H2]. constructor; [|now apply IH].
    rewrite map_app in H1. apply Forall_app in H1 as [_ H1]. cbn in H1. now inversion H1. }
  intros Hs. apply (H l []). exact Hs.
Qed.
Lemma sorted_nodup l : sorted l -> NoDup l.
Proof.
  induction l as [|x l IH]; intros H; constructor; cbn in H; destruct H as [H1 H2]; [|auto]. intros C. rewrite Forall_forall in H1. specialize (H1 _ C). rewrite blt_irrefl in H1. discriminate.
Qed.
Lemma insert_perm {A} (key : A -> bytes) x l y : In y (insert_by key x l) <-> y = x \/ In y l.
Proof. induction l as [|z l IH]; cbn [insert_by]; [cbn; intuition|]. destruct (blt (key x) (key z)); cbn [In]; [intuition|]. rewrite IH. intuition. Qed.
Lemma sort_perm {A} (key : A -> bytes) l y : In y (sort_by key l) <-> In y l.
Proof. unfold sort_by. induction l as [|x l IH]; cbn [fold_right]; [tauto|]. rewrite insert_perm, IH. cbn. intuition. Qed.

(** ** The words of a dictionary *)
Definition keyed (d : dic) : Prop := NoDup (map fst d) /\ ~ In [] (map fst d).
Lemma dset_keys k v d x : In x (map fst (dset k v d)) <-> x = k \/ In x (map fst d).
Proof.
  induction d as [|[k' v'] d IH]; cbn [dset map fst In]; [intuition|]. destruct (bytes_eqb k' k) eqn:E; cbn [map fst In].
  - apply bytes_eqb_eq in E. subst. intuition.
  - rewrite IH. intuition.
Qed.
Lemma dset_keyed k v d : k <> [] -> keyed d -> keyed (dset k v d).
Proof.
  intros Hk [H1 H2]. split; [|rewrite dset_keys; intros [C|C]; [now apply Hk|contradiction]]. clear H2.
  induction d as [|[k' v'] d IH]; cbn [dset map fst] in *; [repeat constructor; auto|]. inversion H1 as [|? ? Hn Hd]; subst.
  destruct (bytes_eqb k' k) eqn:E; cbn [map fst]; constructor; auto. rewrite dset_keys. intros [->|C]; [|contradiction]. rewrite bytes_eqb_refl in E. discriminate.
Qed.
Lemma trie_items_keyed ic items : forall id d m, keyed d -> keyed (fst (trie_items ic items id d m)).
Proof.
  induction items as [|w items IH]; intros id d m Hd; cbn [trie_items]; [assumption|]. apply IH. unfold trie_insert.
  set (s := if ic then to_lower w else w).
  assert (H : Forall (fun n => 1 <= n <= List.length s) (seq 1 (List.length s))).
  { apply Forall_forall. intros n Hn. apply in_seq in Hn. lia. }
  revert d Hd. induction H as [|n l Hn _ IHl]; intros d Hd; cbn [fold_left]; [assumption|]. apply IHl.
  assert (Hne : firstn n s <> []). { intros C. apply (f_equal (@List.length byte)) in C. rewrite firstn_length in C. cbn in C. lia. }
  unfold trie_step. destruct (dfind _ d) as [it|]; [destruct (n =? _)|]; now apply dset_keyed.
Qed.
Lemma keyed_find d k v : keyed d -> In (k, v) d -> dfind k d = Some v.
Proof.
  intros [H _]. induction d as [|[k' v'] d IH]; cbn [In dfind map fst] in *; [contradiction|]. inversion H as [|? ? Hn Hd]; subst.
  intros [E|E]; [inversion E; subst; now rewrite bytes_eqb_refl|]. destruct (bytes_eqb k' k) eqn:C; [|auto].
  apply bytes_eqb_eq in C. subst. exfalso. apply Hn. now apply (in_map fst) in E.
Qed.
Lemma find_in d k v : dfind k d = Some v -> In (k, v) d.
Proof.
  induction d as [|[k' v'] d IH]; cbn [dfind In]; [discriminate|]. destruct (bytes_eqb k' k) eqn:C; [|auto]. apply bytes_eqb_eq in C. subst. intros E. inversion E. auto.
Qed.
Lemma set_nth_len {A} i (x : A) l : List.length (set_nth i x l) = List.length l.
Proof. revert i; induction l as [|y l IH]; intros [|i]; cbn; auto. Qed.
Lemma set_nth_get {A} i (x : A) l j : nth_error (set_nth i x l) j = if (i =? j) && (j <? List.length l) then Some x else nth_error l j.
Proof.
  revert i j; induction l as [|y l IH]; intros [|i] [|j]; cbn [set_nth nth_error List.length]; auto.
  - rewrite andb_false_r. reflexivity.
  - rewrite IH. cbn [Nat.eqb]. change (S j <? S (List.length l)) with (j <? List.length l). reflexivity.
Qed.
Lemma place_words (target : list bytes) : forall (es : list (bytes * info)) (W : list bytes),
  List.length W = List.length target ->
  (forall j (w : bytes), nth_error W j = Some w -> w = [] \/ nth_error target j = Some w) ->
  Forall (fun e => i_match (snd e) = true -> nth_error target (i_id (snd e)) = Some (fst e)) es ->
  (forall j (w : bytes), nth_error target j = Some w -> w <> [] -> nth_error W j = Some w \/ exists e, In e es /\ i_match (snd e) = true /\ i_id (snd e) = j /\ fst e = w) ->
  fold_left place_word es W = target.
Proof.
  induction es as [|e es IH]; intros W Hl HW He Hall; cbn [fold_left].
  - apply nth_error_ext. intros j. destruct (nth_error target j) as [w|] eqn:E.
    + destruct w as [|c w]; [|destruct (Hall j _ E) as [H|(e & [] & _)]; [discriminate|congruence]].
      assert (Hj : j < List.length W) by (rewrite Hl; apply nth_error_Some; congruence).
      destruct (nth_error W j) as [w|] eqn:EW; [|apply nth_error_None in EW; lia]. destruct (HW _ _ EW) as [H|H]; congruence.
    + apply nth_error_None in E. apply nth_error_None. lia.
  - inversion He as [|? ? H1 H2]; subst. unfold place_word at 2. destruct (i_match (snd e)) eqn:Em; cbn [andb].
    + specialize (H1 eq_refl). assert (Hi : i_id (snd e) < List.length W) by (rewrite Hl; apply nth_error_Some; congruence).
      destruct (Nat.ltb_spec (i_id (snd e)) (List.length W)) as [_|C]; [|lia]. apply IH; auto.
      * now rewrite set_nth_len.
      * intros j w. rewrite set_nth_get. destruct (Nat.eqb_spec (i_id (snd e)) j) as [Ej|]; cbn [andb]; [subst j|apply HW].
        destruct (_ <? _); [intros E; inversion E; subst; now right|apply HW].
      * intros j w Hj Hw. rewrite set_nth_get. destruct (Nat.eqb_spec (i_id (snd e)) j) as [Ej|Ej]; cbn [andb].
        -- subst j. destruct (Nat.ltb_spec (i_id (snd e)) (List.length W)) as [_|C]; [|lia]. left. congruence.
        -- destruct (Hall j w Hj Hw) as [H|(e' & [<- |Hin] & Hm & Hi' & Hf)]; [now left|contradiction|right; eauto].
    + apply IH; auto. intros j w Hj Hw. destruct (Hall j w Hj Hw) as [H|(e' & [<- |Hin] & Hm & Hi' & Hf)]; [now left|congruence|right; eauto].
Qed.
Lemma make_trie_low ws ic : make_trie (map (same_text ic) ws) ic = make_trie ws ic.
Proof.
  unfold make_trie. rewrite map_length.
  assert (H : forall items id d m, trie_items ic (map (same_text ic) items) id d m = trie_items ic items id d m).
  { induction items as [|w items IH]; intros; [reflexivity|]. cbn [map trie_items]. rewrite same_text_length.
    replace (if ic then to_lower (same_text ic w) else same_text ic w) with (if ic then to_lower w else w); [apply IH|].
    unfold same_text. destruct ic; [|reflexivity]. rewrite !to_lower_fold, map_map. apply map_ext. intros b. destruct b; reflexivity. }
  now rewrite H.
Qed.
Lemma trie_words_plain ws ic : plain_words ic ws -> trie_words (make_trie ws ic) = map (same_text ic) ws.
Proof.
  intros Hp. set (target := map (same_text ic) ws).
  assert (Hmap : map (fun w => if ic then to_lower w else w) ws = target).
  { apply map_ext. intros w. unfold same_text. destruct ic; [apply to_lower_fold|reflexivity]. }
  pose proof (trie_items_spec ic ws [] [] 0 trie_inv_nil) as [Hinv _]. cbn [List.length app] in Hinv. rewrite Hmap in Hinv.
  pose proof (trie_items_keyed ic ws 0 [] 0 (conj (NoDup_nil _) (fun x => x))) as Hk.
  unfold trie_words, make_trie. destruct (trie_items ic ws 0 [] 0) as [d m]. cbn [fst t_dic t_items_count] in *.
  assert (Hplain : forall m n a b, m < n -> nth_error target m = Some a -> nth_error target n = Some b -> ~ prefix b a).
  { intros i j a b Hij Ha Hb. unfold target in Ha, Hb. rewrite nth_error_map in Ha, Hb.
    destruct (nth_error ws i) as [a'|] eqn:Ea; [|discriminate]. destruct (nth_error ws j) as [b'|] eqn:Eb; [|discriminate].
    cbn in Ha, Hb. inversion Ha. inversion Hb. subst. exact (Hp i j a' b' Hij Ea Eb). }
  assert (Hid : forall k v, In (k, v) d -> i_match v = true -> nth_error target (i_id v) = Some k).
  { intros k v Hin Hm. assert (Hne : k <> []) by (intros ->; apply (proj2 Hk); now apply (in_map fst) in Hin).
    pose proof (keyed_find _ _ _ Hk Hin) as Hf. destruct (Hinv k Hne) as [A B]. destruct (B v Hf) as [C _].
    rewrite Hf in A. cbn in A. destruct (first_idx_exact target k 0 (proj1 C Hm) Hplain) as (j & Hj & Ej). rewrite Hj in A. inversion A. subst. exact Ej. }
  apply place_words.
  - rewrite repeat_length. unfold target. now rewrite map_length.
  - intros j w Hj. left. apply nth_error_In in Hj. now apply repeat_spec in Hj.
  - apply Forall_forall. intros [k v] Hin. apply sort_perm in Hin. cbn. intros Hm. now apply Hid.
  - intros j w Hj Hw. right. destruct (Hinv w Hw) as [A B].
    destruct (first_idx_exact target w 0 (nth_error_In _ _ Hj) Hplain) as (j' & Hf & Ej).
    assert (j' = j). { destruct (Nat.lt_trichotomy j' j) as [L|[->|L]]; [|reflexivity|]; exfalso.
      - apply (Hplain _ _ _ _ L Ej Hj). exists []. now rewrite app_nil_r.
      - apply (Hplain _ _ _ _ L Hj Ej). exists []. now rewrite app_nil_r. }
    subst j'. rewrite Hf in A. destruct (dfind w d) as [v|] eqn:E; [|discriminate]. cbn in A. injection A as A.
    exists (w, v). split; [apply sort_perm; now apply find_in|]. cbn. split; [|split; [assumption|reflexivity]].
    apply (proj1 (B v eq_refl)). now apply nth_error_In in Hj.
Qed.

(** ** Operators *)
(** What is read back: no annotations, no links, no owner. *)
Fixpoint raw (o : ope) : ope :=
  match o with
  | Seq _ l => Seq None (map raw l)
  | Cho fl _ l => Cho fl [] (map raw l)
  | Rep e mn mx _ => Rep (raw e) mn mx None
  | And e => And (raw e)
  | Not e => Not (raw e)
  | Csc e => Csc (raw e)
  | Cap n e => Cap n (raw e)
  | Tok e => Tok (raw e)
  | Ign e => Ign (raw e)
  | Wsp e => Wsp (raw e)
  | Rcv e => Rcv (raw e)
  | Pre a b i _ => Pre (raw a) (raw b) i 0
  | Ref n _ _ m args => Ref n None 0 m (map raw args)
  | _ => o
  end.
Fixpoint write_list (l : list ope) : outcome bytes :=
  match l with [] => Ok [] | x :: l' => oapp (write_ope x) (write_list l') end.
Definition W (o : ope) : bytes := match write_ope o with Ok w => w | _ => [] end.
Definition back (o : ope) : Prop :=
  write_ope o = Ok (W o) /\ 1 <= List.length (W o)
  /\ forall fuel rest, List.length (W o) <= fuel -> read_ope fuel (W o ++ rest) = Ok (raw o, rest).
Lemma write_list_ok l : Forall back l -> write_list l = Ok (flat_map W l).
Proof. induction 1 as [|x l [H _] _ IH]; [reflexivity|]. cbn [write_list flat_map]. unfold oapp. rewrite H, IH. reflexivity. Qed.
Lemma read_list_ok l f rest : fits32 (List.length l) -> Forall back l -> List.length (flat_map W l) <= f ->
  rlist (read_ope f) (wlen l ++ flat_map W l ++ rest) = Ok (map raw l, rest).
Proof.
  intros Hl H Hf. apply rlist_flat; [assumption|].
  induction H as [|x l (H1 & H2 & H3) _ IH]; constructor.
  - split; [assumption|]. intros r. apply H3. cbn [flat_map] in Hf. rewrite app_length in Hf. lia.
  - apply IH; [unfold fits32 in *; cbn [List.length] in Hl; lia|]. cbn [flat_map] in Hf. rewrite app_length in Hf. lia.
Qed.
Lemma w8_len v : List.length (w8 v) = 1. Proof. reflexivity. Qed.
Lemma all_back l : Forall (fun o => savable o = true -> fits o -> back o) l -> forallb savable l = true -> conj_all (map fits l) -> Forall back l.
Proof.
  induction 1 as [|x l Hx _ IH]; cbn [forallb map conj_all fold_right]; intros Hs Hf; constructor; apply andb_prop in Hs as [H1 H2]; destruct Hf; auto.
Qed.
Lemma back_intro o w : write_ope o = Ok w -> 1 <= List.length w ->
  (forall fuel rest, List.length w <= fuel -> read_ope fuel (w ++ rest) = Ok (raw o, rest)) -> back o.
Proof. intros H. unfold back, W. rewrite H. auto. Qed.
(** One-operand operators. *)
Lemma back_un o e tag (k : ope -> ope) : back e -> (tag < 256)%N ->
  write_ope o = oapp (Ok (w8 tag)) (write_ope e) -> raw o = k (raw e) ->
  (forall f b, read_ope (S f) (w8 tag ++ b) = let* (x, b1) := read_ope f b in Ok (k x, b1)) -> back o.
Proof.
  intros (H1 & H2 & H3) Ht Hw Hr Hk. rewrite H1 in Hw. cbn [oapp bind] in Hw. apply (back_intro _ _ Hw).
  - rewrite app_length, w8_len. lia.
  - intros [|f] rest Hf; rewrite app_length, w8_len in Hf; [lia|]. rewrite <- app_assoc, Hk, H3 by lia. cbn [bind]. now rewrite Hr.
Qed.
Lemma write_read : forall o, savable o = true -> fits o -> back o.
Proof.
  induction o as [kg l IH|fl fs l IH|e mn mx sp IH|e IH|e IH|t|s ic|rs neg ic|cp| |e IH|n e IH|e IH|e IH|id|r|r|n rl ia m args IH|e IH|n|a b i r IHa IHb|e IH| | ] using ope_ind';
    cbn [savable fits]; intros Hs Hf; try discriminate;
    try (eapply (back_un _ _ _ _ (IH Hs Hf)); [|reflexivity|reflexivity|intros; reflexivity]; reflexivity).
  - destruct Hf as [Hl Hf]. pose proof (all_back _ IH Hs Hf) as Hb.
    eapply back_intro.
    + change (write_ope (Seq kg l)) with (oapp (Ok (w8 0 ++ wlen l)) (write_list l)). rewrite (write_list_ok _ Hb). reflexivity.
    + rewrite !app_length, w8_len. lia.
    + intros [|f] rest Hr; rewrite !app_length, w8_len in Hr; [lia|]. rewrite <- !app_assoc. cbn [read_ope]. rewrite r8_w8 by lia. cbn [bind].
      rewrite (read_list_ok l f rest Hl Hb) by lia. reflexivity.
  - destruct Hf as [Hl Hf]. pose proof (all_back _ IH Hs Hf) as Hb.
    eapply back_intro.
    + change (write_ope (Cho fl fs l)) with (oapp (Ok (w8 1 ++ wbool fl ++ wlen l)) (write_list l)). rewrite (write_list_ok _ Hb). reflexivity.
    + rewrite !app_length, w8_len. lia.
    + intros [|f] rest Hr; rewrite !app_length, w8_len in Hr; [lia|]. rewrite <- !app_assoc. cbn [read_ope]. rewrite r8_w8 by lia. cbn [bind].
      rewrite rbool_wbool. cbn [bind]. rewrite (read_list_ok l f rest Hl Hb) by lia. reflexivity.
  - destruct Hf as (Hmn & Hmx & Hf). destruct (IH Hs Hf) as (H1 & H2 & H3).
    eapply back_intro.
    + change (write_ope (Rep e mn mx sp)) with (oapp (Ok (w8 2 ++ w64 (N.of_nat mn) ++ w64 (match mx with Some m => N.of_nat m | None => SIZE_MAX end))) (write_ope e)). rewrite H1. reflexivity.
    + rewrite !app_length, w8_len. lia.
    + intros [|f] rest Hr; rewrite !app_length, w8_len in Hr; [lia|]. rewrite <- !app_assoc. cbn [read_ope]. rewrite r8_w8 by lia. cbn [bind].
      rewrite r64_w64 by exact Hmn. cbn [bind]. rewrite r64_w64 by (destruct mx; [|reflexivity]; unfold SIZE_MAX in *; lia). cbn [bind]. rewrite H3 by lia. cbn [bind raw]. rewrite Nat2N.id.
      destruct mx as [mx|]; [|reflexivity]. destruct (N.eqb_spec (N.of_nat mx) SIZE_MAX) as [C|_]; [unfold SIZE_MAX in C; lia|]. now rewrite Nat2N.id.
  - destruct Hf as (ic & ws & -> & Hp & Hl & Hw). pose proof (trie_words_plain ws ic Hp) as Ht.
    eapply back_intro; [reflexivity| |].
    + rewrite !app_length, w8_len. lia.
    + intros [|f] rest Hr; rewrite !app_length, w8_len in Hr; [lia|]. rewrite Ht. rewrite <- !app_assoc. cbn [read_ope]. rewrite r8_w8 by lia. cbn [bind].
      assert (Hi : t_ignore_case (make_trie ws ic) = ic) by (unfold make_trie; destruct (trie_items ic ws 0 [] 0); reflexivity). rewrite Hi.
      rewrite rbool_wbool. cbn [bind]. rewrite (rlist_flat rstr wstr (fun x => x)).
      * cbn [bind raw]. rewrite map_id, make_trie_low. reflexivity.
      * now rewrite map_length.
      * apply Forall_forall. intros x Hx. apply in_map_iff in Hx as (y & <- & Hy). split; [pose proof (wstr_len (same_text ic y)); lia|].
        intros r. apply rstr_wstr. rewrite same_text_length. rewrite Forall_forall in Hw. now apply Hw.
  - eapply back_intro; [reflexivity| |]; [rewrite !app_length, w8_len; lia|].
    intros [|f] rest Hr; rewrite !app_length, w8_len in Hr; [lia|]. rewrite <- !app_assoc. cbn [read_ope]. rewrite r8_w8 by lia. cbn [bind].
    rewrite rbool_wbool. cbn [bind]. rewrite rstr_wstr by assumption. reflexivity.
  - destruct Hf as [Hl Hr]. eapply back_intro; [reflexivity| |]; [rewrite !app_length, w8_len; lia|].
    intros [|f] rest Hf; rewrite !app_length, w8_len in Hf; [lia|]. rewrite <- !app_assoc. cbn [read_ope]. rewrite r8_w8 by lia. cbn [bind].
    rewrite rbool_wbool. cbn [bind]. rewrite rbool_wbool. cbn [bind].
    rewrite (rlist_flat rrange (fun r => w32 (fst r) ++ w32 (snd r)) (fun x => x)); [cbn [bind raw]; now rewrite map_id|assumption|].
    eapply Forall_impl; [|exact Hr]. intros [lo hi] [A B]. cbn [fst snd] in *. split; [rewrite app_length; unfold w32; rewrite !le_length; lia|].
    intros r. unfold rrange. rewrite <- app_assoc, r32_w32 by assumption. cbn [bind]. rewrite r32_w32 by assumption. reflexivity.
  - eapply back_intro; [reflexivity| |]; [rewrite !app_length, w8_len; lia|].
    intros [|f] rest Hr; rewrite !app_length, w8_len in Hr; [lia|]. rewrite <- !app_assoc. cbn [read_ope]. rewrite r8_w8 by lia. cbn [bind].
    rewrite r32_w32 by assumption. reflexivity.
  - eapply back_intro; [reflexivity| |]; [rewrite w8_len; lia|].
    intros [|f] rest Hr; rewrite w8_len in Hr; [lia|]. reflexivity.
  - destruct Hf as (Hn & Hl & Hf). pose proof (all_back _ IH Hs Hf) as Hb.
    eapply back_intro.
    + change (write_ope (Ref n rl ia m args)) with (oapp (Ok (w8 15 ++ wbool m ++ wstr n ++ wlen args)) (write_list args)). rewrite (write_list_ok _ Hb). reflexivity.
    + rewrite !app_length, w8_len. lia.
    + intros [|f] rest Hr; rewrite !app_length, w8_len in Hr; [lia|]. rewrite <- !app_assoc. cbn [read_ope]. rewrite r8_w8 by lia. cbn [bind].
      rewrite rbool_wbool. cbn [bind]. rewrite rstr_wstr by assumption. cbn [bind]. rewrite (read_list_ok args f rest Hl Hb) by lia. reflexivity.
  - eapply back_intro; [reflexivity| |]; [rewrite !app_length, w8_len; lia|].
    intros [|f] rest Hr; rewrite !app_length, w8_len in Hr; [lia|]. rewrite <- !app_assoc. cbn [read_ope]. rewrite r8_w8 by lia. cbn [bind].
    rewrite rstr_wstr by assumption. reflexivity.
  - apply andb_prop in Hs as [Hsa Hsb]. destruct Hf as (Hfa & Hfb & Hl & Hso & Hi).
    destruct (IHa Hsa Hfa) as (A1 & A2 & A3), (IHb Hsb Hfb) as (B1 & B2 & B3).
    eapply back_intro.
    + change (write_ope (Pre a b i r)) with (oapp (Ok (w8 19)) (oapp (write_ope a) (oapp (write_ope b) (Ok (wlen i ++ flat_map winfo i))))). rewrite A1, B1. reflexivity.
    + rewrite !app_length, w8_len. lia.
    + intros [|f] rest Hr; rewrite !app_length, w8_len in Hr; [lia|]. rewrite <- !app_assoc. cbn [read_ope]. rewrite r8_w8 by lia. cbn [bind].
      rewrite A3 by lia. cbn [bind]. rewrite B3 by lia. cbn [bind].
      rewrite (rlist_flat rinfo winfo (fun x => x)); [cbn [bind raw]; rewrite map_id, map_of_sorted by assumption; reflexivity|assumption|].
      eapply Forall_impl; [|exact Hi]. intros [ky [lv as_]] [C D]. cbn [fst snd] in *. unfold winfo. cbn [fst snd].
      split; [rewrite app_length; pose proof (wstr_len ky); lia|].
      intros q. unfold rinfo. rewrite <- !app_assoc, rstr_wstr by assumption. cbn [bind]. rewrite r64_w64 by exact D. cbn [bind].
      rewrite r8_w8 by (destruct as_; lia). cbn [bind]. rewrite Nat2N.id. destruct as_; reflexivity.
  - eapply back_intro; [reflexivity| |]; [rewrite w8_len; lia|].
    intros [|f] rest Hr; rewrite w8_len in Hr; [lia|]. reflexivity.
  - eapply back_intro; [reflexivity| |]; [rewrite w8_len; lia|].
    intros [|f] rest Hr; rewrite w8_len in Hr; [lia|]. reflexivity.
Qed.

(** ** Links *)
Section LinkList.
  Variables (names params : list bytes).
  Fixpoint link_list (l : list ope) : outcome (list ope) :=
    match l with [] => Ok [] | x :: l' => let* y := link_ope names params x in let* r := link_list l' in Ok (y :: r) end.
End LinkList.
Lemma link_list_ok names params self l :
  Forall (fun o => savable o = true -> nopre o = true -> resolved names params o -> link_ope names params (own_ope self (raw o)) = Ok (strip o)) l ->
  forallb savable l = true -> forallb nopre l = true -> conj_all (map (resolved names params) l) ->
  link_list names params (map (own_ope self) (map raw l)) = Ok (map strip l).
Proof.
  induction 1 as [|x l Hx _ IH]; cbn [forallb map conj_all fold_right link_list]; intros Hs Hn Hr; [reflexivity|].
  apply andb_prop in Hs as [S1 S2], Hn as [N1 N2]. destruct Hr as [R1 R2]. rewrite Hx by assumption. cbn [bind]. rewrite IH by assumption. reflexivity.
Qed.
Lemma link_raw names params self : forall o, savable o = true -> nopre o = true -> resolved names params o ->
  link_ope names params (own_ope self (raw o)) = Ok (strip o).
Proof.
  induction o as [kg l IH|fl fs l IH|e mn mx sp IH|e IH|e IH|t|s ic|rs neg ic|cp| |e IH|n e IH|e IH|e IH|id|r|r|n rl ia m args IH|e IH|n|a b i r IHa IHb|e IH| | ] using ope_ind';
    cbn [savable nopre resolved]; intros Hs Hn Hr; try discriminate; try contradiction; try reflexivity;
    try (cbn [raw own_ope link_ope strip]; rewrite IH by assumption; reflexivity).
  - change (link_ope names params (own_ope self (raw (Seq kg l)))) with (let* l' := link_list names params (map (own_ope self) (map raw l)) in Ok (Seq None l')).
    rewrite link_list_ok by assumption. reflexivity.
  - change (link_ope names params (own_ope self (raw (Cho fl fs l)))) with (let* l' := link_list names params (map (own_ope self) (map raw l)) in Ok (Cho fl [] l')).
    rewrite link_list_ok by assumption. reflexivity.
  - destruct Hr as [Ht Hr].
    change (link_ope names params (own_ope self (raw (Ref n rl ia m args)))) with
      (let* args' := link_list names params (map (own_ope self) (map raw args)) in
       match index_of n params with
       | Some i => Ok (Ref n None i m args')
       | None => match index_of n names with Some q => Ok (Ref n (Some q) 0 m args') | None => Ok (Ref n None 0 m args') end
       end).
    rewrite link_list_ok by assumption. cbn [bind strip]. unfold target in Ht. destruct (index_of n params); [now inversion Ht|]. inversion Ht. subst. destruct (index_of n names); reflexivity.
Qed.
Lemma link_def_raw names self d o : savable o = true -> r_body (d_rule d) = Some o -> resolved names (r_params (d_rule d)) o ->
  (nopre o = true \/ exists a b i, o = Pre a b i self /\ nopre a = true /\ nopre b = true) ->
  link_def names self {| d_rule := with_body (d_rule d) (Some (raw o)); d_eoi := d_eoi d; d_packrat := d_packrat d |}
  = Ok {| d_rule := strip_rule (d_rule d); d_eoi := d_eoi d; d_packrat := d_packrat d |}.
Proof.
  intros Hs Hb Hr Hp. unfold link_def. cbn [d_rule with_body r_body r_params d_eoi d_packrat]. unfold strip_rule. rewrite Hb. cbn [option_map].
  assert (Hw : forall o', with_body (with_body (d_rule d) (Some (raw o))) o' = with_body (d_rule d) o') by reflexivity.
  destruct Hp as [Hn|(a & b & i & -> & Ha & Hb')].
  - rewrite (link_raw names _ self o Hs Hn Hr). cbn [bind]. destruct o; try reflexivity; discriminate Hn.
  - cbn [resolved savable] in Hr, Hs. destruct Hr as [R1 R2]. apply andb_prop in Hs as [S1 S2].
    cbn [raw own_ope link_ope]. rewrite (link_raw names _ self a S1 Ha R1). cbn [bind]. rewrite (link_raw names _ self b S2 Hb' R2). reflexivity.
Qed.

(** ** Definitions *)
Definition Wd (d : defn) : bytes := match write_def d with Ok w => w | _ => [] end.
Definition raw_def (d : defn) : defn :=
  {| d_rule := with_body (d_rule d) (option_map raw (r_body (d_rule d))); d_eoi := d_eoi d; d_packrat := d_packrat d |}.
Lemma bits a b c e f g h i : let v := (bit a 1 + bit b 2 + bit c 4 + bit e 8 + bit f 16 + bit g 32 + bit h 64 + bit i 128)%N in
  (v < 256)%N /\ N.testbit v 0 = a /\ N.testbit v 1 = b /\ N.testbit v 2 = c /\ N.testbit v 3 = e /\ N.testbit v 4 = f /\ N.testbit v 5 = g
  /\ N.testbit v 6 = h /\ N.testbit v 7 = i.
Proof. destruct a, b, c, e, f, g, h, i; vm_compute; auto 10. Qed.
Lemma raw_nul o : raw o = Nul -> o = Nul.
Proof. destruct o; cbn; congruence. Qed.
Lemma write_read_def names self d : def_ok names self d -> (forall o, r_body (d_rule d) = Some o -> savable o = true) ->
  write_def d = Ok (Wd d) /\ 1 <= List.length (Wd d) /\ forall rest, read_def (Wd d ++ rest) = Ok (raw_def d, rest).
Proof.
  intros (H1 & H2 & H3 & H4 & H5 & H6 & o & Hb & Hf & Hr & Hp) Hs. specialize (Hs _ Hb).
  destruct (write_read o Hs Hf) as (A & B & C).
  assert (Hnul : o <> Nul) by (intros ->; exact Hr).
  unfold Wd, write_def. rewrite Hb, A. cbn [oapp bind].
  set (fl := (bit (r_ignore (d_rule d)) 1 + bit (r_is_macro (d_rule d)) 2 + bit (r_no_ast_opt (d_rule d)) 4 + bit (d_eoi d) 8 + bit (d_packrat d) 16
           + bit (r_lr (d_rule d)) 32 + bit (r_can_be_empty (d_rule d)) 64 + bit (r_disable_action (d_rule d)) 128)%N).
  pose proof (bits (r_ignore (d_rule d)) (r_is_macro (d_rule d)) (r_no_ast_opt (d_rule d)) (d_eoi d) (d_packrat d) (r_lr (d_rule d)) (r_can_be_empty (d_rule d)) (r_disable_action (d_rule d))) as Hfl.
  cbv zeta in Hfl. fold fl in Hfl. destruct Hfl as (F & F0 & F1 & F2 & F3 & F4 & F5 & F6 & F7).
  split; [reflexivity|]. split; [rewrite !app_length; pose proof (wstr_len (r_name (d_rule d))); lia|]. intros rest.
  rewrite <- !app_assoc. unfold read_def. rewrite rstr_wstr by assumption. cbn [bind]. rewrite r8_w8 by assumption. cbn [bind].
  rewrite r8_w8 by (destruct (r_no_whitespace (d_rule d)); cbn; lia). cbn [bind].
  rewrite (rlist_flat rstr wstr (fun x => x)); [|assumption|].
  2: { eapply Forall_impl; [|exact H3]. intros x Hx. split; [pose proof (wstr_len x); lia|]. intros q. now apply rstr_wstr. }
  cbn [bind]. rewrite map_id, rstr_wstr by assumption. cbn [bind]. rewrite rstr_wstr by assumption. cbn [bind].
  rewrite C by (rewrite app_length; lia). cbn [bind]. rewrite F0, F1, F2, F3, F4, F5, F6, F7.
  assert (Hw : N.testbit (bit (r_no_whitespace (d_rule d)) 1) 0 = r_no_whitespace (d_rule d)) by (destruct (r_no_whitespace (d_rule d)); reflexivity). rewrite Hw.
  assert (Hm : match raw o with Nul => None | _ => Some (raw o) end = Some (raw o)).
  { destruct (raw o) eqn:E; try reflexivity. apply raw_nul in E. contradiction. }
  rewrite Hm. unfold raw_def. rewrite Hb. cbn [option_map]. unfold with_body. rewrite H6. reflexivity.
Qed.
Lemma write_defs_ok l : Forall (fun d => write_def d = Ok (Wd d)) l -> write_defs l = Ok (flat_map Wd l).
Proof. induction 1 as [|x l H _ IH]; [reflexivity|]. cbn [write_defs flat_map]. unfold oapp. rewrite H, IH. reflexivity. Qed.
Lemma link_defs_ok names l : forall i,
  (forall j d, nth_error l j = Some d -> def_ok names (i + j) d /\ forall o, r_body (d_rule d) = Some o -> savable o = true) ->
  link_defs names i (map raw_def l) = Ok (map (fun d => {| d_rule := strip_rule (d_rule d); d_eoi := d_eoi d; d_packrat := d_packrat d |}) l).
Proof.
  induction l as [|d l IH]; intros i H; [reflexivity|]. cbn [map link_defs].
  destruct (H 0 d eq_refl) as [(_ & _ & _ & _ & _ & _ & o & Hb & _ & Hr & Hp) Hs]. rewrite Nat.add_0_r in Hp.
  unfold raw_def at 1. rewrite Hb. cbn [option_map]. rewrite (link_def_raw names i d o (Hs _ Hb) Hb Hr Hp). cbn [bind].
  rewrite IH; [reflexivity|]. intros j x Hx. replace (S i + j) with (i + S j) by lia. apply (H (S j) x Hx).
Qed.
Lemma index_of_in n l : In n l -> index_of n l <> None.
Proof.
  induction l as [|x l IH]; cbn [In index_of]; [contradiction|]. intros [->|H]; [rewrite bytes_eqb_refl; discriminate|].
  destruct (bytes_eqb x n); [discriminate|]. specialize (IH H). destruct (index_of n l); [discriminate|contradiction].
Qed.
Lemma with_rules_same l : with_rules (map (fun d => {| d_rule := strip_rule (d_rule d); d_eoi := d_eoi d; d_packrat := d_packrat d |}) l) (map d_rule l) = l.
Proof. unfold with_rules. induction l as [|[r e p] l IH]; [reflexivity|]. cbn [map combine fst snd d_eoi d_packrat]. f_equal. exact IH. Qed.
Definition blob_of (L : loaded) : bytes := w32 MAGIC ++ wstr (l_start L) ++ wlen (l_defs L) ++ flat_map Wd (l_defs L).
Definition saves (L : loaded) : Prop := forall d o, In d (l_defs L) -> r_body (d_rule d) = Some o -> savable o = true.
Lemma ready_defs k n order L : ready k n order L -> saves L ->
  Forall (fun d => write_def d = Ok (Wd d) /\ 1 <= List.length (Wd d) /\ forall rest, read_def (Wd d ++ rest) = Ok (raw_def d, rest)) (l_defs L).
Proof.
  intros HL Hs. apply Forall_forall. intros d Hd. destruct (In_nth_error _ _ Hd) as [i Hi]. eapply write_read_def; [exact (rd_defs _ _ _ _ HL _ _ Hi)|]. intros o Ho. exact (Hs d o Hd Ho).
Qed.
Lemma serialize_ok k n order L : ready k n order L -> saves L -> serialize L = Ok (blob_of L).
Proof.
  intros HL Hs. unfold serialize. rewrite sort_by_sorted by exact (rd_names _ _ _ _ HL). rewrite write_defs_ok.
  - cbn [oapp bind]. unfold blob_of. rewrite <- !app_assoc. reflexivity.
  - eapply Forall_impl; [|exact (ready_defs _ _ _ _ HL Hs)]. intros d H. apply H.
Qed.
Lemma read_blob_ok k n order L rest : ready k n order L -> saves L ->
  read_blob (blob_of L ++ rest) = Ok ((l_start L, map raw_def (l_defs L)), rest).
Proof.
  intros HL Hs. destruct (rd_size _ _ _ _ HL) as [Z1 Z2]. unfold read_blob, blob_of. rewrite <- !app_assoc. rewrite r32_w32 by reflexivity. cbn [bind].
  rewrite N.eqb_refl. cbn [negb]. rewrite rstr_wstr by assumption. cbn [bind].
  rewrite (rlist_flat read_def Wd raw_def); [|assumption|].
  - cbn [bind]. rewrite map_of_sorted; [reflexivity|]. rewrite map_map. exact (rd_names _ _ _ _ HL).
  - eapply Forall_impl; [|exact (ready_defs _ _ _ _ HL Hs)]. intros d H. apply H.
Qed.
Theorem load_serialized k n order L rest : ready k n order L -> saves L -> load_blob k n order (blob_of L ++ rest) = Ok L.
Proof.
  intros HL Hs. unfold load_blob. rewrite (read_blob_ok k n order L rest HL Hs). cbn [bind].
  assert (Hn : def_names (map raw_def (l_defs L)) = def_names (l_defs L)) by (unfold def_names; rewrite map_map; reflexivity). rewrite Hn.
  rewrite link_defs_ok.
  2: { intros j d Hd. cbn [Nat.add]. split; [exact (rd_defs _ _ _ _ HL _ _ Hd)|]. intros o Ho. exact (Hs d o (nth_error_In _ _ Hd) Ho). }
  cbn [bind]. rewrite map_map. cbn [d_rule].
  pose proof (rd_first _ _ _ _ HL) as Hf. unfold strip_grammar, l_grammar in Hf. rewrite map_map in Hf. rewrite Hf. cbn [bind]. rewrite with_rules_same.
  unfold ensure. destruct (index_of (l_start L) (def_names (l_defs L))) eqn:E; [|exfalso; exact (index_of_in _ _ (rd_start _ _ _ _ HL) E)].
  rewrite <- (rd_ws _ _ _ _ HL), <- (rd_word _ _ _ _ HL). destruct L; reflexivity.
Qed.
