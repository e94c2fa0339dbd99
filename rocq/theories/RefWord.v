(** * The %word check of the reference semantics, compared between two environments. *)
From Verif Require Import Base BaseLemmas Utf8 Escape TrieM LineInfo Ope Ctx ErrLog Engine RefSem RefMono.

Section RefWord.
  Context {V U : Type}.
  Notation env := (env V U).
  Notation sv := (sv V).
  Implicit Types (E : env) (vs : sv) (m : mode).

  (** The check after a literal; after a dictionary word. *)
  Definition word_lit (rec : @ref_t V U) E (lit : bytes) (pos : nat) : option bool :=
    match e_word E with
    | None => Some true
    | Some w => let? isw := ref_is_word rec E w lit in
                if isw then ref_not_word rec E w (pos + List.length lit) else Some true
    end.
  Definition word_dic (rec : @ref_t V U) E (pos : nat) : option bool :=
    match e_word E with None => Some true | Some w => ref_not_word rec E w pos end.

  Lemma ref_lit_eq rec E m lit ic pos vs : ref_lit rec E m lit ic pos vs =
    (let? ok := out_of (lit_loop (e_input E) pos (left E pos) (if ic then to_lower lit else lit) ic) in
     if ok then let? wok := word_lit rec E lit pos in
                if wok then ref_then rec E m pos (List.length lit) vs else Some None
     else Some None).
  Proof. reflexivity. Qed.
  Lemma ref_dic_eq rec E m t pos vs : ref_dic rec E m t pos vs =
    (let (i, id) := trie_match t (from (e_input E) pos) in
     if i =? 0 then Some None
     else let? wok := word_dic rec E (pos + i) in
          if wok then ref_then rec E m pos i (set_choice (t_items_count t) (match id with Some k => k | None => 0 end) vs)
          else Some None).
  Proof. reflexivity. Qed.

  Lemma word_lit_up j k E lit pos b : j <= k -> word_lit (ref j) E lit pos = Some b -> word_lit (ref k) E lit pos = Some b.
  Proof.
    intros Hk. apply sub_Some. unfold word_lit, ref_is_word, ref_not_word.
    assert (H : forall E sd fr m o pos vs, sub_of (ref j E sd fr m o pos vs) (ref k E sd fr m o pos vs)) by (intros; now apply ref_sub).
    smono.
  Qed.
  Lemma word_dic_up j k E pos b : j <= k -> word_dic (ref j) E pos = Some b -> word_dic (ref k) E pos = Some b.
  Proof.
    intros Hk. apply sub_Some. unfold word_dic, ref_not_word.
    assert (H : forall E sd fr m o pos vs, sub_of (ref j E sd fr m o pos vs) (ref k E sd fr m o pos vs)) by (intros; now apply ref_sub).
    smono.
  Qed.

  (** Every answer of the checks in [E1] is given in [E2]. *)
  Definition words_le E1 E2 : Prop :=
    (forall k lit pos b, word_lit (ref k) E1 lit pos = Some b -> exists j, word_lit (ref j) E2 lit pos = Some b)
    /\ (forall k pos b, word_dic (ref k) E1 pos = Some b -> exists j, word_dic (ref j) E2 pos = Some b).
  Lemma words_none E1 E2 : e_word E1 = None -> e_word E2 = None -> words_le E1 E2.
  Proof.
    intros H1 H2. split; unfold word_lit, word_dic; rewrite H1, H2; intros; exists 0; assumption.
  Qed.
  Lemma words_of E1 E2 : e_word E1 = e_word E2 -> e_input E1 = e_input E2 ->
    (forall w inp k o pos x, e_word E1 = Some w -> o = w \/ o = Not w ->
      ref k (word_env E1 inp) None no_frame m_top o pos sv_new = Some x ->
      exists j y, ref j (word_env E2 inp) None no_frame m_top o pos sv_new = Some y /\ option_map fst x = option_map fst y) ->
    words_le E1 E2.
  Proof.
    intros Hw Hi H. unfold words_le, word_lit, word_dic. rewrite <- Hw. destruct (e_word E1) as [w|]; [|split; intros; exists 0; assumption].
    assert (Hn : forall k pos b, ref_not_word (ref k) E1 w pos = Some b -> exists j, ref_not_word (ref j) E2 w pos = Some b).
    { intros k pos b X. unfold ref_not_word in *. rewrite <- Hi. destruct (ref k (word_env E1 (e_input E1)) None no_frame m_top (Not w) pos sv_new) as [x|] eqn:Y; [|discriminate].
      destruct (H w _ k (Not w) pos x eq_refl (or_intror eq_refl) Y) as (j & y & A & B). exists j. rewrite A. cbn in *.
      destruct x as [[? ?]|], y as [[? ?]|]; try discriminate B; exact X. }
    split; [|exact Hn]. intros k lit pos b X. unfold ref_is_word in X.
    destruct (ref k (word_env E1 lit) None no_frame m_top w 0 sv_new) as [x|] eqn:Y; [|discriminate].
    destruct (H w lit k w 0 x eq_refl (or_introl eq_refl) Y) as (j & y & A & B). cbn [obind] in X.
    destruct x as [[? ?]|], y as [[? ?]|]; try discriminate B.
    - apply Hn in X as [j2 X]. exists (j + j2). unfold ref_is_word. rewrite (ref_mono j (j + j2) _ _ _ _ _ _ _ _ (Nat.le_add_r _ _) A). cbn [obind].
      change (word_dic (ref (j + j2)) {| e_g := e_g E2; e_input := e_input E2; e_ws := e_ws E2; e_word := Some w; e_packrat := e_packrat E2;
        e_slot := e_slot E2; e_cached := e_cached E2; e_has_cut := e_has_cut E2; e_tracer := e_tracer E2;
        e_verbose := e_verbose E2; e_need_rules := e_need_rules E2; e_recog := e_recog E2; e_u0 := e_u0 E2;
        e_action := e_action E2; e_pred := e_pred E2; e_enter := e_enter E2;
        e_leave := e_leave E2; e_user := e_user E2 |} (pos + List.length lit) = Some b).
      eapply word_dic_up; [|exact X]. lia.
    - exists j. unfold ref_is_word. rewrite A. exact X.
  Qed.
End RefWord.
