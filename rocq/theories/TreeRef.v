(** * The reference semantics leaves the values of parse trees. *)
From Verif Require Import Base BaseLemmas Utf8 Escape TrieM TrieSpec LineInfo Ope Ctx ErrLog Engine EngineLemmas Scope RefSem RefMono RefWord Refine RefineOps RefineMain
  EngineFacts LrSpec LrRef TreeSpec TrieProofs.

Section TreeRef.
  Context {V U : Type} {kp : keepvals}.
  Notation sv := (sv V).
  Implicit Types (vs : sv) (m : mode) (sd : seed V).
  Variable E : env V U.
  Variable al : modes.
  Hypothesis Hkp : kp = false.
  Hypothesis Hpred : forall r, e_pred E r = None.
  Hypothesis HE : okE E al.
  Notation E' := (with_g E (iterate (e_g E))).
  Hypothesis Hwords : words_le E' E.
  Variable lit_end : bytes -> nat -> bool -> Prop.
  Variable dic_end : nat -> bool -> Prop.
  Hypothesis Hlit : forall k s pos b, word_lit (ref k) E' s pos = Some b -> lit_end s pos b.
  Hypothesis Hdic : forall k pos b, word_dic (ref k) E' pos = Some b -> dic_end pos b.
  Notation inp := (e_input E).
  Notation der := (der (e_g E) (e_ws E) inp lit_end dic_end).
  Notation der_seq := (der_seq (e_g E) (e_ws E) inp lit_end dic_end).
  Notation der_cho := (der_cho (e_g E) (e_ws E) inp lit_end dic_end).
  Notation der_times := (der_times (e_g E) (e_ws E) inp lit_end dic_end).
  Notation der_upto := (der_upto (e_g E) (e_ws E) inp lit_end dic_end).
  Notation skip := (skip (e_g E) (e_ws E) inp lit_end dic_end).
  Notation der_rule := (der_rule (e_g E) (e_ws E) inp lit_end dic_end).
  Notation grow := (grow (e_g E) (e_ws E) inp lit_end dic_end).
  Definition ev : ptree -> option V := eval (e_g E) inp (e_action E) (e_leave E) (e_u0 E).
  Notation tag k := (tag_of (e_g E) (t_rule k)).
  Notation seed_free := (seed_free E al).
  Notation fr_ok := (fr_ok E al).
  Notation chk' := (chk' E al).

  (** The scope after an expression. *)
  Definition after (f : found) vs : sv :=
    {| v_vals := v_vals vs ++ map ev (f_kids f); v_tags := v_tags vs ++ map (fun k => tag k) (f_kids f); v_toks := v_toks vs ++ f_toks f;
       v_sv := v_sv vs; v_cc := match f_alt f with Some a => fst a | None => v_cc vs end; v_ch := match f_alt f with Some a => snd a | None => v_ch vs end;
       v_name := v_name vs |}.
  Definition out (i : nat) (x : option found) vs : rv V := option_map (fun f => (i + f_len f, after f vs)) x.
  Lemma after_bytes n vs : after (bytes_only n) vs = vs.
  Proof. destruct vs. unfold after. cbn. now rewrite !app_nil_r. Qed.
  Lemma after_join a b vs : after (join a b) vs = after b (after a vs).
  Proof. unfold after, join. cbn. rewrite !map_app, !app_assoc. destruct (f_alt b); reflexivity. Qed.
  Lemma after_alt t i f vs : after (with_alt t i f) vs = set_choice t i (after f vs). Proof. reflexivity. Qed.
  Lemma after_tok pos f vs : after (with_tok pos f) vs = push_tok (pos, f_len f) (after f vs).
  Proof. unfold after, with_tok, push_tok, set_toks. cbn. now rewrite app_assoc. Qed.
  Lemma after_used r d t vs : nth_error (e_g E) r = Some d -> t_rule t = r ->
    after (used d t) vs = if r_ignore d then vs else push_val (ev t) (str2tag (r_name d)) vs.
  Proof.
    intros Hd Ht. unfold used. destruct (r_ignore d); [apply after_bytes|]. unfold after, push_val. cbn. unfold tag_of. rewrite Ht, Hd, app_nil_r. reflexivity.
  Qed.
  Lemma used_len d t : f_len (used d t) = t_len t.
  Proof. unfold used. destruct (r_ignore d); reflexivity. Qed.
  Lemma out_join i f x vs : out i (option_map (join f) x) vs = out (i + f_len f) x (after f vs).
  Proof. destruct x as [f'|]; [|reflexivity]. cbn. rewrite after_join. do 2 f_equal. lia. Qed.

  Definition same (i : nat) (x : rv V) (y : option found) : Prop := option_map fst x = option_map (fun f => i + f_len f) y.
  Definition sims (k : nat) : Prop :=
    forall fr m o pos vs x, fr_ok fr -> chk' m o -> ref k E' None fr m o pos vs = Some x ->
      exists j y, der fr m o pos y /\ same 0 x y /\ forall sd vs', seed_free k sd -> ref j E sd fr m o pos vs' = Some (out 0 y vs').


  Lemma v_skip k : sims k -> forall m pos vs x, ref_skip (ref k) E' m pos vs = Some x ->
    exists j y, skip m pos y /\ same 0 x y /\ forall vs', ref_skip (ref j) E m pos vs' = Some (out 0 y vs').
  Proof.
    intros IH m pos vs x H. unfold ref_skip in *. cbn [with_g e_ws] in H. destruct (e_ws E) as [w|] eqn:Hw.
    - destruct (m_tok m) eqn:Ht.
      { inv H. exists 0, (Some (bytes_only 0)). split; [apply sk_none; auto|]. split; [reflexivity|]. intros. cbn. now rewrite after_bytes. }
      destruct (IH no_frame m w pos vs x) as (j & y & D & A & B); auto.
      + split; [now left|constructor].
      + apply chk_chk'. destruct (ok_ws E al HE w Hw) as [_ Hc]. now apply Hc.
      + exists j, y. split; [|split; [assumption|intros vs'; exact (B None vs' I)]]. rewrite Hw in D. eapply sk_ws; [reflexivity|exact Ht|exact D].
    - inv H. exists 0, (Some (bytes_only 0)). split; [apply sk_none; auto|]. split; [reflexivity|]. intros. cbn. now rewrite after_bytes.
  Qed.
  Lemma v_then k : sims k -> forall m pos n vs x, ref_then (ref k) E' m pos n vs = Some x ->
    exists j y, skip m (pos + n) y /\ same n x y /\ forall vs', ref_then (ref j) E m pos n vs' = Some (out n y vs').
  Proof.
    intros IH m pos n vs x H. unfold ref_then in H. oinv H. inv H.
    destruct (v_skip k IH m (pos + n) vs a Hm) as (j & y & D & A & B). exists j, y. split; [exact D|]. split.
    - destruct a as [[? ?]|], y as [?|]; try discriminate A; [|reflexivity]. cbv [same option_map fst] in A |- *. injection A as A. f_equal. lia.
    - intros vs'. unfold ref_then. rewrite B. cbn. destruct y; reflexivity.
  Qed.
  Lemma v_seq k fr m l : (forall o, In o l -> chk' m o) -> sims k -> fr_ok fr -> forall pos i vs x,
    ref_seq (ref k E' None fr m) l pos i vs = Some x ->
    exists j y, der_seq fr m l (pos + i) y /\ same i x y /\ forall sd vs', seed_free k sd -> ref_seq (ref j E sd fr m) l pos i vs' = Some (out i y vs').
  Proof.
    intros Hc IH Hf. induction l as [|o l IHl]; intros pos i vs x H; cbn [ref_seq] in *.
    { inv H. exists 0, (Some (bytes_only 0)). split; [constructor|]. split; [unfold same; cbn; now rewrite Nat.add_0_r|]. intros. cbn. now rewrite after_bytes, Nat.add_0_r. }
    oinv H. destruct (IH fr m o (pos + i) vs a Hf (Hc o (or_introl eq_refl)) Hm) as (j1 & y & D1 & A & B).
    destruct a as [[n v]|], y as [f|]; try discriminate A.
    - injection A as A. cbn [Nat.add] in A. subst n. destruct (IHl (fun o Ho => Hc o (or_intror Ho)) pos (i + f_len f) v x H) as (j2 & z & D2 & C & D).
      exists (j1 + j2), (option_map (join f) z). split; [apply ds_cons; [exact D1|now rewrite <- Nat.add_assoc]|]. split.
      + unfold same in *. rewrite C. destruct z; cbn; [f_equal; lia|reflexivity].
      + intros sd vs' Hs. rewrite (lift_ref E (j1 + j2) (Nat.le_add_r _ _) (B sd vs' Hs)). cbn [obind out option_map]. rewrite out_join.
        eapply sub_Some; [|exact (D sd _ Hs)]. apply s_seq. intros. apply ref_sub. lia.
    - inv H. exists j1, None. split; [now apply ds_no|]. split; [reflexivity|]. intros sd vs' Hs. rewrite B by assumption. reflexivity.
  Qed.
  Lemma v_cho k fr m l : (forall o, In o l -> chk' m o) -> sims k -> fr_ok fr -> forall total id total' id' pos vs x,
    ref_cho (ref k E' None fr m) total l id pos vs = Some x ->
    exists j y, der_cho fr m total' id' l pos y /\ same 0 x y /\ forall sd vs', seed_free k sd -> ref_cho (ref j E sd fr m) total' l id' pos vs' = Some (out 0 y vs').
  Proof.
    intros Hc IH Hf total id total'. revert id. induction l as [|o l IHl]; intros id id' pos vs x H; cbn [ref_cho] in *.
    { inv H. exists 0, None. split; [constructor|]. split; reflexivity. }
    oinv H. destruct (IH fr m o pos vs a Hf (Hc o (or_introl eq_refl)) Hm) as (j1 & y & D1 & A & B).
    destruct a as [[n v]|], y as [f|]; try discriminate A.
    - inv H. exists j1, (Some (with_alt total' id' f)). split; [now apply dc_first|]. split; [exact A|]. intros sd vs' Hs. rewrite B by assumption. reflexivity.
    - destruct (IHl (fun o Ho => Hc o (or_intror Ho)) (S id) (S id') pos vs x H) as (j2 & z & D2 & C & D).
      exists (j1 + j2), z. split; [now apply dc_next|]. split; [exact C|]. intros sd vs' Hs.
      rewrite (lift_ref E (j1 + j2) (Nat.le_add_r _ _) (B sd vs' Hs)). cbn [obind out option_map].
      eapply sub_Some; [|exact (D sd _ Hs)]. apply s_cho. intros. apply ref_sub. lia.
  Qed.
  Lemma v_min k fr m e n : chk' m e -> sims k -> fr_ok fr -> forall pos i vs x,
    ref_min (ref k E' None fr m e) n pos i vs = Some x ->
    exists j y, der_times fr m e n (pos + i) y /\ same i x y /\ forall sd vs', seed_free k sd -> ref_min (ref j E sd fr m e) n pos i vs' = Some (out i y vs').
  Proof.
    intros Hc IH Hf. induction n as [|n IHn]; intros pos i vs x H; cbn [ref_min] in *.
    { inv H. exists 0, (Some (bytes_only 0)). split; [constructor|]. split; [unfold same; cbn; now rewrite Nat.add_0_r|]. intros. cbn. now rewrite after_bytes, Nat.add_0_r. }
    oinv H. destruct (IH fr m e (pos + i) vs a Hf Hc Hm) as (j1 & y & D1 & A & B).
    destruct a as [[q v]|], y as [f|]; try discriminate A.
    - injection A as A. cbn [Nat.add] in A. subst q. destruct (IHn pos (i + f_len f) v x H) as (j2 & z & D2 & C & D).
      exists (j1 + j2), (option_map (join f) z). split; [apply dt_more; [exact D1|now rewrite <- Nat.add_assoc]|]. split.
      + unfold same in *. rewrite C. destruct z; cbn; [f_equal; lia|reflexivity].
      + intros sd vs' Hs. rewrite (lift_ref E (j1 + j2) (Nat.le_add_r _ _) (B sd vs' Hs)). cbn [obind out option_map]. rewrite out_join.
        eapply sub_Some; [|exact (D sd _ Hs)]. apply s_min. intros. apply ref_sub. lia.
    - inv H. exists j1, None. split; [now apply dt_no|]. split; [reflexivity|]. intros sd vs' Hs. rewrite B by assumption. reflexivity.
  Qed.
  Lemma v_more k fr m e : chk' m e -> sims k -> fr_ok fr -> forall fuel room pos i vs x,
    ref_more fuel (ref k E' None fr m e) room pos i vs = Some x ->
    exists F j f, der_upto fr m e room (pos + i) f /\ same i x (Some f) /\ forall sd vs', seed_free k sd -> ref_more F (ref j E sd fr m e) room pos i vs' = Some (out i (Some f) vs').
  Proof.
    intros Hc IH Hf.
    assert (Hfull : forall pos i vs x, x = Some (i, vs) -> exists F j f, der_upto fr m e (Some 0) (pos + i) f /\ same i x (Some f)
      /\ forall sd vs', seed_free k sd -> ref_more F (ref j E sd fr m e) (Some 0) pos i vs' = Some (out i (Some f) vs')).
    { intros pos i vs x ->. exists 0, 0, (bytes_only 0). split; [constructor|]. split; [unfold same; cbn; now rewrite Nat.add_0_r|].
      intros. cbn. now rewrite after_bytes, Nat.add_0_r. }
    induction fuel as [|fuel IHf]; intros room pos i vs x H; cbn [ref_more] in H.
    - destruct room as [[|?]|]; try discriminate. inv H. eapply Hfull. reflexivity.
    - assert (Hstep : room = Some 0 \/ room <> Some 0) by (destruct room as [[|?]|]; auto; right; discriminate).
      destruct Hstep as [->|Hr]; [inv H; eapply Hfull; reflexivity|]. clear Hfull.
      assert (H' : (let? r := ref k E' None fr m e (pos + i) vs in
        match r with None => Some (Some (i, vs)) | Some (k0, v0) => ref_more fuel (ref k E' None fr m e) (option_map pred room) pos (i + k0) v0 end) = Some x)
        by (destruct room as [[|?]|]; congruence). clear H. oinv H'.
      destruct (IH fr m e (pos + i) vs a Hf Hc Hm) as (j1 & y & D1 & A & B).
      destruct a as [[q v]|], y as [f|]; try discriminate A.
      + injection A as A. cbn [Nat.add] in A. subst q. destruct (IHf (option_map pred room) pos (i + f_len f) v x H') as (F & j2 & z & D2 & C & D).
        exists (S F), (j1 + j2), (join f z). split; [apply du_more; [exact Hr|exact D1|now rewrite <- Nat.add_assoc]|]. split.
        { unfold same in *. rewrite C. cbn. f_equal. lia. }
        intros sd vs' Hs. cbn [ref_more].
        assert (X : (let? r := ref (j1 + j2) E sd fr m e (pos + i) vs' in
          match r with None => Some (Some (i, vs')) | Some (k0, v0) => ref_more F (ref (j1 + j2) E sd fr m e) (option_map pred room) pos (i + k0) v0 end) = Some (out i (Some (join f z)) vs')).
        { rewrite (lift_ref E (j1 + j2) (Nat.le_add_r _ _) (B sd vs' Hs)). cbn [obind out option_map]. change (Some (i + f_len (join f z), after (join f z) vs')) with (out i (option_map (join f) (Some z)) vs'). rewrite out_join.
          eapply sub_Some; [|exact (D sd _ Hs)]. apply s_more; [intros; apply ref_sub; lia|lia]. }
        destruct room as [[|?]|]; congruence.
      + inv H'. exists 1, j1, (bytes_only 0). split; [now apply du_end|]. split; [unfold same; cbn; now rewrite Nat.add_0_r|].
        intros sd vs' Hs. assert (X : ref_more 1 (ref j1 E sd fr m e) room pos i vs' = Some (Some (i, vs'))).
        { destruct room as [[|?]|]; [congruence| |]; cbn [ref_more]; rewrite B by assumption; reflexivity. }
        rewrite X. cbn. now rewrite after_bytes, Nat.add_0_r.
  Qed.
  Lemma v_rep k fr m e mn mx sp : chk' m e -> sims k -> fr_ok fr -> forall fuel pos vs x,
    ref_rep fuel (ref k E' None fr m e) mn mx pos vs = Some x ->
    exists F j y, der fr m (Rep e mn mx sp) pos y /\ same 0 x y /\ forall sd vs', seed_free k sd -> ref_rep F (ref j E sd fr m e) mn mx pos vs' = Some (out 0 y vs').
  Proof.
    intros Hc IH Hf fuel pos vs x H. unfold ref_rep in *. oinv H.
    destruct (v_min k fr m e mn Hc IH Hf pos 0 vs a Hm) as (j1 & y & D1 & A & B). rewrite Nat.add_0_r in D1.
    destruct a as [[q v]|], y as [f|]; try discriminate A.
    - injection A as A. cbn [Nat.add] in A. subst q.
      assert (Hmore : forall room, ref_more fuel (ref k E' None fr m e) room pos (f_len f) v = Some x ->
        exists F j z, der_upto fr m e room (pos + f_len f) z /\ same 0 x (Some (join f z)) /\ forall sd vs', seed_free k sd ->
          (let? r := ref_min (ref j E sd fr m e) mn pos 0 vs' in match r with None => Some None | Some (i, v1) => ref_more F (ref j E sd fr m e) room pos i v1 end) = Some (out 0 (Some (join f z)) vs')).
      { intros room Hmo. destruct (v_more k fr m e Hc IH Hf fuel room pos (f_len f) v x Hmo) as (F & j2 & z & D2 & C & D).
        exists F, (j1 + j2), z. split; [exact D2|]. split; [exact C|]. intros sd vs' Hs.
        assert (A' : ref_min (ref (j1 + j2) E sd fr m e) mn pos 0 vs' = Some (out 0 (Some f) vs')).
        { eapply sub_Some; [|exact (B sd _ Hs)]. apply s_min. intros. apply ref_sub. lia. }
        rewrite A'. cbn [obind out option_map Nat.add].
        change (Some (f_len (join f z), after (join f z) vs')) with (out 0 (option_map (join f) (Some z)) vs'). rewrite out_join.
        eapply sub_Some; [|exact (D sd _ Hs)]. apply s_more; [intros; apply ref_sub; lia|lia]. }
      destruct mx as [mx|].
      + destruct (mn <? mx) eqn:Hmx.
        * destruct (Hmore _ H) as (F & j & z & D2 & C & D). exists F, j, (Some (join f z)). split; [eapply d_rep; eauto|]. split; [exact C|].
          exact D.
        * inv H. apply Nat.ltb_ge in Hmx. exists 0, j1, (Some (join f (bytes_only 0))). split.
          { eapply d_rep; [exact D1|]. cbn [option_map]. replace (mx - mn) with 0 by lia. constructor. }
          split; [unfold same; cbn; f_equal; lia|]. intros sd vs' Hs. rewrite B by assumption. cbn [obind out option_map]. rewrite after_join, after_bytes. cbn. do 3 f_equal. lia.
      + destruct (Hmore _ H) as (F & j & z & D2 & C & D). exists F, j, (Some (join f z)). split; [eapply d_rep; eauto|]. split; [exact C|].
        exact D.
    - inv H. exists 0, j1, None. split; [now apply d_rep_no|]. split; [reflexivity|]. intros sd vs' Hs. rewrite B by assumption. reflexivity.
  Qed.

  (** ** Rules *)
  Lemma value_ev r d body pos f : nth_error (e_g E) r = Some d ->
    ref_value E r d body pos (f_len f) (after f sv_new) = Some (f_len f, ev (node r body pos f)).
  Proof.
    intros Hd. unfold ref_value. rewrite Hpred. unfold ev at 1. unfold node. cbn [eval]. unfold muted. rewrite Hd. unfold alt_of. cbv zeta.
    match goal with |- context [is_choice_like ?x] => destruct (is_choice_like x) end; unfold after, set_name, set_span, set_choice; cbn;
      destruct (f_alt f) as [[? ?]|]; reflexivity.
  Qed.
  Definition rsame (x : rr V) (y : option ptree) : Prop := option_map fst x = option_map t_len y.
  Definition rout (y : option ptree) : rr V := option_map (fun t => (t_len t, ev t)) y.
  Lemma v_once k : sims k -> forall r m d body pos x, al r m -> nth_error (e_g E) r = Some d -> r_body d = Some body -> r_is_macro d = false -> r_lr d = false ->
    ref_once (ref k) E' None m r d body pos = Some x ->
    exists j y, der_rule m r pos y /\ rsame x y /\ (forall t, y = Some t -> t_rule t = r) /\ ref_once (ref j) E None m r d body pos = Some (rout y).
  Proof.
    intros IH r m d body pos x Hal Hd Hb Hmac Hlr H. unfold ref_once in H. oinv H.
    destruct (ok_rule E al HE r m d body Hal Hd Hb) as [_ Hck]. rewrite Hmac in Hck. destruct Hck as [Hck _].
    change (tok_mode E' m) with (tok_mode E m) in Hm.
    destruct (IH (r_params d, []) _ body pos sv_new a (fr_rule E al r d Hd) (chk_chk' _ _ _ _ Hck) Hm) as (j1 & y & D1 & A & B).
    destruct a as [[n v]|], y as [f|]; try discriminate A.
    - injection A as A. cbn [Nat.add] in A. subst n. destruct (r_no_whitespace d) eqn:Hnw.
      + oinv H. destruct (v_then k IH m pos (f_len f) v a Hm0) as (j2 & z & D2 & C & D).
        exists (j1 + j2), (option_map (fun w => node r body pos (join f w)) z). split; [eapply r_token; eauto|]. split; [|split].
        * inv H. destruct a as [[q w]|], z as [z|]; try discriminate C; [|reflexivity]. injection C as C. subst q.
          unfold rsame, ref_value. cbn [with_g e_pred]. rewrite Hpred. reflexivity.
        * intros t. destruct z; cbn; [|discriminate]. now intros [= <-].
        * unfold ref_once. rewrite Hnw. rewrite (lift_ref E (j1 + j2) (Nat.le_add_r _ _) (B None sv_new I)). cbn [obind out option_map Nat.add].
          assert (C' : forall vs, ref_then (ref (j1 + j2)) E m pos (f_len f) vs = Some (out (f_len f) z vs)).
          { intros vs. eapply sub_Some; [|apply D]. apply s_then. intros. apply ref_sub. lia. }
          rewrite C'. cbn [obind]. destruct z as [z|]; [|reflexivity]. cbn [out option_map rout]. rewrite <- after_join.
          change (f_len f + f_len z) with (f_len (join f z)). now rewrite value_ev.
      + cbn [obind] in H. inv H. exists j1, (Some (node r body pos f)). split; [eapply r_plain; eauto|]. split; [|split; [now intros ? [= <-]|]].
        * unfold rsame, ref_value. cbn [with_g e_pred]. rewrite Hpred. reflexivity.
        * unfold ref_once. rewrite Hnw, (B None _ I). cbn [obind out option_map rout Nat.add]. now rewrite value_ev.
    - inv H. exists j1, None. split; [eapply r_no; eauto|]. split; [reflexivity|]. split; [discriminate|]. unfold ref_once. rewrite (B None _ I). reflexivity.
  Qed.

  Section Lr.
    Variables (r : rid) (d : rule) (m : mode) (pos : nat).
    Hypothesis Hd : nth_error (e_g E) r = Some d.
    Hypothesis Hmac : r_is_macro d = false.
    Hypothesis Hal : al r m.
    Notation fr := (r_params d, @nil ope).
    Notation sd s := (Some (r, pos, s)).
    Variable K : nat.
    Hypothesis IHs : forall j, j <= K -> sims j.
    Hypothesis Hfree : forall s, seed_free K (sd s).
    Notation vs1 val vs0 := (if r_ignore d then vs0 else push_val val (str2tag (r_name d)) vs0).

    Lemma alts_some n l : get_body E r <> None -> (forall o, In o l -> chk E al m o) -> forall id id' total total' a b j v z, j <= K -> split_lr r l = (a, b) ->
      ref_cho (ref j E' None fr m) total' (map (Seq None) a) id' (pos + n) v = Some z ->
      exists J y, der_cho fr m total id (map (Seq None) a) (pos + n) y /\ same 0 z y /\ forall val vs0 J', J <= J' ->
        ref_cho (ref J' E (sd (Some (n, val))) fr m) total l id pos vs0
        = match y with
          | Some f => Some (Some (n + f_len f, after f (vs1 val vs0)))
          | None => ref_cho (ref J' E (sd (Some (n, val))) fr m) total b (id + List.length a) pos vs0
          end.
    Proof.
      intros Hb. induction l as [|o l IH]; intros Hc id id' total total' a b j v z Hj Hs H; cbn [split_lr] in Hs.
      { inv Hs. cbn in H. inv H. exists 0, None. split; [constructor|]. split; [reflexivity|]. intros. cbn. reflexivity. }
      destruct (lr_alt r o) as [rest|] eqn:Ho.
      2:{ inv Hs. cbn in H. inv H. exists 0, None. split; [constructor|]. split; [reflexivity|]. intros. now rewrite Nat.add_0_r. }
      destruct (split_lr r l) as [a' b'] eqn:Hs'. inv Hs. destruct (lr_alt_inv _ _ _ Ho) as (kg & nm & ia & mac & ->).
      cbn [map ref_cho] in H. oinv H. destruct j as [|j]; [discriminate|]. cbn [ref ref_core] in Hm.
      assert (Hcr : forall o, In o rest -> chk' m o).
      { intros o Hin. apply chk_chk'. specialize (Hc _ (or_introl eq_refl)). cbn [chk] in Hc. destruct Hc as [_ [_ Hc]]. apply chk_all in Hc.
        rewrite Forall_forall in Hc. auto. }
      destruct (v_seq j fr m rest Hcr (IHs j ltac:(lia)) (fr_rule E al r d Hd) (pos + n) 0 v a Hm) as (j1 & y & D1 & A & B0).
      assert (B : forall val vs', ref_seq (ref j1 E (sd (Some (n, val))) fr m) rest (pos + n) 0 vs' = Some (out 0 y vs')).
      { intros val vs'. apply B0. eapply seed_free_le; [|apply Hfree]. lia. }
      assert (Hself : forall val vs0 J, S (S j1) <= J -> ref (S J) E (sd (Some (n, val))) fr m (Seq kg (Ref nm (Some r) ia mac [] :: rest)) pos vs0
         = Some (out n y (vs1 val vs0))).
      { intros val vs0 J HJ. change (ref_seq (ref J E (sd (Some (n, val))) fr m) (Ref nm (Some r) ia mac [] :: rest) pos 0 vs0 = Some (out n y (vs1 val vs0))).
        cbn [ref_seq]. rewrite Nat.add_0_r. destruct J as [|[|J]]; [lia|lia|]. rewrite (self_call E r d m pos Hd Hmac) by assumption. cbn [obind].
        replace (0 + n) with (n + 0) by lia. rewrite seq_shift.
        assert (A' : ref_seq (ref (S (S J)) E (sd (Some (n, val))) fr m) rest (pos + n) 0 (vs1 val vs0) = Some (out 0 y (vs1 val vs0))).
        { eapply sub_Some; [|apply B]. apply s_seq. intros. apply ref_sub. lia. }
        rewrite A'. destruct y; reflexivity. }
      rewrite Nat.add_0_r in D1.
      destruct a as [[k w]|], y as [f|]; try discriminate A.
      - inv H. exists (S (S (S j1))), (Some (with_alt total id f)). split; [apply dc_first; now apply d_seq|]. split; [exact A|].
        intros val vs0 [|J'] HJ'; [lia|]. cbn [ref_cho]. rewrite Hself by lia. reflexivity.
      - destruct (IH (fun o Ho => Hc o (or_intror Ho)) (S id) (S id') total total' a' b (S j) v z Hj eq_refl H) as (J & y & D2 & C & D).
        exists (S (S (S j1)) + J), y. split; [apply dc_next; [now apply d_seq|exact D2]|]. split; [exact C|].
        intros val vs0 [|J'] HJ'; [lia|]. cbn [ref_cho List.length]. rewrite Hself by lia. cbn [obind out option_map]. rewrite D by lia.
        destruct y; [reflexivity|]. f_equal. lia.
    Qed.

    Variables (fl : bool) (fs : list first_set) (l : list ope) (a : list (list ope)) (b : list ope).
    Hypothesis Hbody : r_body d = Some (Cho fl fs l).
    Hypothesis Hsplit : split_lr r l = (a, b).
    Hypothesis Hnw : r_no_whitespace d = false.
    Hypothesis Hlr : r_lr d = true.
    Notation body := (Cho fl fs l).
    Notation conts := (Cho false [] (map (Seq None) a)).
    Notation once J s := (ref_once (ref J) E (sd s) m r d body pos).

    Lemma has_body' : get_body E r <> None.
    Proof. unfold get_body. rewrite Hd. cbn [obind]. rewrite Hbody. discriminate. Qed.
    Lemma chk_alts' o : In o l -> chk E al m o.
    Proof. eapply chk_alts; eauto. Qed.
    Lemma once_found J s f : ref_cho (ref J E (sd s) fr m) (List.length l) l 0 pos sv_new = Some (Some (f_len f, after f sv_new)) ->
      once (S J) s = Some (Some (f_len f, ev (node r body pos f))).
    Proof. intros H. unfold ref_once. rewrite Hnw. cbn [ref ref_core]. rewrite H. cbn [obind]. now rewrite value_ev. Qed.
    Lemma once_le' J J' s y : J <= J' -> once J s = Some y -> once J' s = Some y.
    Proof. intros HJ. apply sub_Some. apply s_once. intros. now apply ref_sub. Qed.

    Lemma grows k n0 : k <= K ->
      (exists J f0, f_len f0 = n0 /\ forall s, ref_cho (ref J E (sd s) fr m) (List.length l) b (0 + List.length a) pos sv_new = Some (Some (f_len f0, after f0 sv_new))) ->
      forall fuel i v x t, t_rule t = r -> t_len t = n0 + i -> ref_more fuel (ref k E' None fr m conts) None (pos + n0) i v = Some x ->
      exists e w t', x = Some (e, w) /\ grow m r d l a pos t t' /\ t_rule t' = r /\ t_len t' = n0 + e
        /\ exists F J, ref_grow F (fun s => once J s) (n0 + i) (ev t) = Some (Some (n0 + e, ev t')).
    Proof.
      intros Hk (J0 & f0 & Hf0 & HJ0). induction fuel as [|fuel IHf]; intros i v x t Ht Hl H; cbn [ref_more] in H; [discriminate|].
      oinv H. pose proof Hm as Hrun. destruct k as [|k]; [discriminate|]. cbn [ref ref_core] in Hm. rewrite <- Nat.add_assoc in Hm.
      destruct (alts_some (n0 + i) l has_body' chk_alts' 0 0 (List.length l) _ a b k v a0 ltac:(lia) Hsplit Hm) as (J & y & D & A & B).
      assert (Hval : forall f, after f (vs1 (ev t) sv_new) = after (join (used d t) f) sv_new).
      { intros f. rewrite after_join, (after_used r d t sv_new Hd Ht). reflexivity. }
      rewrite <- Hl in D.
      destruct a0 as [[q w]|], y as [f|]; try discriminate A.
      - injection A as A. cbn [Nat.add] in A. subst q. destruct (Nat.eq_dec (f_len f) 0) as [E0|Hq].
        { exfalso. rewrite E0, Nat.add_0_r in *.
          eapply (LrRef.stuck E al (S k) (LrRef.sims_all E al Hkp Hpred HE Hwords (S k)) fr m conts (pos + n0) i); eauto using fr_rule, chk_conts. }
        destruct (IHf (i + f_len f) w x (lean d r (Cho false [] l) pos t f)) as (e & w' & t' & -> & G & T1 & T2 & F & J2 & HF); auto.
        { unfold lean, node. cbn. rewrite used_len. lia. }
        exists e, w', t'. split; [reflexivity|]. split; [eapply g_more; eauto; lia|]. split; [exact T1|]. split; [exact T2|].
        exists (S F), (S J + J2). cbn [ref_grow].
        specialize (B (ev t) sv_new J (le_n _)). cbv beta iota in B. rewrite Hval in B.
        assert (Hlen : n0 + i + f_len f = f_len (join (used d t) f)) by (cbn; rewrite used_len; lia). rewrite Hlen in B.
        apply once_found in B. rewrite (once_le' (S J) (S J + J2) _ _ ltac:(lia) B). cbn [obind]. rewrite <- Hlen.
        destruct (n0 + i + f_len f <=? n0 + i) eqn:Hle; [apply Nat.leb_le in Hle; lia|].
        rewrite <- Nat.add_assoc. eapply sub_Some; [|exact HF]. apply s_grow; [|lia]. intros s. apply s_once. intros. apply ref_sub. lia.
      - injection H as <-. exists i, v, t. split; [reflexivity|]. split; [now apply g_end|]. split; [exact Ht|]. split; [exact Hl|].
        exists 1, (S (J + J0)). cbn [ref_grow]. specialize (B (ev t) sv_new (J + J0) ltac:(lia)). cbv beta iota in B.
        assert (X : ref_cho (ref (J + J0) E (sd (Some (n0 + i, ev t))) fr m) (List.length l) b (0 + List.length a) pos sv_new = Some (Some (f_len f0, after f0 sv_new))).
        { eapply sub_Some; [|apply HJ0]. apply s_cho. intros. apply ref_sub. lia. }
        rewrite X in B. apply once_found in B. rewrite B. cbn [obind].
        destruct (f_len f0 <=? n0 + i) eqn:Hle; [reflexivity|apply Nat.leb_gt in Hle; lia].
    Qed.

    Lemma v_lr d' x : ref_once (ref K) E' None m r d' (iteration a b) pos = Some x -> r_params d' = r_params d -> r_no_whitespace d' = false ->
      exists F J y, der_rule m r pos y /\ rsame x y /\ (forall t, y = Some t -> t_rule t = r) /\ ref_rule F (ref J) E m r d body pos = Some (rout y).
    Proof.
      intros H Hpar Hnw'. unfold ref_once in H. rewrite Hpar, Hnw' in H. oinv H.
      assert (HK : exists k, K = S (S k)).
      { clear -Hm. destruct K as [|[|k]]; [discriminate|discriminate|eauto]. }
      destruct HK as [k HK]. rewrite HK in Hm. assert (HK' : S (S k) <= K) by lia. clear HK.
      change (ref_seq (ref (S k) E' None fr m) [Cho false [] b; Rep conts 0 None None] pos 0 sv_new = Some a0) in Hm.
      cbn [ref_seq] in Hm. oinv Hm. rewrite Nat.add_0_r in Hm0. cbn [ref ref_core] in Hm0.
      assert (Hcb : forall o, In o b -> chk' m o) by (intros o Ho; eapply chk_b; eauto).
      destruct (v_cho k fr m b Hcb (IHs k ltac:(lia)) (fr_rule E al r d Hd) _ 0 (List.length l) (0 + List.length a) pos sv_new a1 Hm0) as (J & y & D1 & A & B).
      assert (Hs : forall s, seed_free k (sd s)) by (intros s; eapply seed_free_le; [|apply Hfree]; lia).
      assert (X : ref_cho (ref (S (S (S J))) E (sd None) fr m) (List.length l) l 0 pos sv_new = Some (out 0 y sv_new)).
      { rewrite (alts_no E al Hpred r d m pos Hd Hmac K (fun j _ => LrRef.sims_all E al Hkp Hpred HE Hwords j) J (List.length l) sv_new l has_body' 0 a b Hsplit). eapply sub_Some; [|exact (B (sd None) sv_new (Hs None))].
        apply s_cho. intros. apply ref_sub. lia. }
      destruct a1 as [[n0 v0]|], y as [f|]; try discriminate A.
      - injection A as A. cbn [Nat.add] in A. subst n0. oinv Hm. cbn [ref ref_core] in Hm1. unfold ref_rep in Hm1. cbn [ref_min obind] in Hm1. cbn [Nat.add] in Hm1.
        destruct (grows k (f_len f) ltac:(lia)) with (fuel := k) (i := 0) (v := v0) (x := a1) (t := node r body pos f)
          as (e & w & t' & -> & G & T1 & T2 & F & J2 & HF); [|reflexivity|cbn; lia|exact Hm1|].
        { exists J, f. split; [reflexivity|]. intros s. exact (B (sd s) sv_new (Hs s)). }
        injection Hm as <-. apply once_found in X. exists F, (S (S (S (S J))) + J2), (Some t'). split; [eapply r_lr_yes; eauto|]. split; [|split; [now intros ? [= <-]|]].
        + cbn [obind] in H. injection H as <-. unfold rsame. cbn [option_map]. rewrite T2. unfold ref_value. cbn [with_g e_pred]. rewrite Hpred. reflexivity.
        + unfold ref_rule. rewrite Hlr. cbv beta zeta. rewrite (once_le' (S (S (S (S J)))) (S (S (S (S J))) + J2) None _ ltac:(lia) X). cbn [obind]. rewrite Nat.add_0_r in HF.
          cbn [rout option_map]. rewrite T2. eapply sub_Some; [|exact HF]. apply s_grow; [|lia]. intros s. apply s_once. intros. apply ref_sub. lia.
      - inv Hm. inv H. exists 0, (S (S (S (S J)))), None. split; [eapply r_lr_no; eauto|]. split; [reflexivity|]. split; [discriminate|].
        unfold ref_rule. rewrite Hlr. cbv beta zeta. unfold ref_once. rewrite Hnw. cbn [ref ref_core]. 
        refine (eq_trans (f_equal (fun z => obind (obind z _) _) X) _). reflexivity.
    Qed.
  End Lr.

  Lemma v_hld k : (forall j, j <= k -> sims j) -> forall fr m r pos vs x, fr_ok fr -> al r m ->
    ref_hld k (ref k) E' None fr m r pos vs = Some x ->
    exists F j y, der fr m (Hld r) pos y /\ same 0 x y /\ forall sd vs', seed_free (S k) sd -> ref_hld F (ref j) E sd fr m r pos vs' = Some (out 0 y vs').
  Proof.
    intros IH fr m r pos vs x Hfr Hal H. unfold ref_hld in *. oinv H. destruct a as [d' body']. unfold get_body in Hm. cbn [with_g e_g] in Hm.
    rewrite iterate_nth in Hm. destruct (nth_error (e_g E) r) as [d|] eqn:Hd; [|discriminate]. cbn [option_map obind] in Hm. oinv Hm. injection Hm as <- <-.
    rename a into body', Hm0 into Hb'. destruct (iter_rule_same r d) as (Sm & Sp & Sw & Si & Sn). rewrite Sm in H. unfold get_body. rewrite Hd. cbn [obind].
    (* a call of a rule that is not a macro *)
    assert (Hcall : forall F j (y : option ptree) body, r_body d = Some body -> r_is_macro d = false -> (forall t, y = Some t -> t_rule t = r) ->
      der_rule m r pos y -> ref_rule F (ref j) E m r d body pos = Some (rout y) ->
      (exists a, call (S k) E' m r pos = Some a /\ rsame a y /\ x = match a with Some (n, val) => Some (n, if r_ignore d then vs else push_val val (str2tag (r_name d)) vs) | None => None end) ->
      exists F j y, der fr m (Hld r) pos y /\ same 0 x y /\ forall sd vs', seed_free (S k) sd ->
        (let? x := (match sd with
                 | Some (r0, p0, s) => if (r0 =? r) && (p0 =? pos) then Some s else ref_rule F (ref j) E m r d body pos
                 | None => ref_rule F (ref j) E m r d body pos
                 end) in
         Some (match x with Some (n, val) => Some (n, if r_ignore d then vs' else push_val val (str2tag (r_name d)) vs') | None => None end)) = Some (out 0 y vs')).
    { intros F j y body Hb Hmac Hty D A (a & Hc & Ha & Hx). exists F, j, (option_map (used d) y). split; [eapply d_rule; eauto|]. split.
      - subst x. destruct a as [[n v]|], y as [t|]; try discriminate Ha; [|reflexivity]. injection Ha as Ha. unfold same. cbn. rewrite used_len. congruence.
      - intros sd vs' Hsd.
        assert (Hsd' : match sd with Some (r0, p0, s) => if (r0 =? r) && (p0 =? pos) then Some s else ref_rule F (ref j) E m r d body pos
                     | None => ref_rule F (ref j) E m r d body pos end = Some (rout y)).
        { destruct sd as [[[r0 p0] s]|]; [|exact A]. destruct ((r0 =? r) && (p0 =? pos)) eqn:He; [|exact A]. exfalso.
          apply andb_prop in He as [H1 H2]. apply Nat.eqb_eq in H1, H2. subst r0 p0. destruct Hsd as [_ Hsd]. specialize (Hsd m Hal). congruence. }
        rewrite Hsd'. cbn [obind]. destruct y as [t|]; [|reflexivity]. cbn [rout option_map out]. rewrite used_len, (after_used r d t vs' Hd (Hty t eq_refl)). reflexivity. }
    assert (HcallE : forall a, ref_rule k (ref k) E' m r (iterate_rule r d) body' pos = Some a -> call (S k) E' m r pos = Some a).
    { intros a0 X. cbn [call]. unfold ref_call, get_body. cbn [with_g e_g]. rewrite iterate_nth, Hd. cbn [option_map obind]. rewrite Hb'. exact X. }
    destruct (iter_rule_body r d body' Hb') as [[Hlr Hsame]|(Hlr & Hlr' & Hmac & Hnw & fl & fs & l & a & b & Hb & Hs & ->)].
    - rewrite Hsame in *. rewrite Hb'. cbn [obind]. destruct (r_is_macro d) eqn:Hmac.
      + rewrite Hlr in *. destruct (ok_rule E al HE r m d body' Hal Hd Hb') as [_ Hck]. rewrite Hmac in Hck.
        destruct (IH k (le_n _) (r_params d, snd fr) m body' pos vs x) as (j & y & D & A & B); auto.
        * split; [|apply Hfr]. right. exists d. split; [eapply nth_error_In; eassumption|reflexivity].
        * now apply chk_chk'.
        * exists 0, j, y. split; [eapply d_body; eauto|]. split; [exact A|]. intros sd vs' Hsd. apply B. eapply seed_free_le; [|exact Hsd]. lia.
      + oinv H. pose proof (HcallE _ Hm) as Hc. unfold ref_rule in Hm. rewrite Hlr in Hm.
        destruct (v_once k (IH k (le_n _)) r m d body' pos a Hal Hd Hb' Hmac Hlr Hm) as (j & y & D & A & T & B).
        apply (Hcall 0 j y body' Hb' eq_refl T D); [unfold ref_rule; now rewrite Hlr|]. exists a. split; [exact Hc|]. split; [exact A|]. now inv H.
    - rewrite Hb. cbn [obind]. rewrite Hmac in *. oinv H. pose proof (HcallE _ Hm) as Hc.
      (* settle at the least depth *)
      destruct (call_least _ _ _ _ _ _ Hc) as (K & HK & HK1 & HK2).
      assert (Hone : ref_once (ref K) E' None m r (iterate_rule r d) (iteration a b) pos = Some a0).
      { cbn [call] in HK1. unfold ref_call, get_body in HK1. cbn [with_g e_g] in HK1. rewrite iterate_nth, Hd in HK1. cbn [option_map obind] in HK1.
        rewrite Hb' in HK1. cbn [obind] in HK1. unfold ref_rule in HK1. now rewrite Hlr' in HK1. }
      destruct (v_lr r d m pos Hd Hmac Hal K) with (fl := fl) (fs := fs) (l := l) (a := a) (b := b) (d' := iterate_rule r d) (x := a0) as (F & J & y & D & A & T & B); auto.
      { intros j Hj. apply IH. lia. }
      { intros s. split; [eauto|]. intros m' Hm'. rewrite (ok_mode E al HE r m' m d Hd Hmac Hm' Hal). exact HK2. }
      { now rewrite Sw. }
      apply (Hcall F J y (Cho fl fs l) Hb eq_refl T D B). exists a0. split; [exact Hc|]. split; [exact A|]. inv H. now rewrite Si, Sn.
  Qed.

  Theorem sims_all : forall k, sims k.
  Proof.
    induction k as [k IHk] using (well_founded_induction lt_wf). destruct k as [|k]; [intros ? ? ? ? ? ? _ _ H; discriminate|].
    assert (IH : forall j, j <= k -> sims j) by (intros; apply IHk; lia). clear IHk. pose proof (IH k (le_n _)) as IHk.
    intros fr m o pos vs x Hfr Hck H.
    assert (Hup : (exists F j y, der fr m o pos y /\ same 0 x y /\ forall sd vs', seed_free (S k) sd -> ref_core F (ref j) E sd fr m o pos vs' = Some (out 0 y vs')) ->
      exists j y, der fr m o pos y /\ same 0 x y /\ forall sd vs', seed_free (S k) sd -> ref j E sd fr m o pos vs' = Some (out 0 y vs')).
    { intros (F & j & y & D & A & B). exists (S (F + j)), y. split; [exact D|]. split; [exact A|]. intros sd vs' Hsd.
      cbn [ref]. eapply sub_Some; [|exact (B sd vs' Hsd)]. apply s_core; [|lia]. intros. apply ref_sub. lia. }
    cbn [ref] in H. apply Hup. clear Hup.
    assert (Hlow : forall sd, seed_free (S k) sd -> seed_free k sd) by (intros sd; apply seed_free_le; lia).
    assert (Hone : forall m' e v z, chk E al m' e -> ref k E' None fr m' e pos v = Some z ->
      exists j y, der fr m' e pos y /\ same 0 z y /\ forall sd vs', seed_free (S k) sd -> ref j E sd fr m' e pos vs' = Some (out 0 y vs')).
    { intros m' e v z Hc Hz. destruct (IHk fr m' e pos v z) as (j & y & D & A & B); auto using chk_chk'. exists j, y. auto. }
    destruct o; cbn [ref_core] in H |- *; cbn [LrRef.chk' chk] in Hck; try discriminate.
    - destruct Hck as [_ Hc]. apply chk_all in Hc. rewrite Forall_forall in Hc.
      destruct (v_seq k fr m l (fun o Ho => chk_chk' E al m o (Hc o Ho)) IHk Hfr pos 0 vs x H) as (j & y & D & A & B). rewrite Nat.add_0_r in D.
      exists 0, j, y. split; [now apply d_seq|]. split; [exact A|]. auto.
    - destruct Hck as [_ Hc]. apply chk_all in Hc. rewrite Forall_forall in Hc.
      destruct (v_cho k fr m l (fun o Ho => chk_chk' E al m o (Hc o Ho)) IHk Hfr _ 0 (List.length l) 0 pos vs x H) as (j & y & D & A & B).
      exists 0, j, y. split; [now apply d_cho|]. split; [exact A|]. auto.
    - destruct Hck as [_ Hc]. destruct (v_rep k fr m o min max span (chk_chk' _ _ _ _ Hc) IHk Hfr k pos vs x H) as (F & j & y & D & A & B).
      exists F, j, y. split; [exact D|]. split; [exact A|]. auto.
    - oinv H. destruct (Hone m o vs a Hck Hm) as (j & y & D & A & B). exists 0, j. injection H as <-. destruct a as [[? ?]|], y as [f|]; try discriminate A.
      + exists (Some (bytes_only 0)). split; [eapply d_and; eauto|]. split; [reflexivity|]. intros sd vs' Hsd. rewrite B by assumption. cbn. now rewrite after_bytes.
      + exists None. split; [now apply d_and_no|]. split; [reflexivity|]. intros sd vs' Hsd. rewrite B by assumption. reflexivity.
    - oinv H. destruct (Hone m o vs a Hck Hm) as (j & y & D & A & B). exists 0, j. injection H as <-. destruct a as [[? ?]|], y as [f|]; try discriminate A.
      + exists None. split; [eapply d_not_no; eauto|]. split; [reflexivity|]. intros sd vs' Hsd. rewrite B by assumption. reflexivity.
      + exists (Some (bytes_only 0)). split; [now apply d_not|]. split; [reflexivity|]. intros sd vs' Hsd. rewrite B by assumption. cbn. now rewrite after_bytes.
    - rewrite ref_dic_eq in H. setoid_rewrite ref_dic_eq. cbn [with_g e_input] in H. destruct (trie_match t _) as [i id] eqn:Ht. destruct (i =? 0) eqn:Hi.
      { injection H as <-. apply Nat.eqb_eq in Hi. exists 0, 0, None. split; [apply d_dic_no; now rewrite Ht|]. split; reflexivity. }
      apply Nat.eqb_neq in Hi. oinv H. pose proof (Hdic _ _ _ Hm) as Hd. destruct (proj2 Hwords k (pos + i) a Hm) as [j1 W]. destruct a.
      2:{ injection H as <-. exists 0, j1, None. split; [eapply d_dic_word; eauto; lia|]. split; [reflexivity|]. intros. rewrite W. reflexivity. }
      destruct (v_then k IHk m pos i _ x H) as (j & y & D & A & B).
      exists 0, (j1 + j). eexists. split; [eapply d_dic; eauto; lia|]. split.
      { unfold same in *. rewrite A. destruct y; reflexivity. }
      intros sd vs' Hsd. rewrite (word_dic_up j1 (j1 + j) _ _ _ (Nat.le_add_r _ _) W). cbn [obind].
      assert (X : forall w, ref_then (ref (j1 + j)) E m pos i w = Some (out i y w)).
      { intros w. eapply sub_Some; [|apply B]. apply s_then. intros. apply ref_sub. lia. }
      rewrite X, out_join, after_alt, after_bytes. reflexivity.
    - rewrite ref_lit_eq in H. setoid_rewrite ref_lit_eq. cbn [with_g e_input] in H. oinv H.
      change (left E' pos) with (left E pos) in Hm. rewrite Hm. cbn [obind] in *.
      assert (Htext : a = true <-> text_at inp ic s pos).
      { destruct (le_lt_dec pos (List.length inp)) as [Hp|Hp].
        - destruct (lit_loop_iff inp ic (if ic then to_lower s else s) pos (left E pos)) as (b & Hb & Hi); [unfold left, inlen; lia|].
          rewrite Hb in Hm. injection Hm as <-. unfold text_at, same_text. destruct ic; [|exact Hi]. rewrite !to_lower_fold, map_length in Hi. exact Hi.
        - assert (Hl : left E pos = 0) by (unfold left, inlen; lia). rewrite Hl in Hm.
          assert (Hs : sub inp pos (List.length s) = []) by (unfold sub; rewrite skipn_all2 by lia; apply firstn_nil).
          unfold text_at. rewrite Hs. destruct s as [|c s].
          + replace (if ic then to_lower [] else []) with (@nil byte) in Hm by now destruct ic. cbn in Hm. injection Hm as <-. tauto.
          + assert (X : exists c' s', (if ic then to_lower (c :: s) else c :: s) = c' :: s') by (destruct ic; cbn; eauto).
            destruct X as (c' & s' & X). rewrite X in Hm. cbn in Hm. injection Hm as <-. split; [discriminate|]. destruct ic; discriminate. }
      destruct a.
      2:{ injection H as <-. exists 0, 0, None. split; [apply d_lit_no; intros T; apply Htext in T; discriminate|]. split; reflexivity. }
      assert (T : text_at inp ic s pos) by now apply Htext.
      oinv H. pose proof (Hlit _ _ _ _ Hm0) as Hd. destruct (proj1 Hwords k _ pos a Hm0) as [j1 W]. destruct a.
      2:{ injection H as <-. exists 0, j1, None. split; [eapply d_lit_word; eauto|]. split; [reflexivity|]. intros. rewrite W. reflexivity. }
      destruct (v_then k IHk m pos _ _ x H) as (j & y & D & A & B).
      exists 0, (j1 + j). eexists. split; [eapply d_lit; eauto|]. split.
      { unfold same in *. rewrite A. destruct y; reflexivity. }
      intros sd vs' Hsd. rewrite (word_lit_up j1 (j1 + j) _ _ _ _ (Nat.le_add_r _ _) W). cbn [obind].
      assert (X : forall w, ref_then (ref (j1 + j)) E m pos (List.length s) w = Some (out (List.length s) y w)).
      { intros w. eapply sub_Some; [|apply B]. apply s_then. intros. apply ref_sub. lia. }
      rewrite X, out_join, after_bytes. reflexivity.
    - exists 0, 0. unfold ref_cls in *. change (left E' pos) with (left E pos) in H. cbn [with_g e_input] in H.
      destruct (left E pos =? 0) eqn:Hl; [injection H as <-; exists None; split; [|split; reflexivity]|].
      { apply d_char_end; [reflexivity|]. apply Nat.eqb_eq in Hl. unfold left, inlen in Hl. lia. }
      apply Nat.eqb_neq in Hl. unfold left, inlen in Hl. oinv H. rewrite Hm. cbn [obind]. destruct a as [len cp]. oinv H. rewrite Hm0. cbn [obind].
      apply out_of_Some in Hm, Hm0. injection H as <-.
      destruct (xorb a neg) eqn:Hx.
      + exists (Some (bytes_only len)). split; [eapply d_char; [lia|exact Hm|cbn; rewrite Hm0; congruence]|]. split; [reflexivity|]. intros. cbn. now rewrite after_bytes.
      + exists None. split; [eapply d_char_no; [lia|exact Hm|cbn; rewrite Hm0; congruence]|]. split; reflexivity.
    - exists 0, 0. unfold ref_chr in *. change (left E' pos) with (left E pos) in H. cbn [with_g e_input] in H.
      destruct (left E pos =? 0) eqn:Hl; [injection H as <-; exists None; split; [|split; reflexivity]|].
      { apply d_char_end; [reflexivity|]. apply Nat.eqb_eq in Hl. unfold left, inlen in Hl. lia. }
      apply Nat.eqb_neq in Hl. unfold left, inlen in Hl. oinv H. rewrite Hm. cbn [obind]. destruct a as [len cp'].
      apply out_of_Some in Hm. injection H as <-. destruct (cp' =? _)%N eqn:Hx.
      + exists (Some (bytes_only len)). split; [eapply d_char; [lia|exact Hm|cbn; congruence]|]. split; [reflexivity|]. intros. cbn. now rewrite after_bytes.
      + exists None. split; [eapply d_char_no; [lia|exact Hm|cbn; congruence]|]. split; reflexivity.
    - exists 0, 0. unfold ref_dot in *. change (left E' pos) with (left E pos) in H. cbn [with_g e_input] in H. oinv H. rewrite Hm. cbn [obind].
      apply out_of_Some in Hm. injection H as <-. destruct (a <? 1) eqn:Hx.
      + apply Nat.ltb_lt in Hx. exists None. split; [apply d_dot_no; replace 0 with a by lia; exact Hm|]. split; reflexivity.
      + apply Nat.ltb_ge in Hx. exists (Some (bytes_only a)). split; [apply d_dot; [exact Hm|lia]|]. split; [reflexivity|]. intros. cbn. now rewrite after_bytes.
    - destruct (Hone m o vs x Hck H) as (j & y & D & A & B). exists 0, j, y. split; [now apply d_csc|]. auto.
    - destruct (Hone m o vs x Hck H) as (j & y & D & A & B). exists 0, j, y. split; [now apply d_cap|]. auto.
    - oinv H. destruct (Hone _ o vs a Hck Hm) as (j1 & y & D1 & A & B). destruct a as [[n v]|], y as [f|]; try discriminate A.
      + injection A as A. cbn [Nat.add] in A. subst n.
        destruct (v_then k IHk m pos (f_len f) _ x H) as (j2 & z & D2 & C & D). exists 0, (j1 + j2). eexists. split; [eapply d_tok; eauto|]. split.
        { unfold same in *. rewrite C. destruct z; reflexivity. }
        intros sd vs' Hsd. rewrite (lift_ref E (j1 + j2) (Nat.le_add_r _ _) (B sd vs' Hsd)). cbn [obind out option_map Nat.add].
        assert (X : forall w, ref_then (ref (j1 + j2)) E m pos (f_len f) w = Some (out (f_len f) z w)).
        { intros w. eapply sub_Some; [|apply D]. apply s_then. intros. apply ref_sub. lia. }
        rewrite X. change (option_map (fun g => (f_len g, after g vs')) (option_map (join (with_tok pos f)) z)) with (out 0 (option_map (join (with_tok pos f)) z) vs').
        rewrite out_join, after_tok. reflexivity.
      + injection H as <-. exists 0, j1, None. split; [now apply d_tok_no|]. split; [reflexivity|]. intros sd vs' Hsd. rewrite B by assumption. reflexivity.
    - oinv H. destruct (Hone m o sv_new a Hck Hm) as (j & y & D & A & B). exists 0, j. injection H as <-. destruct a as [[n v]|], y as [f|]; try discriminate A.
      + injection A as A. cbn [Nat.add] in A. subst n. exists (Some (bytes_only (f_len f))). split; [eapply d_ign; eauto|]. split; [reflexivity|].
        intros sd vs' Hsd. rewrite B by assumption. cbn. now rewrite after_bytes.
      + exists None. split; [now apply d_ign_no|]. split; [reflexivity|]. intros sd vs' Hsd. rewrite B by assumption. reflexivity.
    - destruct Hck as [Hal _]. destruct (IHk fr m (Hld r) pos vs x Hfr Hal H) as (j & y & D & A & B). exists 0, j, y. split; [now apply d_wkh|]. auto.
    - exact (v_hld k IH fr m r pos vs x Hfr Hck H).
    - unfold ref_reference in *. cbn [with_g e_g] in H. destruct rule as [r|].
      + oinv H. rewrite iterate_nth in Hm. destruct (nth_error (e_g E) r) as [d|] eqn:Hd; [|discriminate]. injection Hm as <-. cbn [obind].
        destruct (iter_rule_same r d) as (Sm & Sp & _ & _ & _). rewrite Sm, Sp in H. destruct Hck as [[Hal _] Hargs]. apply chk_every in Hargs.
        destruct (r_is_macro d) eqn:Hmac.
        * oinv H. rewrite Hm. cbn [obind]. assert (Hlr : r_lr d = false).
          { destruct (r_lr d) eqn:Hlr; [|reflexivity]. exfalso. clear -Hlr Hmac H Hd IHk.
            assert (X : r_lr (iterate_rule r d) = false) by (unfold iterate_rule; now rewrite Hlr). rewrite X in H.
            destruct k as [|k]; [discriminate|]. cbn [ref ref_core] in H. unfold ref_hld, get_body in H. cbn [with_g e_g] in H. rewrite iterate_nth, Hd in H.
            cbn [option_map obind] in H. unfold iterate_rule in H. rewrite Hlr in H. cbn in H. rewrite Hmac in H. cbn in H. destruct (r_body d) as [[]|]; discriminate. }
          rewrite Hlr. assert (Hlr' : r_lr (iterate_rule r d) = false) by (unfold iterate_rule; now rewrite Hlr). rewrite Hlr' in H.
          apply out_of_Some in Hm. destruct (IHk (r_params d, a) m (Hld r) pos vs x) as (j & y & D & A & B); auto.
          { split; [right; exists d; split; [eapply nth_error_In; eassumption|reflexivity]|]. destruct Hfr as [Hf1 Hf2]. exact (chk_subst_args _ _ _ _ _ Hf1 Hf2 _ Hm Hargs). }
          exists 0, j, y. split; [eapply d_macro; eauto|]. auto.
        * destruct (IHk no_frame m (Hld r) pos vs x) as (j & y & D & A & B); auto; [split; [now left|constructor]|]. exists 0, j, y. split; [eapply d_ref; eauto|]. auto.
      + oinv H. rewrite Hm. cbn [obind]. destruct Hfr as [Hf1 Hf2]. pose proof Hf2 as Hf2'. rewrite Forall_forall in Hf2. specialize (Hf2 a (nth_error_In _ _ Hm) m Hck).
        destruct (IHk fr m a pos vs x) as (j & y & D & A & B); auto; [split; assumption|now apply chk_chk'|]. exists 0, j, y. split; [eapply d_arg; eauto|]. auto.
    - destruct Hck as [Hc|Hc]; destruct (m_ws m) eqn:Hw; try discriminate;
        try (injection H as <-; exists 0, 0, (Some (bytes_only 0)); split; [now apply d_wsp_in|]; split; [reflexivity|]; intros; cbn; now rewrite after_bytes).
      destruct (Hone _ o vs x Hc H) as (j & y & D & A & B). exists 0, j, y. split; [now apply d_wsp|]. auto.
    - exfalso. destruct Hck as [[Hl _] _]. apply Hl. right. split; [exact Hkp|exact Hpred].
  Qed.
End TreeRef.
