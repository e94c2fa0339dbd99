(** * The meaning of a grammar does not depend on the marks (has_macro_ref) of its rules:
    the reference semantics transfers between a grammar and [marked mk] of it. *)
From Verif Require Import Base BaseLemmas Utf8 Escape TrieM LineInfo Ope Ctx ErrLog Engine EngineLemmas Scope Top RefSem RefMono Refine RefineOps TopRef SessionM Session.

Section RefMark.
  Context {V U : Type}.
  Notation env := (env V U).
  Notation sv := (sv V).
  Variable mk : rid -> bool.
  Implicit Types (E : env) (vs : sv) (m : mode) (sd : seed V).

  (** [E'] is [E] with other marks. *)
  Record remarked E E' : Prop := {
    sp_g : e_g E' = marked mk (e_g E);
    sp_ws : e_ws E' = e_ws E;
    sp_word : e_word E' = e_word E;
    sp_input : e_input E' = e_input E;
    sp_u0 : e_u0 E' = e_u0 E;
    sp_action : e_action E' = e_action E;
    sp_pred : e_pred E' = e_pred E;
    sp_leave : e_leave E' = e_leave E }.
  Lemma remarked_word E E' inp : remarked E E' -> remarked (word_env E inp) (word_env E' inp).
  Proof. intros []. constructor; cbn; auto. Qed.
  Lemma tok_remarked E E' m : remarked E E' -> tok_mode E' m = tok_mode E m.
  Proof. intros S. unfold tok_mode. rewrite (sp_ws _ _ S). destruct (e_ws E); reflexivity. Qed.
  Lemma left_remarked E E' pos : remarked E E' -> left E' pos = left E pos.
  Proof. intros S. unfold left, inlen. now rewrite (sp_input _ _ S). Qed.

  Definition agree (rec rec' : ref_t (V:=V) (U:=U)) : Prop := forall E E' sd fr m o pos vs, remarked E E' ->
    rec' E' sd fr m o pos vs = rec E sd fr m o pos vs.
  Section Core.
    Variables (rec rec' : ref_t (V:=V) (U:=U)).
    Hypothesis Hrec : agree rec rec'.
    Variables (E E' : env).
    Hypothesis S : remarked E E'.
    Lemma a_none m o pos vs : rec' E' None no_frame m o pos vs = rec E None no_frame m o pos vs.
    Proof. exact (Hrec E E' None no_frame m o pos vs S). Qed.
    Lemma a_skip m pos vs : ref_skip rec' E' m pos vs = ref_skip rec E m pos vs.
    Proof. unfold ref_skip. rewrite (sp_ws _ _ S). destruct (e_ws E); cbn [option_map]; [|reflexivity]. destruct (m_tok m); [reflexivity|apply a_none]. Qed.
    Lemma a_then m pos n vs : ref_then rec' E' m pos n vs = ref_then rec E m pos n vs.
    Proof. unfold ref_then. now rewrite a_skip. Qed.
    Lemma a_is_word w l : ref_is_word rec' E' w l = ref_is_word rec E w l.
    Proof. unfold ref_is_word. now rewrite <- (Hrec (word_env E l) (word_env E' l) None no_frame m_top w 0 sv_new (remarked_word _ _ _ S)). Qed.
    Lemma a_not_word w pos : ref_not_word rec' E' w pos = ref_not_word rec E w pos.
    Proof.
      unfold ref_not_word. rewrite (sp_input _ _ S).
      now rewrite <- (Hrec (word_env E (e_input E)) (word_env E' (e_input E)) None no_frame m_top (Not w) pos sv_new (remarked_word _ _ _ S)).
    Qed.
    Lemma a_lit m s (ic : bool) pos vs : ref_lit rec' E' m s ic pos vs = ref_lit rec E m s ic pos vs.
    Proof.
      unfold ref_lit. rewrite (sp_input _ _ S), (left_remarked _ _ _ S), (sp_word _ _ S).
      destruct (out_of _) as [[]|]; cbn [obind]; [|reflexivity..].
      destruct (e_word E) as [w|]; cbn [option_map]; [|cbn [obind]; now rewrite a_then].
      rewrite a_is_word. destruct (ref_is_word rec E w s) as [[]|]; cbn [obind]; [|now rewrite a_then|reflexivity].
      rewrite a_not_word. destruct (ref_not_word _ _ _ _) as [[]|]; cbn [obind]; [now rewrite a_then|reflexivity..].
    Qed.
    Lemma a_dic m t pos vs : ref_dic rec' E' m t pos vs = ref_dic rec E m t pos vs.
    Proof.
      unfold ref_dic. rewrite (sp_input _ _ S), (sp_word _ _ S). destruct (trie_match _ _) as [i id]. destruct (i =? 0); [reflexivity|].
      destruct (e_word E) as [w|]; cbn [option_map]; [|cbn [obind]; now rewrite a_then].
      rewrite a_not_word. destruct (ref_not_word _ _ _ _) as [[]|]; cbn [obind]; [now rewrite a_then|reflexivity..].
    Qed.
    Lemma a_seq (run run' : ope -> nat -> sv -> option (rv V)) l : (forall o pos vs, run' o pos vs = run o pos vs) ->
      forall pos i vs, ref_seq run' l pos i vs = ref_seq run l pos i vs.
    Proof.
      intros H. induction l as [|o l IH]; intros pos i vs; [reflexivity|]. cbn [map ref_seq]. rewrite H.
      destruct (run o (pos + i) vs) as [[[n vs']|]|]; cbn [obind]; auto.
    Qed.
    Lemma a_cho (run run' : ope -> nat -> sv -> option (rv V)) total l : (forall o pos vs, run' o pos vs = run o pos vs) ->
      forall id pos vs, ref_cho run' total l id pos vs = ref_cho run total l id pos vs.
    Proof.
      intros H. induction l as [|o l IH]; intros id pos vs; [reflexivity|]. cbn [map ref_cho]. rewrite H.
      destruct (run o pos vs) as [[[n vs']|]|]; cbn [obind]; auto.
    Qed.
    Lemma a_min (run run' : nat -> sv -> option (rv V)) : (forall pos vs, run' pos vs = run pos vs) ->
      forall n pos i vs, ref_min run' n pos i vs = ref_min run n pos i vs.
    Proof.
      intros H. induction n as [|n IH]; intros pos i vs; [reflexivity|]. cbn [ref_min]. rewrite H.
      destruct (run (pos + i) vs) as [[[k vs']|]|]; cbn [obind]; auto.
    Qed.
    Lemma a_more (run run' : nat -> sv -> option (rv V)) : (forall pos vs, run' pos vs = run pos vs) ->
      forall fuel room pos i vs, ref_more fuel run' room pos i vs = ref_more fuel run room pos i vs.
    Proof.
      intros H. induction fuel as [|fuel IH]; intros room pos i vs; [reflexivity|]. cbn [ref_more]. rewrite H.
      destruct room as [[|x]|]; [reflexivity|..]; destruct (run (pos + i) vs) as [[[k vs']|]|]; cbn [obind]; auto.
    Qed.
    Lemma a_rep fuel (run run' : nat -> sv -> option (rv V)) mn mx : (forall pos vs, run' pos vs = run pos vs) ->
      forall pos vs, ref_rep fuel run' mn mx pos vs = ref_rep fuel run mn mx pos vs.
    Proof.
      intros H pos vs. unfold ref_rep. rewrite (a_min run run' H). destruct (ref_min _ _ _ _ _) as [[[k vs']|]|]; cbn [obind]; [|reflexivity..].
      destruct mx; [destruct (_ <? _)|]; try reflexivity; apply a_more; exact H.
    Qed.
    Lemma a_value mb r d body pos n chvs : ref_value E' r (with_mark mb d) body pos n chvs = ref_value E r d body pos n chvs.
    Proof.
      unfold ref_value. rewrite (sp_action _ _ S), (sp_pred _ _ S), (sp_leave _ _ S), (sp_input _ _ S), (sp_u0 _ _ S). cbv zeta.
      reflexivity.
    Qed.
    Lemma a_once mb sd m r d body pos : ref_once rec' E' sd m r (with_mark mb d) body pos = ref_once rec E sd m r d body pos.
    Proof.
      unfold ref_once. change (r_params (with_mark mb d)) with (r_params d).
      change (r_no_whitespace (with_mark mb d)) with (r_no_whitespace d). rewrite (tok_remarked _ _ _ S), (Hrec E E') by exact S.
      destruct (rec _ _ _ _ _ _ _) as [[[n chvs]|]|]; cbn [obind]; [|reflexivity..].
      destruct (r_no_whitespace d).
      - rewrite a_then. destruct (ref_then _ _ _ _ _ _) as [[[n' chvs']|]|]; cbn [obind]; [|reflexivity..]. now rewrite a_value.
      - cbn [obind]. now rewrite a_value.
    Qed.
    Lemma a_grow fuel (once once' : rr V -> option (rr V)) : (forall s, once' s = once s) ->
      forall len val, ref_grow fuel once' len val = ref_grow fuel once len val.
    Proof.
      intros H. induction fuel as [|fuel IH]; intros len val; [reflexivity|]. cbn [ref_grow]. rewrite H.
      destruct (once (Some (len, val))) as [[[n v]|]|]; cbn [obind]; [|reflexivity..]. destruct (n <=? len); auto.
    Qed.
    Lemma a_rule fuel mb m r d body pos : ref_rule fuel rec' E' m r (with_mark mb d) body pos = ref_rule fuel rec E m r d body pos.
    Proof.
      unfold ref_rule. change (r_lr (with_mark mb d)) with (r_lr d). destruct (r_lr d); [|apply a_once].
      cbv zeta. rewrite a_once. match goal with |- obind ?x _ = _ => destruct x as [[[n v]|]|] end; cbn [obind]; [|reflexivity..].
      apply a_grow. intros s. apply a_once.
    Qed.
    Lemma a_body r : get_body E' r = (let? (d, b) := get_body E r in Some (with_mark (mk r) d, b)).
    Proof.
      unfold get_body. rewrite (sp_g _ _ S). rewrite marked_nth.
      destruct (nth_error (e_g E) r) as [d|]; [|reflexivity]. cbn. destruct (r_body d); reflexivity.
    Qed.
    Lemma a_hld fuel sd fr m r pos vs : ref_hld fuel rec' E' sd fr m r pos vs = ref_hld fuel rec E sd fr m r pos vs.
    Proof.
      unfold ref_hld. rewrite a_body. destruct (get_body E r) as [[d body]|]; [|reflexivity]. cbn [obind].
      change (r_is_macro (with_mark (mk r) d)) with (r_is_macro d). change (r_lr (with_mark (mk r) d)) with (r_lr d).
      change (r_ignore (with_mark (mk r) d)) with (r_ignore d). change (r_name (with_mark (mk r) d)) with (r_name d).
      destruct (r_is_macro d).
      - destruct (r_lr d); [reflexivity|]. change (r_params (with_mark (mk r) d)) with (r_params d). now apply Hrec.
      - destruct sd as [[[r0 p0] s]|]; [destruct (_ && _); [reflexivity|]|]; now rewrite a_rule.
    Qed.
    Lemma a_token m b pos : ref_token rec' E' m b pos = ref_token rec E m b pos.
    Proof.
      destruct b as [| | | | | | | | | | | | | | | | |nm rl ia mc args| | | | | |]; try reflexivity. cbn [ref_token]. destruct rl as [r|]; [|reflexivity].
      rewrite a_body. destruct (get_body E r) as [[d body]|]; [|reflexivity]. cbn [obind]. unfold ref_scope.
      change (r_params (with_mark (mk r) d)) with (r_params d).
      change (r_no_whitespace (with_mark (mk r) d)) with (r_no_whitespace d). rewrite (tok_remarked _ _ _ S), (Hrec E E') by exact S.
      destruct (rec _ _ _ _ _ _ _) as [[[n chvs]|]|]; cbn [obind]; [|reflexivity..]. rewrite a_then.
      destruct (if r_no_whitespace d then _ else _) as [[[n' chvs']|]|]; [|reflexivity..]. cbn [obind].
      unfold sv_token. now rewrite (sp_input _ _ S).
    Qed.
    Lemma a_climb (run run' : ope -> nat -> sv -> option (rv V)) (tok tok' : nat -> option bytes) a b i rl :
      (forall o pos vs, run' o pos vs = run o pos vs) -> (forall pos, tok' pos = tok pos) ->
      forall fuel mn pos n vs, ref_climb fuel E' run' tok' a b i rl mn pos n vs = ref_climb fuel E run tok a b i rl mn pos n vs.
    Proof.
      intros H Ht. assert (Hl : inlen E' = inlen E) by (unfold inlen; now rewrite (sp_input _ _ S)).
      induction fuel as [|fuel IH]; intros mn pos n vs; cbn [ref_climb]; rewrite Hl; [reflexivity|].
      destruct (_ <? _); [|reflexivity]. rewrite H, Ht, (sp_action _ _ S), (sp_input _ _ S), (sp_u0 _ _ S).
      destruct (run b _ _) as [[[k ov]|]|]; cbn [obind]; [|reflexivity..]. destruct (tok _) as [t|]; [|reflexivity]. cbn [obind].
      destruct (binfo_find i t) as [[lv la]|]; [|reflexivity]. destruct (lv <? mn); [reflexivity|].
      destruct (hd_error (v_vals ov)) as [o|]; [|reflexivity]. cbn [obind]. rewrite H. destruct (run a _ _) as [[[l va]|]|]; cbn [obind]; [|reflexivity..].
      rewrite IH. destruct (ref_climb fuel E run tok a b i rl _ _ _ _) as [[[l2 ve]|]|]; cbn [obind]; [|reflexivity..].
      destruct (hd_error (v_vals ve)); [|reflexivity]. cbn [obind]. apply IH.
    Qed.
    Lemma a_core fuel sd fr m o pos vs : ref_core fuel rec' E' sd fr m o pos vs = ref_core fuel rec E sd fr m o pos vs.
    Proof.
      destruct o; cbn [ref_core]; try reflexivity; rewrite ?(Hrec E E') by exact S; try reflexivity.
      - apply a_seq. intros. now apply Hrec.
      - apply a_cho. intros. now apply Hrec.
      - apply a_rep. intros. now apply Hrec.
      - apply a_dic.
      - apply a_lit.
      - unfold ref_cls. now rewrite (sp_input _ _ S), (left_remarked _ _ _ S).
      - unfold ref_chr. now rewrite (sp_input _ _ S), (left_remarked _ _ _ S).
      - unfold ref_dot. now rewrite (sp_input _ _ S), (left_remarked _ _ _ S).
      - rewrite (tok_remarked _ _ _ S).
        destruct (rec _ _ _ _ _ _ _) as [[[n vs']|]|]; cbn [obind]; [apply a_then|reflexivity..].
      - apply a_hld.
      - unfold ref_reference. destruct rule as [r|].
        + rewrite (sp_g _ _ S). rewrite marked_nth. destruct (nth_error (e_g E) r) as [d|]; [|reflexivity]. cbn [option_map obind].
          change (r_is_macro (with_mark (mk r) d)) with (r_is_macro d). change (r_lr (with_mark (mk r) d)) with (r_lr d).
          destruct (r_is_macro d); [|exact (Hrec E E' sd no_frame m (Hld r) pos vs S)].
          
          destruct (subst_args (fst fr) (snd fr) args) as [args'| | |]; [|reflexivity..]. cbn [bind out_of obind].
          destruct (r_lr d); [reflexivity|]. exact (Hrec E E' sd (r_params d, args') m (Hld r) pos vs S).
        + destruct (nth_error (snd fr) _) as [a|]; [|reflexivity]. cbn [obind].
          now apply Hrec.
      - unfold ref_pre. rewrite (Hrec E E') by exact S. destruct (rec _ _ _ _ _ _ _) as [[[n va]|]|]; cbn [obind]; [|reflexivity..].
        apply a_climb; [intros; now apply Hrec|intros; apply a_token].
    Qed.
  End Core.
  Theorem ref_marked k : agree (ref k) (ref k).
  Proof.
    induction k as [|k IH]; intros E E' sd fr m o pos vs S; [reflexivity|]. cbn [ref]. now apply a_core.
  Qed.
  Theorem ref_top_marked k E E' start : remarked E E' -> ref_top k E' start = ref_top k E start.
  Proof.
    intros S. unfold ref_top. rewrite (sp_ws _ _ S).
    assert (Hw : match e_ws E with None => Some (Some (0, sv_new)) | Some w => ref k E' None no_frame m_top w 0 sv_new end
               = match e_ws E with None => Some (Some (0, sv_new)) | Some w => ref k E None no_frame m_top w 0 sv_new end).
    { destruct (e_ws E) as [w|]; [|reflexivity]. cbn [option_map]. exact (ref_marked k E E' None no_frame m_top w 0 sv_new S). }
    rewrite Hw. match goal with |- obind ?x _ = obind ?x _ => destruct x as [[[i vs]|]|] end; try reflexivity. cbn [obind].
    now rewrite (ref_marked k E E' None no_frame m_top (Hld start) i vs S).
  Qed.
End RefMark.
