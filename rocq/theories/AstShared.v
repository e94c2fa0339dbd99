(** * Shared AST nodes against trees held by value (C42): one parser that makes both is
    compared with each of the two. *)
From Verif Require Import Base BaseLemmas Utf8 Escape TrieM LineInfo Ope Ctx ErrLog Engine EngineLemmas EngineSpec Frame Scope Bounds EventSpec Events Own Good Top IdsFacts Sim IndepSpec SimTop AstM AstSpec AstProofs AstSetup.

(** ** A parser that makes both *)
Definition lower {A B} (f : A -> B) (vs : sv A) : sv B :=
  {| v_vals := map (option_map f) (v_vals vs); v_tags := v_tags vs; v_toks := v_toks vs; v_sv := v_sv vs;
     v_cc := v_cc vs; v_ch := v_ch vs; v_name := v_name vs |}.
Definition both_action (path : bytes) (d : rule) (input : bytes) (vs : sv (tree * addr)) (h : heap) (pd : option (tree * addr)) : option (tree * addr) * heap :=
  let nd := node_data path d input vs in
  let t := T nd (if a_is_token nd then [] else map fst (somes (v_vals vs))) in
  let (a, h') := ast_action_heap path d input (lower snd vs) h None in
  (option_map (fun a => (t, a)) a, h').
Definition both_parser (path : bytes) (S : ast_setup) : pobj (tree * addr) heap := setup_parser S (both_action path) [].

Lemma somes_map {A B} (f : A -> B) l : somes (map (option_map f) l) = map f (somes l).
Proof. induction l as [|[x|] l IH]; cbn; congruence. Qed.
Lemma lower_spec {A B} (f : A -> B) (vs1 : sv B) (vs2 : sv A) : VRs (fun b a => b = option_map f a) vs1 vs2 -> vs1 = lower f vs2.
Proof.
  intros [H1 H2 H3 H4 H5 H6 H7]. destruct vs1, vs2. cbn in *. unfold lower. cbn. subst. f_equal.
  induction H1; cbn; congruence.
Qed.
Lemma node_data_lower {A B} (f : A -> B) path d i (vs : sv A) : node_data path d i (lower f vs) = node_data path d i vs.
Proof. reflexivity. Qed.

(** Two parsers of one setup whose actions are related by [f]. *)
Definition full_mode : mode := {| m_log := true; m_stk := true; m_rg := false; m_plain := false |}.
Lemma setup_sim {A B U1 U2} (f : A -> B) (Ur : U1 -> U2 -> Prop) S act1 act2 u1 u2 fuel input dt1 dt2 :
  (forall d i vs x y pd, Ur x y -> fst (act1 d i (lower f vs) x (option_map f pd)) = option_map f (fst (act2 d i vs y pd))
    /\ Ur (snd (act1 d i (lower f vs) x (option_map f pd))) (snd (act2 d i vs y pd))) ->
  Ur u1 u2 -> Ur dt1 dt2 ->
  osim true (obs all_rules (fun b a => b = option_map f a) Ur full_mode)
    (def_parse fuel (setup_parser S act1 u1) input dt1) (def_parse fuel (setup_parser S act2 u2) input dt2).
Proof.
  intros Hact Hu Hd.
  assert (Hrec : recognize_only (setup_parser S act1 u1) = recognize_only (setup_parser S act2 u2)).
  { unfold recognize_only, setup_parser. cbn. f_equal. match goal with |- forallb _ ?q = _ => induction q as [|r ids IH]; [reflexivity|] end.
    cbn [forallb]. rewrite IH. f_equal. destruct (nth_error (as_g S) r), (as_pred S r); reflexivity. }
  apply (def_sim all_rules all_rules (fun b a => b = option_map f a) Ur eq_refl fuel full_mode); [|assumption].
  constructor; cbn [full_mode m_log m_stk m_rg setup_parser p_start p_eoi p_log]; auto; try exact Logic.I; try discriminate.
  assert (Hok : forall o, okope all_rules all_rules false (ha (mk_env (setup_parser S act1 u1) input) (mk_env (setup_parser S act2 u2) input)) o).
  { intros o. apply okope_all. intros r. unfold ha. cbn. destruct (nth_error _ _); split; congruence. }
  constructor; cbn [mk_env setup_parser p_g p_ws p_word p_packrat p_slot p_cached p_u0 e_g e_input e_ws e_word e_packrat e_slot e_cached e_has_cut e_need_rules e_recog e_u0 full_mode m_log m_stk m_rg m_plain]; auto; try discriminate.
  - intros w Hw. split; [auto|discriminate].
  - intros inp r vs1 vs2 x y pd1 pd2 _ Hv Hx ->. apply lower_spec in Hv. subst vs1. unfold act_of. cbn [mk_env setup_parser p_action e_action].
    destruct (nth_error (as_g S) r) as [d|]; [apply Hact; assumption|]. cbn. split; [|assumption]. destruct (v_vals vs2); reflexivity.
  - intros inp r vs1 vs2 x y _ Hv Hx. apply lower_spec in Hv. subst vs1. unfold pred_of. cbn. destruct (as_pred S r); auto.
Qed.

(** ** Structure: any setup, memoization included *)
Definition same_nodes (h h' : heap) : Prop :=
  forall a c, nth_error h a = Some c -> exists c', nth_error h' a = Some c' /\ n_data c' = n_data c /\ n_nodes c' = n_nodes c.
Lemma same_nodes_refl h : same_nodes h h. Proof. intros a c H. eauto. Qed.
Lemma same_nodes_trans h h1 h2 : same_nodes h h1 -> same_nodes h1 h2 -> same_nodes h h2.
Proof. intros A B a c H. destruct (A _ _ H) as (c1 & H1 & E1 & F1). destruct (B _ _ H1) as (c2 & H2 & E2 & F2). exists c2. split; [assumption|]. split; congruence. Qed.
Lemma same_nodes_tree h h' t : same_nodes h h' -> forall a, tree_at h a t -> tree_at h' a t.
Proof.
  intros He. induction t as [d l IH] using tree_ind'. intros a Ht. inversion Ht as [a' c ts Hc Hf]; subst.
  destruct (He _ _ Hc) as (c' & Hc' & E1 & E2). rewrite <- E1. constructor; [assumption|]. rewrite E2.
  clear Hc Ht Hc' E2. remember (n_nodes c) as ns eqn:En; clear En. revert ns Hf.
  induction IH as [|x l Hx _ IHl]; intros ns Hf; inversion Hf; subst; constructor; auto.
Qed.
Definition shows (h : heap) (p : tree * addr) : Prop := tree_at h (snd p) (fst p).
Lemma shows_mono h h' p : shows h p -> same_nodes h h' -> shows h' p.
Proof. intros H Hs. eapply same_nodes_tree; eauto. Qed.
Lemma set_parents_same p : forall ns h, match set_parents h ns p with Ok h' => same_nodes h h' | _ => True end.
Proof.
  induction ns as [|n ns IH]; intros h; cbn [set_parents]; [apply same_nodes_refl|].
  unfold get_cell. destruct (nth_error h n) as [c|] eqn:Hc; cbn [bind]; [|exact I].
  specialize (IH (put_cell h n {| n_data := n_data c; n_nodes := n_nodes c; n_parent := Some p |})).
  destruct (set_parents _ _ _); try exact I. eapply same_nodes_trans; [|exact IH].
  intros x cx Hx. destruct (Nat.eq_dec x n) as [->|Hn].
  - rewrite Hc in Hx. inv Hx. eexists. split; [eapply put_same; eassumption|]. split; reflexivity.
  - exists cx. rewrite put_other by congruence. auto.
Qed.
Lemma both_shows path d input vs h pd : Forall (goodO shows h) (v_vals vs) ->
  same_nodes h (snd (both_action path d input vs h pd))
  /\ goodO shows (snd (both_action path d input vs h pd)) (fst (both_action path d input vs h pd)).
Proof.
  intros Hv. unfold both_action, ast_action_heap, alloc. cbv zeta. rewrite node_data_lower. set (nd := node_data path d input vs). cbv beta iota.
  set (ns := if a_is_token nd then [] else somes (v_vals (lower snd vs))).
  set (h1 := h ++ [{| n_data := nd; n_nodes := ns; n_parent := None |}]).
  set (h2 := match set_parents h1 ns (List.length h) with Ok h2 => h2 | _ => h1 end). cbn [fst snd option_map goodO].
  assert (H1 : same_nodes h h1).
  { intros a c Hc. exists c. unfold h1. rewrite nth_error_app1; [auto|]. apply nth_error_Some. congruence. }
  assert (H2 : same_nodes h1 h2).
  { unfold h2. pose proof (set_parents_same (List.length h) ns h1) as Hs. destruct (set_parents _ _ _); try apply same_nodes_refl. exact Hs. }
  split; [eapply same_nodes_trans; eauto|]. unfold shows. cbn [fst snd].
  eapply same_nodes_tree; [exact H2|].
  change nd with (n_data {| n_data := nd; n_nodes := ns; n_parent := None |}) at 1.
  constructor; [unfold h1; rewrite nth_error_app2 by lia; now rewrite Nat.sub_diag|]. cbn [n_nodes]. unfold ns.
  destruct (a_is_token nd); [constructor|]. cbn [lower v_vals]. rewrite somes_map.
  assert (Hv1 : Forall (shows h1) (somes (v_vals vs))).
  { clear -Hv H1. induction Hv as [|[x|] l Hx _ IH]; cbn [somes]; [constructor| |assumption]. constructor; [|assumption]. eapply shows_mono; eauto. }
  clear -Hv1. induction Hv1 as [|x l Hx _ IH]; cbn; constructor; assumption.
Qed.
Definition no_recovery (S : ast_setup) : Prop :=
  (forall r d body, nth_error (as_g S) r = Some d -> r_body d = Some body -> norcv body = true)
  /\ (forall w, as_ws S = Some w -> norcv w = true).
Lemma both_goodenv path S input : no_recovery S -> goodenv shows same_nodes (mk_env (both_parser path S) input).
Proof.
  intros [N1 N2]. constructor; cbn.
  - intros r f vs u pd Hf Hv. destruct (nth_error (as_g S) r) as [d|]; inv Hf. now apply both_shows.
  - discriminate.
  - discriminate.
  - intros id pos vs u Hv. split; [apply same_nodes_refl|exact Hv].
  - intros r d body Hd Hb. rewrite nrv_false. eauto.
  - intros w Hw. rewrite nrv_false. eauto.
Qed.
Lemma both_tree path S input dt fuel res t a : no_recovery S -> def_parse fuel (both_parser path S) input dt = Ok res ->
  result_value res = Some (t, a) -> tree_at (rs_dt res) a t.
Proof.
  intros HN H Hv. pose proof (both_goodenv path S input HN) as HE.
  pose proof (fun f => parse_good shows same_nodes same_nodes_refl same_nodes_trans shows_mono f) as Hgood.
  unfold def_parse in H. cbv zeta in H. set (E := mk_env (both_parser path S) input) in *. binv H.
  assert (Hlead : okr k /\ kinv shows k /\ goods shows (c_dt k) (v_vals v)).
  { destruct (p_ws (both_parser path S)) as [w|] eqn:Hw.
    - binv Hm. inv Hm. match goal with Hq : parse _ _ _ _ _ _ = _ |- _ => rename Hq into Hq' end.
      pose proof (parse_frame fuel _ _ _ _ _ _ _ _ Hq') as Hf.
      eapply (Hgood fuel E w) in Hq' as (A & B & C); [|exact HE|reflexivity|constructor; constructor|apply (ge_ws _ _ _ HE w); exact Hw|constructor].
      split; [eapply okr_frame in Hf; [exact Hf|reflexivity]|]. split; [eapply kinv_same; [exact B|reflexivity..]|exact C].
    - inv Hm. split; [reflexivity|]. split; constructor; constructor. }
  destruct Hlead as (A & B & C). destruct r as [i|]; [|inv H; discriminate].
  binv H. eapply (Hgood fuel E) in Hm0 as (A2 & B2 & C2); [|exact HE|exact A|exact B|reflexivity|exact C].
  destruct r as [n|]; [|inv H; discriminate].
  destruct (_ && _); inv H; [discriminate|]. unfold result_value in Hv. cbn [mk_result rs_ret rs_vs rs_len rs_dt] in *.
  apply goods_front in C2. unfold front in C2. destruct (v_vals v0) as [|x l]; [discriminate|]. inv Hv. exact C2.
Qed.

(** The two views of the product parser. *)
Lemma both_value {A B U1 U2} (f : A -> B) (Ur : U1 -> U2 -> Prop) (r1 : result B U1) (r2 : result A U2) :
  obs all_rules (fun b a => b = option_map f a) Ur full_mode r1 r2 -> result_value r1 = option_map f (result_value r2).
Proof.
  intros [O1 _ _ O4 _ _ _ _]. unfold result_value. rewrite O1. destruct (rs_ret r2); [|reflexivity].
  destruct O4 as [V1 _ _ _ _ _ _]. destruct V1 as [|x y l l' Hx]; [reflexivity|exact Hx].
Qed.
Lemma both_nodes path S fuel input dt :
  osim true (obs all_rules (fun b a => b = option_map snd a) eq full_mode)
    (def_parse fuel (node_parser path S) input dt) (def_parse fuel (both_parser path S) input dt).
Proof.
  apply setup_sim; try reflexivity. intros d i vs x y pd <-. unfold both_action.
  assert (E : forall p, ast_action_heap path d i (lower snd vs) x p = ast_action_heap path d i (lower snd vs) x None) by reflexivity.
  rewrite E. destruct (ast_action_heap path d i (lower snd vs) x None) as [[a|] h']; split; reflexivity.
Qed.
Lemma both_trees path S fuel input u dt :
  osim true (obs all_rules (fun b a => b = option_map fst a) (fun _ _ => True) full_mode)
    (def_parse fuel (tree_parser path S) input u) (def_parse fuel (both_parser path S) input dt).
Proof.
  apply setup_sim; try exact I. intros d i vs x y pd _. unfold both_action, ast_action, ast_action_heap, alloc. cbv zeta. split; [|exact I].
  rewrite node_data_lower. cbn [fst option_map lower v_vals]. now rewrite somes_map.
Qed.

(** Shared nodes and trees: the same parse, the same tree. *)
Theorem same_tree path S input dt fuel res : no_recovery S -> def_parse fuel (node_parser path S) input dt = Ok res ->
  exists res', def_parse fuel (tree_parser path S) input tt = Ok res'
    /\ rs_ret res' = rs_ret res /\ rs_len res' = rs_len res /\ rs_recovered res' = rs_recovered res
    /\ rs_err res' = rs_err res /\ rs_out res' = rs_out res
    /\ match result_value res, result_value res' with
       | Some a, Some t => tree_at (rs_dt res) a t | None, None => True | _, _ => False end.
Proof.
  intros HN H. pose proof (both_nodes path S fuel input dt) as S1. pose proof (both_trees path S fuel input tt dt) as S2.
  rewrite H in S1. inversion S1 as [x rb O1 E1 E2| | | | |]; subst; try discriminate. rewrite <- E2 in S2.
  inversion S2 as [rt x O2 E3 E4| | | | |]; subst; try discriminate. exists rt. split; [reflexivity|].
  pose proof (both_value _ _ _ _ O1) as V1. pose proof (both_value _ _ _ _ O2) as V2.
  destruct O1 as [A1 A2 A3 A4 A5 A6 A7 A8]. destruct O2 as [B1 B2 B3 B4 B5 B6 B7 B8]. cbn [full_mode m_log] in *.
  specialize (A5 eq_refl). specialize (A7 eq_refl). specialize (B5 eq_refl). specialize (B7 eq_refl).
  split; [congruence|]. split; [congruence|]. split; [congruence|]. split; [congruence|]. split; [congruence|].
  rewrite V1, V2. destruct (result_value rb) as [[t a]|] eqn:Hrb; cbn [option_map fst snd]; [|exact I].
  rewrite A8. eapply both_tree; [exact HN|symmetry; exact E2|exact Hrb].
Qed.

(** ** Parent links: nothing memoized *)
(** The values [l] are roots of trees with disjoint nodes, listed in [fp]. *)
Inductive owns (h : heap) : list (option (tree * addr)) -> list addr -> Prop :=
| owns_nil : owns h [] []
| owns_none l fp : owns h l fp -> owns h (None :: l) fp
| owns_some a l t fp1 fp2 : linked h a None t fp1 -> owns h l fp2 -> owns h (Some (t, a) :: l) (fp1 ++ fp2).
Definition forest (lo : nat) (h : heap) (l : list (option (tree * addr))) : Prop :=
  lo <= List.length h /\ exists fp, owns h l fp /\ fresh lo (List.length h) fp.
Definition hkept (m : nat) (h h' : heap) : Prop :=
  List.length h <= List.length h' /\ forall x, x < m -> nth_error h' x = nth_error h x.

Lemma owns_frame h h' l fp : owns h l fp -> (forall x, In x fp -> nth_error h' x = nth_error h x) -> owns h' l fp.
Proof.
  induction 1 as [|l fp H IH|a l t fp1 fp2 Hl H IH]; intros He; [constructor|constructor; auto|].
  econstructor; [eapply (proj1 (linked_frame h h')); [exact Hl|]|apply IH]; intros x Hx; apply He, in_app_iff; auto.
Qed.
Lemma owns_app h l fp l' fp' : owns h l fp -> owns h l' fp' -> owns h (l ++ l') (fp ++ fp').
Proof.
  induction 1 as [|l fp H IH|a l t fp1 fp2 Hl H IH]; intros H'; cbn [app]; [assumption|constructor; auto|].
  rewrite <- app_assoc. econstructor; eauto.
Qed.

Lemma hkept_refl m h : hkept m h h. Proof. split; auto. Qed.
Lemma hkept_trans m h h1 h2 : hkept m h h1 -> hkept m h1 h2 -> hkept m h h2.
Proof. intros [A B] [C D]. split; [lia|]. intros x Hx. rewrite D, B; auto. Qed.
Lemma hkept_less m m' h h' : hkept m h h' -> m' <= m -> hkept m' h h'.
Proof. intros [A B] Hm. split; [assumption|]. intros x Hx. apply B. lia. Qed.
Lemma hkept_mark m (h h' : heap) : hkept m h h' -> List.length h <= List.length h'.
Proof. now intros [A _]. Qed.
Lemma hforest_nil lo (h : heap) : lo <= List.length h -> forest lo h [].
Proof. intros Hl. split; [assumption|]. exists []. split; [constructor|]. split; constructor. Qed.
Lemma hforest_mark lo h l : forest lo h l -> lo <= List.length h.
Proof. now intros [A _]. Qed.
Lemma hforest_app lo h h' l l' : forest lo h l -> hkept (List.length h) h h' -> forest (List.length h) h' l' -> forest lo h' (l ++ l').
Proof.
  intros (A & fp & O & N & F) [K1 K2] (_ & fp' & O' & N' & F'). split; [lia|]. exists (fp ++ fp'). rewrite Forall_forall in F, F'.
  split; [apply owns_app; [|assumption]; eapply owns_frame; [exact O|]; intros x Hx; apply K2, F, Hx|].
  split; [|rewrite Forall_forall; intros x; rewrite in_app_iff; intros [Hx|Hx]; [apply F in Hx; lia|apply F' in Hx; lia]].
  apply NoDup_app_mk; auto. intros x Hx Hx'. apply F in Hx. apply F' in Hx'. lia.
Qed.
Lemma hforest_lo lo lo' h l : forest lo h l -> lo' <= lo -> forest lo' h l.
Proof.
  intros (A & fp & O & N & F) Hl. split; [lia|]. exists fp. split; [assumption|]. split; [assumption|].
  rewrite Forall_forall in F |- *. intros x Hx. apply F in Hx. lia.
Qed.
Lemma hforest_front lo h l : forest lo h l -> forest lo h [front l].
Proof.
  intros (A & fp & O & N & F). split; [assumption|]. destruct O as [|l fp O|a l t fp1 fp2 Hl O]; cbn [front].
  - exists []. split; [repeat constructor|]. split; constructor.
  - exists []. split; [repeat constructor|]. split; constructor.
  - exists (fp1 ++ []). split; [econstructor; [exact Hl|constructor]|]. rewrite app_nil_r.
    apply NoDup_app_l in N as (N & _). split; [assumption|]. rewrite Forall_forall in F |- *. intros x Hx. apply F, in_app_iff. auto.
Qed.
Lemma hforest_none lo (h : heap) : lo <= List.length h -> forest lo h [None].
Proof. intros Hl. split; [assumption|]. exists []. split; [repeat constructor|]. split; constructor. Qed.

(** Linking the children to their new parent. *)
Lemma adopt p : forall l h fp, owns h l fp -> NoDup fp ->
  exists h', set_parents h (map snd (somes l)) p = Ok h' /\ linkeds h' (map snd (somes l)) p (map fst (somes l)) fp /\ List.length h' = List.length h
    /\ forall x, ~ In x fp -> nth_error h' x = nth_error h x.
Proof.
  induction l as [|[q|] l IH]; intros h fp Ho Hn; inversion Ho as [|? ? Ho'|n ? t fp1 fp2 Hk Ho']; subst; cbn [somes set_parents map fst snd].
  - exists h. split; [reflexivity|]. split; [constructor|]. auto.
  - destruct (NoDup_app_l _ _ Hn) as (N1 & N2 & Hd).
    destruct (reparent _ _ _ _ _ (Some p) Hk N1) as (c & Hc & Hk'). unfold get_cell. rewrite Hc. cbn [bind].
    set (h1 := put_cell h n {| n_data := n_data c; n_nodes := n_nodes c; n_parent := Some p |}) in *.
    assert (Ho1 : owns h1 l fp2).
    { eapply owns_frame; [exact Ho'|]. intros x Hx. apply put_other. intros ->. eapply Hd; [eapply root_in; exact Hk|exact Hx]. }
    destruct (IH h1 _ Ho1 N2) as (h' & E' & L' & Len & Hx').
    exists h'. rewrite E'. split; [reflexivity|]. split.
    + constructor; [|assumption]. eapply (proj1 (linked_frame h1 h')); [exact Hk'|]. intros x Hx. apply Hx'. eauto.
    + split; [rewrite Len; apply put_length|]. intros x Hx. rewrite in_app_iff in Hx. rewrite Hx' by tauto.
      apply put_other. intros ->. apply Hx. left. eapply root_in; eassumption.
  - eapply IH; eauto.
Qed.

Lemma both_owns path d input vs h pd lo : forest lo h (v_vals vs) ->
  hkept lo h (snd (both_action path d input vs h pd))
  /\ forest lo (snd (both_action path d input vs h pd)) [fst (both_action path d input vs h pd)].
Proof.
  intros (A & fp & O & N & F). unfold both_action, ast_action_heap, alloc. cbv zeta. rewrite node_data_lower. set (nd := node_data path d input vs). cbv beta iota.
  set (l := if a_is_token nd then [] else v_vals vs).
  assert (El : (if a_is_token nd then [] else somes (v_vals (lower snd vs))) = map snd (somes l)) by (unfold l; destruct (a_is_token nd); [reflexivity|]; cbn [lower v_vals]; apply somes_map).
  assert (Et : (if a_is_token nd then [] else map fst (somes (v_vals vs))) = map fst (somes l)) by (unfold l; destruct (a_is_token nd); reflexivity).
  rewrite El, Et.
  set (h1 := h ++ [{| n_data := nd; n_nodes := map snd (somes l); n_parent := None |}]).
  assert (Hl : exists fp', owns h1 l fp' /\ NoDup fp' /\ Forall (fun x => lo <= x < List.length h) fp').
  { rewrite Forall_forall in F. unfold l. destruct (a_is_token nd).
    - exists []. split; [constructor|]. split; constructor.
    - exists fp. split; [|split; [assumption|now rewrite Forall_forall]]. eapply owns_frame; [exact O|]. intros x Hx. apply F in Hx. apply nth_error_app1. lia. }
  destruct Hl as (fp' & O' & N' & F'). rewrite Forall_forall in F'.
  destruct (adopt (List.length h) l h1 fp' O' N') as (h2 & E2 & L2 & Len & Hx). rewrite E2. cbn [fst snd option_map].
  assert (Hlen : List.length h2 = S (List.length h)) by (rewrite Len; unfold h1; rewrite app_length; cbn; lia).
  split.
  - split; [lia|]. intros x Hlt. rewrite Hx by (intros Hi; apply F' in Hi; lia). apply nth_error_app1. lia.
  - split; [lia|]. exists ((List.length h :: fp') ++ []). split; [econstructor; [|constructor]; econstructor; [|exact L2]|].
    + rewrite Hx by (intros Hi; apply F' in Hi; lia). unfold h1. rewrite nth_error_app2 by lia. rewrite Nat.sub_diag. reflexivity.
    + rewrite app_nil_r. split; [constructor; [intros Hi; apply F' in Hi; lia|assumption]|]. rewrite Hlen. constructor; [lia|]. rewrite Forall_forall. intros x Hi. apply F' in Hi. lia.
Qed.

(** The setups concerned: nothing is memoized, no rule is left-recursive, and a precedence
    expression is the whole body of its rule (as the generator makes it) when values are made. *)
Record unshared (S : ast_setup) : Prop := {
  us_packrat : as_packrat S = false;
  us_lr : forall r d, nth_error (as_g S) r = Some d -> r_lr d = false;
  us_pre : forall r d body, nth_error (as_g S) r = Some d -> r_body d = Some body ->
    nopre body = true \/ (r_is_macro d = false /\ exists a b i, body = Pre a b i r /\ nopre a = true /\ nopre b = true);
  us_ws : forall w, as_ws S = Some w -> nopre w = true;
  us_start : as_start S < List.length (as_g S)
}.
(** Every rule has an action, so the parser builds values. *)
Lemma setup_values {V U} S act (u0 : U) : as_start S < List.length (as_g S) -> recognize_only (@setup_parser V U S act u0) = false.
Proof.
  intros Hs. unfold recognize_only. cbn. apply andb_false_intro2.
  pose proof (definition_ids_spec (as_g S) (as_start S) (as_ws S) (as_word S)) as Hids.
  assert (Hi : In (as_start S) (id_list (definition_ids (as_g S) (as_start S) (as_ws S) (as_word S)))) by apply Hids.
  destruct (forallb _ _) eqn:Hf; [|reflexivity]. rewrite forallb_forall in Hf. apply Hf in Hi.
  destruct (nth_error (as_g S) (as_start S)) eqn:Hn; [discriminate|]. apply nth_error_None in Hn. lia.
Qed.
Lemma both_owned path S input : unshared S -> owned (fun h : heap => List.length h) hkept forest (mk_env (both_parser path S) input).
Proof.
  intros [H1 H2 H3 H4 H5]. constructor; cbn.
  - intros r f vs lo u pd Hf Hv. destruct (nth_error (as_g S) r); inv Hf. now apply both_owns.
  - discriminate.
  - discriminate.
  - intros id lo pos vs u Hv. split; [apply hkept_refl|exact Hv].
  - exact H1.
  - exact H2.
  - exact H3.
Qed.
Lemma both_scoped path S input : unshared S -> scoped (mk_env (both_parser path S) input).
Proof.
  intros [H1 H2 H3 H4 H5]. constructor; cbn.
  - intros id pos vs u r vs' u' Hu. inv Hu. apply Scope.ext_refl.
  - intros r d body Hd Hb Hm. destruct (H3 r d body Hd Hb) as [?|(Hn & _)]; [assumption|].
    destruct Hm as [Hm|Hm]; [congruence|]. unfold both_parser in Hm. rewrite setup_values in Hm by assumption. discriminate.
  - exact H4.
Qed.
Lemma both_links path S input dt fuel res t a : unshared S -> def_parse fuel (both_parser path S) input dt = Ok res ->
  result_value res = Some (t, a) ->
  (forall x, x < List.length dt -> nth_error (rs_dt res) x = nth_error dt x)
  /\ exists fp, linked (rs_dt res) a None t fp /\ NoDup fp /\ Forall (fun x => List.length dt <= x < List.length (rs_dt res)) fp.
Proof.
  intros HP H Hv. pose proof (both_owned path S input HP) as HL. pose proof (both_scoped path S input HP) as HS.
  pose proof (fun f => parse_own (fun h : heap => List.length h) hkept forest hkept_refl hkept_trans hkept_less hkept_mark
    hforest_nil hforest_mark hforest_app hforest_lo hforest_front hforest_none f) as Hown.
  unfold def_parse in H. cbv zeta in H. set (E := mk_env (both_parser path S) input) in *. binv H.
  set (m := List.length dt).
  assert (Hlead : hkept m dt (c_dt k) /\ okargs k /\ forall n, r = Some n -> forest m (c_dt k) (v_vals v)).
  { destruct (p_ws (both_parser path S)) as [w|] eqn:Hw.
    - binv Hm. inv Hm. match goal with Hq : parse _ _ _ _ _ _ = _ |- _ => rename Hq into Hq' end.
      pose proof (parse_frame fuel _ _ _ _ _ _ _ _ Hq') as Hf.
      eapply (Hown fuel E w m) in Hq' as [A B]; [|exact HL|exact HS|reflexivity|left; apply (us_ws _ HP w Hw)|apply hforest_nil; reflexivity].
      split; [exact A|]. split; [exact (okargs_frame _ _ Hf eq_refl)|exact B].
    - inv Hm. split; [apply hkept_refl|]. split; [reflexivity|]. intros n Hn. inv Hn. apply hforest_nil. reflexivity. }
  destruct Hlead as (A & B & C). destruct r as [i|]; [|inv H; discriminate].
  specialize (C _ eq_refl). binv H.
  eapply (Hown fuel E _ m) in Hm0 as [A2 B2]; [|exact HL|exact HS|exact B|now left|exact C].
  destruct r as [n|]; [|inv H; discriminate]. specialize (B2 _ eq_refl).
  assert (Hq : rs_dt res = c_dt k0 /\ Some (t, a) = front (v_vals v0)).
  { destruct (_ && _); inv H; [discriminate|]. unfold result_value in Hv. cbn [mk_result rs_ret rs_vs rs_len rs_dt] in *. split; [reflexivity|]. now symmetry. }
  destruct Hq as [-> Hq]. destruct A as [A1 A3]. destruct A2 as [A2 A4]. split.
  - intros x Hx. rewrite A4 by (unfold m in *; lia). now apply A3.
  - apply hforest_front in B2 as (_ & fp & O & N & F). rewrite <- Hq in O. inversion O as [| |? ? t' fp1 fp2 Hl O']; subst. inversion O'; subst.
    rewrite app_nil_r in *. exists fp1. auto.
Qed.

(** The nodes made are new, the old ones are untouched; each node of the tree is one node,
    listed by its parent only, and knows its parent. *)
Theorem shared_links path S input dt fuel res a : unshared S -> def_parse fuel (node_parser path S) input dt = Ok res ->
  result_value res = Some a ->
  exists res' t fp, def_parse fuel (tree_parser path S) input tt = Ok res' /\ result_value res' = Some t
    /\ linked (rs_dt res) a None t fp /\ NoDup fp
    /\ Forall (fun x => List.length dt <= x < List.length (rs_dt res)) fp
    /\ forall x, x < List.length dt -> nth_error (rs_dt res) x = nth_error dt x.
Proof.
  intros HS H Hv. pose proof (both_nodes path S fuel input dt) as S1. pose proof (both_trees path S fuel input tt dt) as S2.
  rewrite H in S1. inversion S1 as [x rb O1 E1 E2| | | | |]; subst; try discriminate. rewrite <- E2 in S2.
  inversion S2 as [rt x O2 E3 E4| | | | |]; subst; try discriminate.
  pose proof (both_value _ _ _ _ O1) as V1. pose proof (both_value _ _ _ _ O2) as V2. pose proof (ob_dt _ _ _ _ _ _ O1) as A8.
  rewrite Hv in V1. destruct (result_value rb) as [[t a']|] eqn:Hrb; [|discriminate]. cbn in V1, V2. injection V1 as <-.
  symmetry in E2. destruct (both_links path S input dt fuel rb t a HS E2 Hrb) as (K & fp & L & N & F). rewrite A8.
  exists rt, t, fp. auto 6.
Qed.
