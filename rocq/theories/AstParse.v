(** * The AST built by a parse: spans nest and follow the input (C34). *)
From Verif Require Import Base BaseLemmas Utf8 Escape TrieM LineInfo LineProofs Ope Ctx ErrLog Engine EngineLemmas Top Frame Scope Bounds Choice TopFacts Loc AstM AstSpec AstProofs TopRef.

Section Build.
  Variables (input : bytes) (g : grammar) (ws : option ope).
  Definition local_ok (x : tree) : Prop :=
    in_order (a_position (t_data x)) (a_position (t_data x) + a_length (t_data x)) (t_nodes x)
    /\ token_inside x /\ from_rule g ws x
    /\ (a_position (t_data x) <= List.length input -> line_info input (a_position (t_data x)) = Ok (a_line (t_data x), a_column (t_data x))).
  (** [t] was built from text between [a] and [b]. *)
  Definition tloc (a b : nat) (t : tree) : Prop :=
    a <= a_position (t_data t) /\ a_position (t_data t) + a_length (t_data t) <= b /\ Forall local_ok (nodes_of t).
  Lemma tloc_wide a b a' b' t : tloc a b t -> a' <= a -> b <= b' -> tloc a' b' t.
  Proof. unfold tloc. intros (H1 & H2 & H3) Ha Hb. split; [lia|]. split; [lia|assumption]. Qed.

  Lemma somes_chain : forall l lo hi, chain tloc lo hi l ->
    in_order lo hi (somes l) /\ Forall local_ok (flat_map nodes_of (somes l)).
  Proof.
    induction l as [|x l IH]; cbn [chain somes]; intros lo hi H.
    - split; [exact H|constructor].
    - destruct H as (m & Hm & Hx & Hl). apply IH in Hl as [H1 H2]. destruct x as [t|]; cbn [locO] in Hx.
      + destruct Hx as (A & B & C). split; [|cbn [flat_map]; apply Forall_app; now split]. cbn [in_order]. split; [assumption|].
        clear - B H1. destruct (somes l) as [|y l']; cbn [in_order] in *; [lia|]. destruct H1. split; [lia|assumption].
      + split; [|assumption]. clear - Hm H1. destruct (somes l) as [|y l']; cbn [in_order] in *; [lia|]. destruct H1. split; [lia|assumption].
  Qed.

  Lemma ast_action_loc {U} path r d vs (u : U) pd pos n : nth_error g r = Some d -> v_sv vs = (pos, n) -> vok tloc pos (pos + n) vs ->
    told g ws d (v_cc vs) (v_ch vs) ->
    locO tloc pos (pos + n) (fst (ast_action path d input vs u pd)).
  Proof.
    intros Hd Hs [Hc Ht] Htold. unfold ast_action. cbn [fst locO].
    set (nd := node_data path d input vs).
    assert (Hp : a_position nd = pos /\ a_length nd = n).
    { unfold nd, node_data. rewrite Hs. destruct (match line_info _ _ with Ok x => x | _ => _ end). split; reflexivity. }
    destruct Hp as [Hp Hl].
    assert (Htok : a_is_token nd = true -> pos <= fst (a_token nd) /\ fst (a_token nd) + snd (a_token nd) <= pos + n).
    { unfold nd, node_data. destruct (match line_info _ _ with Ok x => x | _ => _ end). destruct (match r_body d with Some o => is_token_ope o | None => false end); [|discriminate].
      intros _. cbn. unfold token_span. destruct (v_toks vs) as [|t l]; [rewrite Hs; cbn; lia|]. inversion Ht as [|? ? H1 _]; subst. exact H1. }
    assert (Hline : pos <= List.length input -> line_info input pos = Ok (a_line nd, a_column nd)).
    { intros Hle. unfold nd, node_data. rewrite Hs. cbn [fst]. destruct (line_ok input pos Hle) as [[ln col] ->]. reflexivity. }
    assert (Hfrom : a_name nd = (match r_ast_name d with [] => r_name d | n => n end) /\ a_tag nd = str2tag (a_name nd)
      /\ a_is_token nd = (match r_body d with Some o => is_token_ope o | None => false end) /\ a_preserve_position nd = r_no_ast_opt d
      /\ told g ws d (a_choice_count nd) (a_choice nd) /\ (a_original_name nd, a_original_choice_count nd, a_original_choice nd) = (a_name nd, a_choice_count nd, a_choice nd)).
    { unfold nd, node_data. destruct (match line_info _ _ with Ok x => x | _ => _ end). cbn.
      destruct (match r_body d with Some o => is_token_ope o | None => false end); auto 10. }
    apply somes_chain in Hc as [H1 H2].
    split; [cbn; lia|]. split; [cbn; lia|]. cbn [nodes_of]. constructor.
    - split; [|split; [|split]]; cbn [t_data t_nodes].
      + rewrite Hp, Hl. destruct (a_is_token nd); [cbn; lia|exact H1].
      + intros Hk. cbn [t_data t_nodes] in *. rewrite Hk, Hp, Hl. split; [reflexivity|]. now apply Htok.
      + exists r, d. split; assumption.
      + rewrite Hp. assumption.
    - destruct (a_is_token nd); [constructor|exact H2].
  Qed.
End Build.
Arguments tloc_wide {input g ws}.

Section AstTop.
  Context {U : Type}.
  Implicit Types (P : pobj tree U).
  Definition anyD : U -> Prop := fun _ => True.
  (** AST actions everywhere (enable_ast), no leave callbacks, custom parsers that add no
      values, and precedence expressions only where load_grammar puts them. *)
  Record ast_parser (path : bytes) P : Prop := {
    ap_action : forall r f, p_action P r = Some f -> exists d, nth_error (p_g P) r = Some d /\ forall i vs u pd, f i vs u pd = ast_action path d i vs u pd;
    ap_leave : forall r, p_leave P r = None;
    ap_user : forall id i pos vs u n vs' u', p_user P id i pos vs u = (n, vs', u') -> vs' = vs;
    ap_user_in : forall id i pos vs u n vs' u', pos <= List.length i -> p_user P id i pos vs u = (Some n, vs', u') -> pos + n <= List.length i;
    ap_slot : p_packrat P = true -> forall r s, p_slot P r = Some s -> s < p_cached P;
    ap_pre : forall r d body, nth_error (p_g P) r = Some d -> r_body d = Some body ->
      nopre body = true \/ (r_is_macro d = false /\ recognize_only P = false
        /\ exists a b i, body = Pre a b i r /\ nopre a = true /\ nopre b = true);
    ap_ws : forall w, p_ws P = Some w -> nopre w = true;
    (* actions reach the parse: some rule it can reach has one *)
    ap_acts : recognize_only P = false
  }.
  Lemma ast_located path P input : ast_parser path P -> located (tloc input (p_g P) (p_ws P)) anyD (mk_env P input).
  Proof.
    intros [H1 H2 H3 H3' H4 H5 H6 H7]. constructor; cbn.
    - intros r f vs pos n u pd Hf Hs Hv Htl. destruct (H1 _ _ Hf) as (d & Hd & He). rewrite He. split; [|exact I]. apply ast_action_loc with (r := r); auto.

    - intros; exact I.
    - intros r f pos n v u Hf. rewrite H2 in Hf. discriminate.
    - intros; exact I.
    - intros id lo pos vs u n vs' u' Hv Hu. apply H3 in Hu. subst. eapply (vok_hi _ tloc_wide); [exact Hv|lia].
    - intros; exact I.
    - exact I.
    - exact H4.
    - intros r d body Hd Hb. destruct (H5 r d body Hd Hb) as [?|(? & _ & ?)]; auto.
  Qed.
  Lemma ast_scoped path P input : ast_parser path P -> scoped (mk_env P input).
  Proof.
    intros [H1 H2 H3 H3' H4 H5 H6 H7]. constructor; cbn.
    - intros id pos vs u r vs' u' Hu. apply H3 in Hu. subst. apply Scope.ext_refl.
    - intros r d body Hd Hb Hm. destruct (H5 r d body Hd Hb) as [?|(Hn & Hr & _)]; [assumption|]. destruct Hm; congruence.
    - exact H6.
  Qed.
  Lemma linv_new path P input log dt g : ast_parser path P -> linv (tloc input (p_g P) (p_ws P)) anyD (mk_env P input) (set_ign g (ctx_new log dt)).
  Proof. intros _. constructor; cbn; [discriminate| |exact I]. intros _ s p n v _ H. discriminate. Qed.

  Theorem ast_spans path P input dt fuel res t : ast_parser path P -> def_parse fuel P input dt = Ok res ->
    result_value res = Some t -> tloc input (p_g P) (p_ws P) 0 (rs_len res) t.
  Proof.
    intros HP H Hv. pose proof (ast_located path P input HP) as HL. pose proof (ast_scoped path P input HP) as HS.
    unfold def_parse in H. cbv zeta in H.
    set (E := mk_env P input) in *. binv H.
    pose proof (fun l gg => linv_new path P input l dt gg HP) as Hnew. fold E in Hnew.
    remember (tloc input (p_g P) (p_ws P)) as LC eqn:HLC. assert (Hwide : forall a b a' b' v, LC a b v -> a' <= a -> b <= b' -> LC a' b' v) by (subst LC; exact tloc_wide).
    assert (Hlead : linv LC anyD E k /\ okargs k /\ forall n, r = Some n -> vok LC 0 n v).
    { destruct (p_ws P) as [w|] eqn:Hw.
      - binv Hm. inv Hm. match goal with Hq : parse _ _ _ _ _ _ = _ |- _ => rename Hq into Hq' end.
        pose proof (parse_frame fuel _ _ _ _ _ _ _ _ Hq') as Hf.
        eapply (parse_loc _ Hwide anyD fuel E w 0 0) in Hq' as [A B]; [|exact HL|exact HS|reflexivity|apply Hnew|left; eapply ap_ws; eauto|apply (vok_new _ Hwide)].
        split; [eapply linv_same; [exact A|reflexivity..]|]. split; [exact (okargs_frame _ _ Hf eq_refl)|exact B].
      - inv Hm. split; [exact (Hnew (p_log P) (c_ign (@ctx_new tree U (p_log P) dt)))|]. split; [reflexivity|]. intros n Hn. inv Hn. apply (vok_new _ Hwide). }
    destruct Hlead as (A & B & C). destruct r as [i|]; [|inv H; discriminate].
    specialize (C _ eq_refl). binv H.
    eapply (parse_loc _ Hwide anyD fuel E _ 0 i) in Hm0 as [A2 B2]; [|exact HL|exact HS|exact B|exact A|now left|exact C].
    destruct r as [n|]; [|inv H; discriminate]. specialize (B2 _ eq_refl).
    destruct (_ && _); inv H; [discriminate|]. unfold result_value in Hv. cbn [mk_result rs_ret rs_vs rs_len] in *.
    destruct B2 as [B2 _]. apply (chain_front _ Hwide) in B2. fold (front (v_vals v0)) in Hv. rewrite Hv in B2. exact B2.
  Qed.

  (** In the terms of AstSpec. *)
  Theorem ast_tree path P input dt fuel res t : ast_parser path P -> def_parse fuel P input dt = Ok res ->
    result_value res = Some t ->
    nested t /\ rs_len res <= List.length input
    /\ a_position (t_data t) + a_length (t_data t) <= rs_len res
    /\ Forall token_inside (nodes_of t) /\ Forall (placed input) (nodes_of t) /\ Forall (from_rule (p_g P) (p_ws P)) (nodes_of t).
  Proof.
    intros HP Hd Hv. destruct (ast_spans path P input dt fuel res t HP Hd Hv) as (_ & Hr & Hall).
    assert (Hlen : rs_len res <= List.length input).
    { assert (HE : wfE (mk_env P input)).
      { constructor; cbn; [|apply (ap_slot path P HP)]. exact (ap_user_in path P HP). }
      pose proof (def_parse_safe fuel P input dt HE) as Hs. rewrite Hd in Hs. exact (proj1 Hs). }
    split; [eapply Forall_impl; [|exact Hall]; cbn; intros x Hx; apply Hx|]. split; [assumption|]. split; [assumption|].
    split; [eapply Forall_impl; [|exact Hall]; cbn; intros x Hx; apply Hx|].
    assert (Hin : forall u lo hi, Forall (local_ok input (p_g P) (p_ws P)) (nodes_of u) -> lo <= a_position (t_data u) -> a_position (t_data u) + a_length (t_data u) <= hi ->
      Forall (fun x => lo <= a_position (t_data x) /\ a_position (t_data x) + a_length (t_data x) <= hi) (nodes_of u)).
    { clear. induction u as [d l IH] using tree_ind'. intros lo hi Hf Hlo Hhi. cbn [nodes_of] in *. inversion Hf as [|? ? Hx Hf']; subst.
      constructor; [split; assumption|]. destruct Hx as (Ho & _). cbn [t_data t_nodes] in *.
      assert (Hg : forall lo', lo <= lo' -> in_order lo' (a_position d + a_length d) l -> Forall (fun x => lo <= a_position (t_data x) /\ a_position (t_data x) + a_length (t_data x) <= hi) (flat_map nodes_of l)).
      { clear Hf Ho. induction IH as [|x l Hx _ IHl]; intros lo' Hl' Ho; [constructor|]. cbn [flat_map] in *. apply Forall_app in Hf' as [Hf1 Hf2].
        cbn [in_order] in Ho. destruct Ho as [Ho1 Ho2]. pose proof (in_order_le _ _ _ Ho2) as Hle. apply Forall_app. split; [apply Hx; auto; lia|]. eapply IHl; [assumption| |exact Ho2]. lia. }
      eapply Hg; [|exact Ho]. assumption. }
    split.
    - pose proof (Hin t 0 (rs_len res) Hall (Nat.le_0_l _) Hr) as Hb. rewrite Forall_forall in *. intros x Hx. destruct (Hb x Hx) as [_ Hb2].
      destruct (Hall x Hx) as (_ & _ & _ & Hl). split; [lia|]. apply Hl. lia.
    - eapply Forall_impl; [|exact Hall]. cbn. intros x Hx. apply Hx.
  Qed.
End AstTop.
