From Verif Require Import Base BaseLemmas Ope Ctx AstM AstSpec.
Require Import Lia.

(** ** Trees *)
Section TreeInd.
  Variable P : tree -> Prop.
  Hypothesis H : forall d l, Forall P l -> P (T d l).
  Fixpoint tree_ind' (t : tree) : P t :=
    match t with
    | T d l => H d l ((fix go (l : list tree) : Forall P l :=
        match l with [] => Forall_nil _ | x :: l' => Forall_cons x (tree_ind' x) (go l') end) l)
    end.
End TreeInd.

Definition merged (o d : adata) : adata :=
  ast_merge d (a_name o) (if a_preserve_position d then a_position d else a_position o)
    (if a_preserve_position d then a_length d else a_length o) (a_choice_count o) (a_choice o).

Section Opt.
  Variables (mode : bool) (rules : list bytes).
  Fixpoint opt (t : tree) : tree :=
    match t with
    | T d l =>
      match l with
      | [x] => if opt_name mode rules (a_name d) then match opt x with T d' l' => T (merged d d') l' end else T d [opt x]
      | _ => T d (map opt l)
      end
    end.
  Lemma opt_keep d l : (List.length l = 1 -> opt_name mode rules (a_name d) = false) -> opt (T d l) = T d (map opt l).
  Proof. intros H. destruct l as [|x [|y l]]; cbn [opt]; [reflexivity| |reflexivity]. now rewrite H. Qed.
  Lemma opt_drop d x : opt_name mode rules (a_name d) = true -> opt (T d [x]) = T (merged d (t_data (opt x))) (t_nodes (opt x)).
  Proof. intros H. cbn [opt]. rewrite H. now destruct (opt x). Qed.
  (** Every tree is of one of the two kinds. *)
  Lemma opt_cases d (l : list tree) :
    (List.length l = 1 -> opt_name mode rules (a_name d) = false) \/ (exists x, l = [x] /\ opt_name mode rules (a_name d) = true).
  Proof.
    destruct l as [|x [|y l]]; [now left| |now left]. destruct (opt_name mode rules (a_name d)); [right; eauto|now left].
  Qed.

  (** ** The heap *)
  Lemma put_same h a c x : nth_error h a = Some x -> nth_error (put_cell h a c) a = Some c.
  Proof. revert a; induction h as [|y h IH]; intros [|a]; cbn; try discriminate; auto. Qed.
  Lemma put_other h a c b : b <> a -> nth_error (put_cell h a c) b = nth_error h b.
  Proof. revert a b; induction h as [|y h IH]; intros [|a] [|b] Hn; cbn; auto; congruence. Qed.
  Lemma put_length h a c : List.length (put_cell h a c) = List.length h.
  Proof. revert a; induction h as [|y h IH]; intros [|a]; cbn; auto. Qed.

  Definition ext (h h' : heap) : Prop := List.length h <= List.length h' /\ forall x, x < List.length h -> nth_error h' x = nth_error h x.
  Lemma ext_refl h : ext h h. Proof. now split. Qed.
  Lemma ext_trans h1 h2 h3 : ext h1 h2 -> ext h2 h3 -> ext h1 h3.
  Proof. intros [L1 H1] [L2 H2]. split; [lia|]. intros x Hx. rewrite H2 by lia. now apply H1. Qed.
  Lemma ext_alloc h c : ext h (h ++ [c]).
  Proof. split; [rewrite app_length; lia|]. intros x Hx. now rewrite nth_error_app1. Qed.
  Lemma ext_put h0 h a c : ext h0 h -> List.length h0 <= a -> ext h0 (put_cell h a c).
  Proof. intros [L H0] Ha. split; [now rewrite put_length|]. intros x Hx. rewrite put_other by lia. now apply H0. Qed.
  Lemma nth_lt (h : heap) a c : nth_error h a = Some c -> a < List.length h.
  Proof. intros E. apply nth_error_Some. congruence. Qed.

  Lemma tree_at_ext h h' : ext h h' -> forall t a, tree_at h a t -> tree_at h' a t.
  Proof.
    intros [_ He]. induction t as [d l IH] using tree_ind'. intros a Ht. inversion Ht as [a' c ts Hc Hf]; subst.
    constructor; [rewrite He; [assumption|now apply nth_lt in Hc]|].
    clear Hc Ht. remember (n_nodes c) as ns eqn:En; clear En. revert ns Hf.
    induction IH as [|x l Hx _ IHl]; intros ns Hf; inversion Hf; subst; constructor; auto.
  Qed.

  Scheme linked_mut := Induction for linked Sort Prop with linkeds_mut := Induction for linkeds Sort Prop.
  Combined Scheme linked_both from linked_mut, linkeds_mut.

  Lemma linked_frame h h' :
    (forall a par t fp, linked h a par t fp -> (forall x, In x fp -> nth_error h' x = nth_error h x) -> linked h' a par t fp)
    /\ (forall ns a ts fp, linkeds h ns a ts fp -> (forall x, In x fp -> nth_error h' x = nth_error h x) -> linkeds h' ns a ts fp).
  Proof.
    apply (linked_both h
      (fun a par t fp _ => (forall x, In x fp -> nth_error h' x = nth_error h x) -> linked h' a par t fp)
      (fun ns a ts fp _ => (forall x, In x fp -> nth_error h' x = nth_error h x) -> linkeds h' ns a ts fp)).
    - intros a par d ns ts fp Hc _ IH He. econstructor; [rewrite He; [eassumption|now left]|]. apply IH. intros x Hx. apply He. now right.
    - constructor.
    - intros a n ns t ts fp1 fp2 _ IH1 _ IH2 He. constructor; [apply IH1|apply IH2]; intros x Hx; apply He, in_app_iff; auto.
  Qed.

  (** Giving the root another parent. *)
  Lemma reparent h a par t fp p : linked h a par t fp -> NoDup fp ->
    exists c, nth_error h a = Some c /\
      linked (put_cell h a {| n_data := n_data c; n_nodes := n_nodes c; n_parent := p |}) a p t fp.
  Proof.
    intros Hl Hn. inversion Hl as [a' par' d ns ts fp' Hc Hk]; subst. eexists; split; [exact Hc|]. cbn [n_data n_nodes].
    inversion Hn as [|? ? Hi _]; subst. econstructor; [eapply put_same, Hc|].
    eapply (proj2 (linked_frame h _)); [exact Hk|]. intros x Hx. apply put_other. congruence.
  Qed.
  Lemma NoDup_app_l {A} (l1 l2 : list A) : NoDup (l1 ++ l2) -> NoDup l1 /\ NoDup l2 /\ (forall x, In x l1 -> In x l2 -> False).
  Proof.
    induction l1 as [|x l1 IH]; cbn; intros Hn; [repeat split; [constructor|assumption|contradiction]|].
    inversion Hn as [|? ? Hx Hr]; subst. destruct (IH Hr) as (H1 & H2 & H3). repeat split; auto.
    - constructor; auto. intros Hi. apply Hx, in_app_iff. auto.
    - intros y [->|Hy] Hy2; [apply Hx, in_app_iff; auto|eauto].
  Qed.
  Lemma NoDup_app_mk {A} (l1 l2 : list A) : NoDup l1 -> NoDup l2 -> (forall x, In x l1 -> In x l2 -> False) -> NoDup (l1 ++ l2).
  Proof.
    induction 1 as [|x l1 Hx Hn IH]; intros H2 Hd; [assumption|]. cbn. constructor.
    - rewrite in_app_iff. intros [Hi|Hi]; [auto|]. apply (Hd x); [now left|assumption].
    - apply IH; [assumption|]. intros y Hy. apply Hd. now right.
  Qed.
  Lemma root_in h a par t fp : linked h a par t fp -> In a fp.
  Proof. inversion 1; subst. now left. Qed.

  Lemma set_parents_ok p : forall ns h a ts fp, linkeds h ns a ts fp -> NoDup fp ->
    exists h', set_parents h ns p = Ok h' /\ linkeds h' ns p ts fp /\ List.length h' = List.length h
      /\ forall x, ~ In x fp -> nth_error h' x = nth_error h x.
  Proof.
    induction ns as [|n ns IH]; intros h a ts fp Hl Hn; inversion Hl; subst; cbn [set_parents].
    - exists h. repeat split; auto. constructor.
    - match goal with H1 : linked _ _ _ _ _, H2 : linkeds _ _ _ _ _ |- _ => rename H1 into Hk, H2 into Hks end.
      destruct (NoDup_app_l _ _ Hn) as (N1 & N2 & Hd).
      destruct (reparent _ _ _ _ _ (Some p) Hk N1) as (c & Hc & Hk'). unfold get_cell. rewrite Hc. cbn [bind].
      set (h1 := put_cell h n {| n_data := n_data c; n_nodes := n_nodes c; n_parent := Some p |}) in *.
      destruct (IH h1 a _ _ (proj2 (linked_frame h h1) _ _ _ _ Hks (fun x Hx => put_other _ _ _ _ (fun e => Hd x (eq_ind_r (fun y => In y fp1) (root_in _ _ _ _ _ Hk) e) Hx))) N2)
        as (h' & E' & L' & Len & Ho).
      exists h'. rewrite E'. split; [reflexivity|]. split.
      + constructor; [|assumption]. eapply (proj1 (linked_frame h1 h')); [exact Hk'|]. intros x Hx. apply Ho. eauto.
      + split; [rewrite Len; apply put_length|]. intros x Hx. rewrite in_app_iff in Hx. rewrite Ho by tauto.
        apply put_other. intros ->. apply Hx. left. eapply root_in; eassumption.
  Qed.

  Definition fresh (lo hi : nat) (fp : list addr) : Prop := NoDup fp /\ Forall (fun x => lo <= x < hi) fp.

  Definition done (t : tree) : Prop := forall h a par, tree_at h a t ->
    exists f0 h' b fp, (forall f, f0 <= f -> optimize mode rules f h a par = Ok (h', b))
      /\ ext h h' /\ linked h' b par (opt t) fp /\ fresh (List.length h) (List.length h') fp.

  Lemma linkeds_snoc h a n t fp1 : forall ns ts fp, linkeds h ns a ts fp -> linked h n (Some a) t fp1 ->
    linkeds h (ns ++ [n]) a (ts ++ [t]) (fp ++ fp1).
  Proof.
    induction ns as [|m ns IH]; intros ts fp Hl Hk; inversion Hl; subst; cbn.
    - rewrite <- (app_nil_r fp1). repeat constructor. assumption.
    - rewrite <- app_assoc. constructor; auto.
  Qed.

  Lemma children_ok h0 ast (d : adata) par : forall l, Forall done l -> forall h ns dn ts fp,
    Forall2 (tree_at h0) ns l -> ext h0 h -> List.length h0 <= ast ->
    nth_error h ast = Some {| n_data := d; n_nodes := dn; n_parent := par |} ->
    linkeds h dn ast ts fp -> fresh (S ast) (List.length h) fp ->
    exists f0 h' dn' fp', (forall f, f0 <= f -> children mode rules f h ns ast = Ok h')
      /\ ext h0 h' /\ nth_error h' ast = Some {| n_data := d; n_nodes := dn'; n_parent := par |}
      /\ linkeds h' dn' ast (ts ++ map opt l) fp' /\ fresh (S ast) (List.length h') fp'
      /\ List.length h <= List.length h'.
  Proof.
    induction 1 as [|t l Ht _ IH]; intros h ns dn ts fp Hns He Ha Hc Hl Hf; inversion Hns; subst.
    - exists 1, h, dn, fp. split; [intros [|f] Hle; [lia|reflexivity]|]. cbn [map]. rewrite app_nil_r. split; [assumption|]. split; [assumption|]. split; [assumption|]. split; [assumption|lia].
    - match goal with H1 : tree_at h0 ?x t, H2 : Forall2 _ ?l' l |- _ => rename H1 into Hx, H2 into Hns', x into n, l' into ns' end.
      destruct (Ht h n (Some ast) (tree_at_ext _ _ He _ _ Hx)) as (f1 & h1 & b & fp1 & Ho & He1 & Hl1 & [N1 F1]).
      assert (Hast : ast < List.length h) by (eapply nth_lt, Hc).
      assert (Hc1 : nth_error h1 ast = Some {| n_data := d; n_nodes := dn; n_parent := par |}) by (rewrite (proj2 He1); assumption).
      destruct Hf as [N0 F0].
      set (h2 := put_cell h1 ast {| n_data := d; n_nodes := dn ++ [b]; n_parent := par |}).
      assert (Hl2 : linkeds h2 (dn ++ [b]) ast (ts ++ [opt t]) (fp ++ fp1)).
      { apply linkeds_snoc.
        - eapply (proj2 (linked_frame h h2)); [exact Hl|]. intros x Hx'. rewrite Forall_forall in F0. specialize (F0 _ Hx'). unfold h2. rewrite put_other by lia. apply He1. lia.
        - eapply (proj1 (linked_frame h1 h2)); [exact Hl1|]. intros x Hx'. rewrite Forall_forall in F1. specialize (F1 _ Hx'). unfold h2. apply put_other. lia. }
      destruct He1 as [Le1 He1].
      destruct (IH h2 ns' (dn ++ [b]) (ts ++ [opt t]) (fp ++ fp1)) as (f2 & h' & dn' & fp' & Hch & He' & Hc' & Hl' & Hf' & Le'); auto.
      + apply ext_put; [|assumption]. eapply ext_trans; [exact He|now split].
      + eapply put_same, Hc1.
      + rewrite Forall_forall in F0, F1. split.
        * apply NoDup_app_mk; auto. intros x H0 H1. specialize (F0 _ H0). specialize (F1 _ H1). lia.
        * unfold h2. rewrite put_length. apply Forall_app; split; apply Forall_forall; intros x Hx'; [specialize (F0 _ Hx')|specialize (F1 _ Hx')]; lia.
      + exists (S (max f1 f2)), h', dn', fp'. split.
        { intros [|f] Hle; [lia|]. cbn [children]. rewrite Ho by lia. cbn [bind]. unfold get_cell. rewrite Hc1. cbn [bind n_data n_nodes n_parent].
          apply Hch. lia. }
        cbn [map]. rewrite <- app_assoc in Hl'. cbn in Hl'. unfold h2 in Le'. rewrite put_length in Le'.
        split; [assumption|]. split; [assumption|]. split; [assumption|]. split; [assumption|lia].
  Qed.

  Lemma copy_ok h c l par : Forall done l -> Forall2 (tree_at h) (n_nodes c) l ->
    exists f0 h' b fp, (forall f, f0 <= f -> copy mode rules f h c par = Ok (h', b))
      /\ ext h h' /\ linked h' b par (T (n_data c) (map opt l)) fp /\ fresh (List.length h) (List.length h') fp.
  Proof.
    intros Hd Hf.
    set (h1 := h ++ [{| n_data := n_data c; n_nodes := []; n_parent := par |}]).
    destruct (children_ok h (List.length h) (n_data c) par l Hd h1 (n_nodes c) [] [] []) as (f0 & h' & dn & fp & Hch & He & Hc & Hl & [Nn Ff] & Le); auto.
    - apply ext_alloc.
    - unfold h1. rewrite nth_error_app2, Nat.sub_diag by lia. reflexivity.
    - constructor.
    - split; constructor.
    - exists (S f0), h', (List.length h), (List.length h :: fp). split.
      { intros [|f] Hle; [lia|]. cbn [copy alloc]. fold h1. rewrite Hch by lia. reflexivity. }
      split; [assumption|]. split; [econstructor; eassumption|]. rewrite Forall_forall in Ff. split.
      + constructor; [|assumption]. intros Hi. specialize (Ff _ Hi). lia.
      + apply nth_lt in Hc. constructor; [lia|]. apply Forall_forall. intros x Hx. specialize (Ff _ Hx). lia.
  Qed.

  Theorem optimize_ok : forall t, done t.
  Proof.
    induction t as [d l IH] using tree_ind'. intros h a par Ht. inversion Ht as [a' c ts Hc Hf]; subst.
    destruct (opt_cases (n_data c) l) as [Hk|(x & -> & Hk)].
    - destruct (copy_ok h c l par IH Hf) as (f0 & h' & b & fp & Ho & Hr). rewrite opt_keep by assumption.
      exists (S f0), h', b, fp. split; [|exact Hr]. intros [|f] Hle; [lia|]. cbn [optimize]. unfold get_cell. rewrite Hc. cbn [bind].
      assert (Hlen : List.length (n_nodes c) = List.length l) by (clear - Hf; induction Hf; cbn; congruence). specialize (Ho f ltac:(lia)).
      destruct (n_nodes c) as [|n [|n' ns]]; auto. rewrite Hk by (now rewrite <- Hlen). exact Ho.
    - inversion IH as [|? ? Hx _]; subst. inversion Hf as [|n ? ns ? Hn Hns En]; subst. inversion Hns; subst.
      destruct (Hx h n par Hn) as (f1 & h1 & b & fp & Ho & He & Hl & [Nn Ff]).
      rewrite opt_drop by assumption. inversion Hl as [b' par' d' ns' ts' fp' Hb Hks Et Ef]. subst. rewrite <- En in *. cbn [t_data t_nodes].
      inversion Nn as [|? ? Hnb Nn']; subst. inversion Ff as [|? ? Fb Ff']; subst. rewrite Forall_forall in Ff'.
      set (ce := {| n_data := merged (n_data c) d'; n_nodes := ns'; n_parent := par |}).
      assert (Hks2 : linkeds (h1 ++ [ce]) ns' b ts' fp').
      { eapply (proj2 (linked_frame h1 _)); [exact Hks|]. intros x' Hx'. apply nth_error_app1. specialize (Ff' _ Hx'). lia. }
      destruct (set_parents_ok (List.length h1) _ _ _ _ _ Hks2 Nn') as (h3 & Es & Hl3 & Len3 & Hoth).
      rewrite app_length in Len3. cbn in Len3.
      exists (S f1), h3, (List.length h1), (List.length h1 :: fp'). split.
      { intros [|f] Hle; [lia|]. cbn [optimize]. unfold get_cell at 1. rewrite Hc. cbn [bind]. rewrite <- En, Hk.
        rewrite Ho by lia. cbn [bind]. unfold get_cell. rewrite Hb. cbn [bind n_data n_nodes n_parent alloc]. fold (merged (n_data c) d'). fold ce. rewrite Es. reflexivity. }
      split; [|split].
      + destruct He as [Le He]. split; [lia|]. intros x' Hx'. rewrite Hoth; [rewrite nth_error_app1 by lia; auto|].
        intros Hi. specialize (Ff' _ Hi). lia.
      + econstructor; [|exact Hl3]. rewrite Hoth; [rewrite nth_error_app2, Nat.sub_diag by lia; reflexivity|]. intros Hi. specialize (Ff' _ Hi). lia.
      + destruct He as [Le He]. split.
        * constructor; [|assumption]. intros Hi. specialize (Ff' _ Hi). lia.
        * constructor; [lia|]. apply Forall_forall. intros x' Hx'. specialize (Ff' _ Hx'). lia.
  Qed.

  (** ** What remains *)
  Lemma opt_name_spec name : opt_name mode rules name = true <-> concerned mode rules name.
  Proof.
    unfold opt_name, concerned. assert (E : existsb (bytes_eqb name) rules = true <-> In name rules).
    { rewrite existsb_exists. split; [intros (x & Hx & E); apply bytes_eqb_eq in E; now subst|]. intros Hi. exists name. split; [assumption|now apply bytes_eqb_eq]. }
    destruct mode; [|assumption]. destruct (existsb (bytes_eqb name) rules); cbn [negb]; split; intros Hx; [discriminate| | |reflexivity].
    - exfalso. apply Hx. now apply E.
    - intros Hi. apply E in Hi. discriminate.
  Qed.
  Definition removableb (t : tree) : bool := opt_name mode rules (a_name (t_data t)) && (List.length (t_nodes t) =? 1).
  Lemma removableb_spec t : removableb t = true <-> removable mode rules t.
  Proof. unfold removableb, removable. rewrite andb_true_iff, opt_name_spec, Nat.eqb_eq. reflexivity. Qed.

  Definition kept' := kept mode rules.
  Lemma dec_true name : opt_name mode rules name = true -> exists H, concerned_dec mode rules name = left H.
  Proof. intros E. apply opt_name_spec in E. destruct (concerned_dec mode rules name); [eauto|contradiction]. Qed.
  Lemma dec_false name : opt_name mode rules name = false -> exists H, concerned_dec mode rules name = right H.
  Proof. intros E. destruct (concerned_dec mode rules name) as [Hc|]; [|eauto]. pose proof (proj2 (opt_name_spec name) Hc). congruence. Qed.
  Lemma kept_keep top d l : (List.length l = 1 -> opt_name mode rules (a_name d) = false) ->
    kept mode rules top (T d l) = (top, T d l) :: flat_map (kept mode rules None) l.
  Proof.
    intros H. destruct l as [|x [|y l]]; cbn [kept]; [reflexivity| |reflexivity].
    destruct (dec_false _ (H eq_refl)) as [? ->]. cbn [flat_map]. now rewrite app_nil_r.
  Qed.
  Lemma kept_drop top d x : opt_name mode rules (a_name d) = true ->
    kept mode rules top (T d [x]) = kept mode rules (match top with Some _ => top | None => Some (T d [x]) end) x.
  Proof. intros H. cbn [kept]. now destruct (dec_true _ H) as [? ->]. Qed.

  Lemma kept_snd : forall t top, map snd (kept mode rules top t) = filter (fun x => negb (removableb x)) (nodes_of t).
  Proof.
    induction t as [d l IH] using tree_ind'. intros top. destruct (opt_cases d l) as [Hk|(x & -> & Hk)].
    - rewrite kept_keep by assumption. cbn [nodes_of map snd filter].
      assert (Hr : removableb (T d l) = false).
      { unfold removableb. cbn [t_data t_nodes]. apply andb_false_iff. destruct (List.length l =? 1) eqn:E; [|now right]. apply Nat.eqb_eq in E. left. auto. }
      rewrite Hr. cbn [negb]. f_equal. clear Hr Hk. induction IH as [|y l Hy _ IHl]; [reflexivity|]. cbn [flat_map]. now rewrite map_app, filter_app, Hy, IHl.
    - rewrite kept_drop by assumption. inversion IH as [|? ? Hx _]; subst. rewrite Hx. cbn [nodes_of filter flat_map]. rewrite app_nil_r.
      unfold removableb at 2. cbn [t_data t_nodes List.length]. now rewrite Hk.
  Qed.

  Definition wrap (top : option tree) (u : tree) : tree :=
    match top with None => u | Some tp => T (merged (t_data tp) (t_data u)) (t_nodes u) end.
  Lemma merged_merged a b d : merged a (merged b d) = merged a d.
  Proof. unfold merged, ast_merge. cbn. now destruct (a_preserve_position d). Qed.
  Definition attrs (t : tree) := (ident t, span t, (origin t, a_original_tag (t_data t))).
  Lemma opt_kept : forall t top,
    map attrs (nodes_of (wrap top (opt t))) = map (fun k => (ident (snd k), kept_span k, kept_origin k)) (kept mode rules top t).
  Proof.
    induction t as [d l IH] using tree_ind'. intros top. destruct (opt_cases d l) as [Hk|(x & -> & Hk)].
    - rewrite kept_keep, opt_keep by assumption. cbn [map snd]. 
      assert (Hn : nodes_of (wrap top (T d (map opt l))) = wrap top (T d (map opt l)) :: flat_map nodes_of (map opt l)) by (destruct top; reflexivity).
      rewrite Hn. cbn [map]. f_equal.
      + unfold attrs, kept_span, kept_origin, ident, span, origin. destruct top as [tp|]; cbn; rewrite map_length; [|reflexivity].
        destruct (a_preserve_position d); reflexivity.
      + clear Hn Hk. induction IH as [|y l Hy _ IHl]; [reflexivity|]. cbn [map flat_map]. rewrite !map_app, IHl. f_equal. exact (Hy None).
    - rewrite kept_drop, opt_drop by assumption. inversion IH as [|? ? Hx _]; subst. rewrite <- Hx. f_equal. f_equal.
      destruct top as [tp|]; cbn [wrap t_data t_nodes]; [|reflexivity]. now rewrite merged_merged.
  Qed.

  Lemma opt_leaves : forall t, map ident (leaves (opt t)) = map ident (leaves t).
  Proof.
    induction t as [d l IH] using tree_ind'. destruct (opt_cases d l) as [Hk|(x & -> & Hk)].
    - rewrite opt_keep by assumption. clear Hk. destruct l as [|y l]; [reflexivity|].
      change (leaves (T d (map opt (y :: l)))) with (flat_map leaves (map opt (y :: l))). change (leaves (T d (y :: l))) with (flat_map leaves (y :: l)).
      induction IH as [|z m Hz _ IHl]; [reflexivity|]. cbn [map flat_map]. now rewrite !map_app, Hz, IHl.
    - rewrite opt_drop by assumption. inversion IH as [|? ? Hx _]; subst.
      transitivity (map ident (leaves x)); [|cbn [leaves flat_map]; now rewrite app_nil_r].
      rewrite <- Hx. destruct (opt x) as [d' [|y l']]; reflexivity.
  Qed.

  Lemma opt_clean : forall t, Forall (fun x => removableb x = false) (nodes_of (opt t)).
  Proof.
    induction t as [d l IH] using tree_ind'. destruct (opt_cases d l) as [Hk|(x & -> & Hk)].
    - rewrite opt_keep by assumption. cbn [nodes_of]. constructor.
      + unfold removableb. cbn [t_data t_nodes]. rewrite map_length. apply andb_false_iff. destruct (List.length l =? 1) eqn:E; [|now right]. apply Nat.eqb_eq in E. left. auto.
      + clear Hk. induction IH; cbn [map flat_map]; [constructor|]. now apply Forall_app.
    - rewrite opt_drop by assumption. inversion IH as [|? ? Hx _]; subst. destruct (opt x) as [d' l']. cbn [t_data t_nodes nodes_of] in *.
      inversion Hx; subst. constructor; assumption.
  Qed.
  Lemma opt_fix : forall t, Forall (fun x => removableb x = false) (nodes_of t) -> opt t = t.
  Proof.
    induction t as [d l IH] using tree_ind'. cbn [nodes_of]. intros Hf. inversion Hf as [|? ? Hr Hf']; subst. rewrite opt_keep.
    - f_equal. clear Hf Hr. induction IH as [|y l Hy _ IHl]; [reflexivity|]. cbn [flat_map] in Hf'. apply Forall_app in Hf' as [H1 H2]. cbn [map]. now rewrite Hy, IHl.
    - intros E. unfold removableb in Hr. cbn [t_data t_nodes] in Hr. rewrite E in Hr. now rewrite andb_true_r in Hr.
  Qed.
  Lemma opt_idem t : opt (opt t) = opt t.
  Proof. apply opt_fix, opt_clean. Qed.

  Definition inside (u t : tree) : Prop :=
    a_position (t_data t) <= a_position (t_data u)
    /\ a_position (t_data u) + a_length (t_data u) <= a_position (t_data t) + a_length (t_data t).
  Lemma in_order_inside : forall l l', Forall2 inside l' l -> forall lo lo' hi hi', lo' <= lo -> hi <= hi' -> in_order lo hi l -> in_order lo' hi' l'.
  Proof.
    intros l l' H. induction H as [|u t l' l [H1 H2] _ IH]; cbn [in_order]; intros lo lo' hi hi' Hl Hh Ho; [lia|].
    destruct Ho as [Ha Hb]. split; [lia|]. eapply IH; [| |exact Hb]; lia.
  Qed.
  Lemma inside_refl t : inside t t. Proof. split; lia. Qed.
  Lemma in_order_le : forall l lo hi, in_order lo hi l -> lo <= hi.
  Proof. induction l as [|x l IH]; cbn; intros lo hi Ho; [assumption|]. destruct Ho as [H1 H2]. apply IH in H2. lia. Qed.
  Lemma opt_nested : forall t, nested t -> nested (opt t) /\ inside (opt t) t.
  Proof.
    induction t as [d l IH] using tree_ind'. unfold nested. cbn [nodes_of]. intros Hf. inversion Hf as [|? ? Hr Hf']; subst. cbn [t_data t_nodes] in Hr.
    destruct (opt_cases d l) as [Hk|(x & -> & Hk)].
    - rewrite opt_keep by assumption. split; [|split; cbn; lia]. cbn [nodes_of].
      assert (Hi : Forall2 inside (map opt l) l /\ Forall (fun x => in_order (a_position (t_data x)) (a_position (t_data x) + a_length (t_data x)) (t_nodes x)) (flat_map nodes_of (map opt l))).
      { clear Hk Hf Hr. induction IH as [|y l Hy _ IHl]; [split; constructor|]. cbn [flat_map map] in *. apply Forall_app in Hf' as [H1 H2].
        destruct (Hy H1) as [H3 H4]. destruct (IHl H2) as [H5 H6]. split; [now constructor|]. apply Forall_app. split; assumption. }
      destruct Hi as [Hi Hn]. constructor; [|exact Hn]. cbn [t_data t_nodes]. eapply in_order_inside; [exact Hi| | |exact Hr]; lia.
    - rewrite opt_drop by assumption. inversion IH as [|? ? Hx _]; subst. cbn [flat_map] in Hf'. rewrite app_nil_r in Hf'.
      destruct (Hx Hf') as [Hn [Hp Hq]]. cbn [in_order] in Hr. destruct Hr as [Hr1 Hr2].
      destruct (opt x) as [d' l'] eqn:Ex. cbn [t_data t_nodes] in *. unfold nested in Hn. cbn [nodes_of] in Hn. inversion Hn as [|? ? Hn1 Hn2]; subst. cbn [t_data t_nodes] in Hn1.
      split; [constructor; [|exact Hn2]|]; unfold inside; cbn [t_data t_nodes merged ast_merge a_position a_length]; destruct (a_preserve_position d').
      + exact Hn1.
      + eapply (in_order_inside l' l'); [|  | |exact Hn1]; [clear; induction l'; constructor; auto using inside_refl|lia|lia].
      + lia.
      + lia.
  Qed.
End Opt.
