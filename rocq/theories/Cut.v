(** * A cut stays in force until the choice it belongs to is left (C21). *)
From Verif Require Import Base BaseLemmas Utf8 Escape TrieM LineInfo Ope Ctx ErrLog Engine EngineLemmas Frame Scope EngineSpec.

Lemma nolabel_find_reference params args o : forall o',
  forallb nolabel args = true -> nolabel o = true -> find_reference params args o = Ok o' -> nolabel o' = true.
Proof.
  induction o using ope_ind'; intros o' Ha Hn H'; cbn [nolabel] in Hn;
  try (rewrite find_reference_seq in H'); try (rewrite find_reference_cho in H');
  cbn [find_reference] in H'; try (inv H'; assumption || reflexivity).
  - binv H'. inv H'. cbn [nolabel]. revert a Hm. induction H as [|x l Hx Hl IH]; intros a Hm; cbn in Hm.
    + inv Hm. reflexivity.
    + binv Hm. binv Hm. inv Hm. cbn in *. apply andb_prop in Hn as [A B].
      apply andb_true_intro. split; [now apply Hx|now apply IH].
  - binv H'. inv H'. cbn [nolabel negb andb]. apply andb_prop in Hn as [_ Hn].
    revert a Hm. induction H as [|x l Hx Hl IH]; intros a Hm; cbn in Hm.
    + inv Hm. reflexivity.
    + binv Hm. binv Hm. inv Hm. cbn in *. apply andb_prop in Hn as [A B].
      apply andb_true_intro. split; [now apply Hx|now apply IH].
  - binv H'. inv H'. cbn. eauto.
  - binv H'. inv H'. cbn. eauto.
  - binv H'. inv H'. cbn. eauto.
  - binv H'. inv H'. cbn. eauto.
  - binv H'. inv H'. cbn. eauto.
  - binv H'. inv H'. cbn. eauto.
  - binv H'. inv H'. cbn. eauto.
  - binv H'. destruct a as [a|]; inv H'.
    + apply find_param_in in Hm. rewrite forallb_forall in Ha. now apply Ha.
    + exact Hn.
  - binv H'. inv H'. cbn. eauto.
  - apply andb_prop in Hn as [A B]. binv H'. inv H'. cbn. eauto.
  - binv H'. inv H'. cbn. eauto.
Qed.
Lemma nolabel_subst_args params top l : forall l',
  forallb nolabel top = true -> forallb nolabel l = true -> subst_args params top l = Ok l' ->
  forallb nolabel l' = true.
Proof.
  induction l as [|a l IH]; intros l' Ht Hl H; cbn [subst_args] in H.
  - inv H. reflexivity.
  - cbn in Hl. apply andb_prop in Hl as [A B]. binv H. binv H. inv H. cbn.
    apply andb_true_intro. split; [eapply nolabel_find_reference; [| |exact Hm]; assumption|now apply IH].
Qed.

Section Cut.
  Context {V U : Type}.
  Notation env := (env V U).
  Notation ctx := (ctx V U).
  Notation sv := (sv V).
  Implicit Types (E : env) (c : ctx) (vs : sv).

  Definition sticky c c' : Prop := cut_top c = true -> cut_top c' = true.
  Lemma sticky_refl c : sticky c c.
  Proof. intros H. exact H. Qed.
  Lemma sticky_trans a b c : sticky a b -> sticky b c -> sticky a c.
  Proof. unfold sticky. auto. Qed.
  (** No choice for a label anywhere in the grammar. *)
  Record nolabels E : Prop := {
    nl_rule : forall r d body, nth_error (e_g E) r = Some d -> r_body d = Some body -> nolabel body = true;
    nl_ws : forall w, e_ws E = Some w -> nolabel w = true
  }.
  Definition nlargs c : Prop := forallb (forallb nolabel) (c_args c) = true.
  Definition rec_sticky (rec : rec_t) : Prop :=
    forall E o pos vs c r vs' c', nolabels E -> nlargs c -> nolabel o = true ->
    rec E o pos vs c = Ok (r, vs', c') -> sticky c c'.

  Lemma nlargs_frame c c' : frame c c' -> nlargs c -> nlargs c'.
  Proof. intros [] H. unfold nlargs. now rewrite f_args. Qed.
  Lemma nlargs_top c : nlargs c -> forallb nolabel (top_args c) = true.
  Proof. unfold nlargs, top_args. destruct (c_args c); [reflexivity|]. cbn. now intros [? ?]%andb_prop. Qed.

  Lemma cutv c c' : c_cut c' = c_cut c -> sticky c c'.
  Proof. unfold sticky, cut_top. now intros ->. Qed.
  Lemma cut_error E pos l c : c_cut (set_error_pos E pos l c) = c_cut c.
  Proof.
    unfold set_error_pos. destruct (c_log c); [|reflexivity]. destruct (ole _ _); [|reflexivity].
    cbv zeta. destruct (match l with Some _ => _ | None => _ end), (error_rule_of _ _ _); reflexivity.
  Qed.
  Lemma sticky_settrue c : sticky c (set_cut_top true c).
  Proof. unfold sticky, set_cut_top, cut_top. destruct (c_cut c) eqn:H; [now rewrite H|]. reflexivity. Qed.
  Lemma cut_action E r vs pd c : c_cut (snd (run_action E r vs pd c)) = c_cut c.
  Proof. unfold run_action. cbv zeta. destruct (e_action E r) as [f|]; [|reflexivity]. destruct (f _ _ _ _). reflexivity. Qed.
  Lemma cut_reduce E r d vs pd c : c_cut (snd (reduce E r d vs pd c)) = c_cut c.
  Proof. unfold reduce. destruct (_ && _); [apply cut_action|reflexivity]. Qed.
  Lemma cut_write E pos r len val c : c_cut (write_packrat_cache E pos r len val c) = c_cut c.
  Proof.
    unfold write_packrat_cache. destruct (e_packrat E); [|reflexivity]. destruct (e_slot E r); [|reflexivity].
    cbv zeta. destruct (_ <? _); [|reflexivity]. destruct (_ <? _)%N; [reflexivity|]. destruct val; reflexivity.
  Qed.
  Lemma cut_clear E pos r c : c_cut (clear_packrat_cache E pos r c) = c_cut c.
  Proof.
    unfold clear_packrat_cache. destruct (e_packrat E); [|reflexivity]. destruct (e_slot E r); [|reflexivity].
    cbv zeta. destruct (_ <? _); reflexivity.
  Qed.
  Lemma cut_fs_error fs id pos c : c_cut (fs_error fs id pos c) = c_cut c.
  Proof.
    unfold fs_error. destruct (nth_error fs id) as [f|]; [|reflexivity].
    destruct (fs_first_literal f), (fs_first_rule f); try reflexivity;
    destruct (c_log c && ole _ _); reflexivity.
  Qed.

  Section Ops.
    Variable rec : @rec_t V U.
    Hypothesis Hrec : rec_sticky rec.
    Hypothesis Hfr : rec_frame rec.

    Lemma st_then E pos len vs c r vs' c' : nolabels E -> nlargs c ->
      then_skip E rec pos len vs c = Ok (r, vs', c') -> sticky c c'.
    Proof.
      intros HE Hc H. unfold then_skip in H. binv H. inv H. unfold skip_whitespace in Hm.
      destruct (e_ws E) as [w|] eqn:Hw; [|inv Hm; apply sticky_refl].
      destruct (0 <? c_tb c); [inv Hm; apply sticky_refl|]. binv Hm. inv Hm.
      apply Hrec in Hm0; auto. eapply nl_ws; eauto.
    Qed.
    Lemma st_lit E l ic pos vs c r vs' c' : nolabels E -> nlargs c ->
      parse_literal E rec l ic pos vs c = Ok (r, vs', c') -> sticky c c'.
    Proof.
      intros HE Hc H. unfold parse_literal in H. binv H. destruct a.
      - binv H. destruct a; [eapply st_then; eauto|]. inv H. apply cutv, cut_error.
      - inv H. apply cutv, cut_error.
    Qed.
    Lemma st_dic E t pos vs c r vs' c' : nolabels E -> nlargs c ->
      parse_dic E rec t pos vs c = Ok (r, vs', c') -> sticky c c'.
    Proof.
      intros HE Hc H. unfold parse_dic in H. destruct (trie_match _ _). destruct (n =? 0).
      { inv H. apply cutv, cut_error. }
      cbv zeta in H. binv H. destruct a; [eapply st_then; eauto|]. inv H. apply cutv, cut_error.
    Qed.
    Lemma st_seq_loop E l : nolabels E -> forallb nolabel l = true -> forall pos i vs c r vs' c', nlargs c ->
      seq_loop E rec l pos i vs c = Ok (r, vs', c') -> sticky c c'.
    Proof.
      intros HE. induction l as [|o l IH]; intros Hn pos i vs c r vs' c' Hc H; cbn [seq_loop] in H.
      - inv H. apply sticky_refl.
      - cbn in Hn. apply andb_prop in Hn as [A B]. binv H. pose proof (Hfr _ _ _ _ _ _ _ _ Hm) as F. apply Hrec in Hm; auto.
        destruct r0; [|inv H; assumption]. eapply sticky_trans; [exact Hm|].
        eapply IH; eauto. eapply nlargs_frame; eauto.
    Qed.
    Lemma st_seq E kg l pos vs c r vs' c' : nolabels E -> nlargs c -> forallb nolabel l = true ->
      parse_seq E rec kg l pos vs c = Ok (r, vs', c') -> sticky c c'.
    Proof.
      intros HE Hc Hn H. unfold parse_seq in H. destruct kg as [kw|]; [|eapply st_seq_loop; eauto].
      binv H. destruct a as [x|]; [|eapply st_seq_loop; eauto]. inv H.
      unfold parse_keyword_guarded in Hm. destruct (_ <? 1); [inv Hm; apply cutv, cut_error|].
      binv Hm. destruct (btest _ _); [|inv Hm; apply cutv, cut_error]. binv Hm. cbv zeta in Hm.
      assert (Hg : forall vs1, bind (then_skip E rec pos (S a0) vs1 c) (fun r0 => Ok (Some r0)) = Ok (Some (r, vs', c')) -> sticky c c').
      { intros vs1 Hx. apply bind_Ok in Hx as (q & Hq & Hx). inv Hx. eapply st_then; eauto. }
      destruct (_ && _); [|eapply Hg; exact Hm].
      destruct (existsb _ (kg_exact kw)); [inv Hm; apply cutv, cut_error|].
      destruct (existsb _ (kg_prefix kw)); [discriminate|]. eapply Hg; exact Hm.
    Qed.
    (** Inside a choice the cut flag belongs to the choice. *)
    Lemma st_cho E fs l pos vs c r vs' c' : nolabels E -> nlargs c -> forallb nolabel l = true ->
      parse_cho E rec false fs l pos vs c = Ok (r, vs', c') -> sticky c c'.
    Proof.
      intros HE Hc Hn H. unfold parse_cho in H. rewrite andb_true_r in H. cbv zeta in H. binv H. inv H.
      destruct (e_has_cut E) eqn:Hcut.
      - apply (frame_cho_loop rec Hfr) in Hm. destruct Hm as [? ? ? ? ? ? ? _ Ht ? ?]. csimpl. unfold sticky, cut_top. csimpl. now rewrite Ht.
      - assert (Hl : forall l, forallb nolabel l = true -> forall id vs c r vs' k, nlargs c ->
          cho_loop E rec fs (List.length l) l id pos vs c = Ok (r, vs', k) -> sticky c k).
        2:{ apply Hl in Hm; auto. }
        clear -HE Hrec Hfr Hcut. intros l0. generalize (List.length l0) as total.
        induction l0 as [|o l IH]; intros total Hn id vs c r vs' c' Hc H; cbn [cho_loop] in H.
        { inv H. apply sticky_refl. }
        cbn in Hn. apply andb_prop in Hn as [A B]. binv H. destruct a.
        + apply IH in H; auto.
          * eapply sticky_trans; [apply cutv, cut_fs_error|exact H].
          * unfold nlargs. replace (c_args (fs_error fs id pos c)) with (c_args c); [exact Hc|].
            pose proof (frame_fs_error fs id pos c) as F. symmetry. apply F.
        + rewrite Hcut in H. binv H. pose proof (Hfr _ _ _ _ _ _ _ _ Hm0) as F.
          apply Hrec in Hm0; auto.
          assert (Hs : sticky c k) by exact Hm0.
          destruct r0; [inv H; exact Hs|]. cbn [andb] in H. eapply IH in H; auto.
          * eapply sticky_trans; [exact Hs|exact H].
          * unfold nlargs, rollback_c. csimpl. rewrite (f_args _ _ F). exact Hc.
    Qed.
    Lemma st_rep fuel E e mn mx span pos vs c r vs' c' : nolabels E -> nlargs c -> nolabel e = true ->
      parse_rep fuel E rec e mn mx span pos vs c = Ok (r, vs', c') -> sticky c c'.
    Proof.
      intros HE Hc He H. unfold parse_rep in H. destruct span as [s|].
      { cbv zeta in H. binv H. destruct (_ <? _); inv H; [apply cutv, cut_error|apply sticky_refl]. }
      assert (H1 : forall m i vs c r vs' c', nlargs c -> rep_min E rec e m pos i vs c = Ok (r, vs', c') -> sticky c c' /\ nlargs c').
      { induction m as [|m IH]; intros i vs0 c0 r0 vs0' c0' Hc0 H0; cbn [rep_min] in H0.
        - inv H0. split; [apply sticky_refl|assumption].
        - binv H0. pose proof (Hfr _ _ _ _ _ _ _ _ Hm) as F. apply Hrec in Hm; auto.
          pose proof (nlargs_frame _ _ F Hc0). destruct r1; [|inv H0; auto].
          apply IH in H0 as [A B]; [|assumption]. split; [eapply sticky_trans; eauto|assumption]. }
      assert (H2 : forall fuel room i vs c r vs' c', nlargs c -> rep_more fuel E rec e room pos i vs c = Ok (r, vs', c') -> sticky c c').
      { induction fuel0 as [|m IH]; intros room i vs0 c0 r0 vs0' c0' Hc0 H0; cbn [rep_more] in H0.
        - destruct room as [[|?]|]; try discriminate. inv H0. apply sticky_refl.
        - assert (Hstep : bind (rec E e (pos + i) vs0 c0) (fun '(r, vs', c') =>
             match r with Some len => rep_more m E rec e (option_map pred room) pos (i + len) vs' c'
             | None => Ok (Some i, rollback_vs vs0 vs', rollback_c c0 c') end) = Ok (r0, vs0', c0') -> sticky c0 c0').
          { clear H0. intros H0. binv H0. pose proof (Hfr _ _ _ _ _ _ _ _ Hm) as F. apply Hrec in Hm; auto.
            destruct r1; [|inv H0; exact Hm]. eapply sticky_trans; [exact Hm|]. eapply IH; [|exact H0]. eapply nlargs_frame; eauto. }
          destruct room as [[|?]|]; [inv H0; apply sticky_refl| |]; apply Hstep; exact H0. }
      binv H. apply H1 in Hm as [A B]; [|assumption]. destruct r0; [|inv H; assumption].
      destruct mx as [x|].
      - destruct (mn <? x); [|inv H; assumption]. eapply sticky_trans; [exact A|]. eapply H2; eauto.
      - eapply sticky_trans; [exact A|]. eapply H2; eauto.
    Qed.
    Lemma st_tok E e pos vs c r vs' c' : nolabels E -> nlargs c -> nolabel e = true ->
      parse_tok E rec e pos vs c = Ok (r, vs', c') -> sticky c c'.
    Proof.
      intros HE Hc He H. unfold parse_tok in H. cbv zeta in H. binv H.
      pose proof (Hfr _ _ _ _ _ _ _ _ Hm) as F. apply Hrec in Hm; auto.
      assert (Hs : sticky c (set_tb (pred (c_tb k)) k)) by exact Hm.
      assert (Hn : nlargs (set_tb (pred (c_tb k)) k)).
      { unfold nlargs. csimpl. rewrite (f_args _ _ F). exact Hc. }
      destruct r0; [|inv H; exact Hs]. binv H. inv H. apply st_then in Hm0; auto.
      eapply sticky_trans; [exact Hs|]. exact Hm0.
    Qed.
    Lemma st_body E r d body pos vs c len vs' c' : nolabels E -> nlargs c -> nolabel body = true ->
      parse_ope_body E rec r d body pos vs c = Ok (len, vs', c') -> sticky c c'.
    Proof.
      intros HE Hc He H. unfold parse_ope_body in H. cbv zeta in H. binv H.
      set (c1 := if e_need_rules E || r_macro_ref d then set_rstk (r :: c_rstk c) c else c) in *.
      assert (H0 : sticky c c1 /\ nlargs c1) by (unfold c1; destruct (_ || _); split; auto; apply cutv; reflexivity).
      destruct H0 as [Hs Hn]. clearbody c1.
      assert (H1 : sticky c1 k).
      { destruct (r_no_whitespace d).
        - binv Hm. pose proof (Hfr _ _ _ _ _ _ _ _ Hm0) as F. apply Hrec in Hm0; auto.
          assert (Hs2 : sticky c1 (set_tb (pred (c_tb k0)) k0)) by exact Hm0.
          assert (Hn2 : nlargs (set_tb (pred (c_tb k0)) k0)).
          { unfold nlargs. csimpl. rewrite (f_args _ _ F). exact Hn. }
          destruct r1; [|inv Hm; exact Hs2]. apply st_then in Hm; auto. eapply sticky_trans; eauto.
        - apply Hrec in Hm; auto. }
      inv H. destruct (_ || _); eapply sticky_trans; eauto.
    Qed.
    Lemma st_do E r d body pos c len val c' : nolabels E -> nlargs c -> nolabel body = true ->
      do_parse E rec r d body pos c = Ok (len, val, c') -> sticky c c'.
    Proof.
      intros HE Hc He H. unfold do_parse in H. cbv zeta in H.
      set (c1 := match e_enter E r with Some f => _ | None => c end) in *.
      assert (H0 : sticky c c1 /\ nlargs c1) by (unfold c1; destruct (e_enter E r); split; auto; apply cutv; reflexivity).
      destruct H0 as [Hs Hn]. clearbody c1. binv H. apply st_body in Hm; auto.
      match type of H with (match ?x with _ => _ end) = _ => assert (H1 : sticky c (snd x)) end.
      { clear H. destruct r0 as [n|].
        - set (vs2 := if is_choice_like _ then _ else _). clearbody vs2. destruct (e_pred E r) as [p|].
          + destruct (p _ _ _) as [[ok msg] pd]. destruct ok.
            * destruct (c_rcv k); cbn [snd]; [eapply sticky_trans; eauto|].
              pose proof (cut_reduce E r d vs2 pd k) as Q. destruct (reduce E r d vs2 pd k) as [x y]. cbn [snd] in Q |- *.
              eapply sticky_trans; [|apply cutv; exact Q]. eapply sticky_trans; eauto.
            * cbn [snd]. destruct (_ && _); eapply sticky_trans; eauto.
          + destruct (c_rcv k); cbn [snd]; [eapply sticky_trans; eauto|].
            pose proof (cut_reduce E r d vs2 None k) as Q. destruct (reduce E r d vs2 None k) as [x y]. cbn [snd] in Q |- *.
            eapply sticky_trans; [|apply cutv; exact Q]. eapply sticky_trans; eauto.
        - cbn [snd]. destruct (_ && _); eapply sticky_trans; eauto. }
      match type of H with (match ?x with _ => _ end) = _ => destruct x as [[l1 v1] c3] end.
      cbn [snd] in H1. destruct (e_leave E r) as [g|].
      - destruct (g _ _ _ _ _) as [v2 dt]. inv H. exact H1.
      - inv H. exact H1.
    Qed.
    Definition fn_sticky (fn : ctx -> outcome (option nat * option V * ctx)) : Prop :=
      forall c len val c', nlargs c -> fn c = Ok (len, val, c') -> sticky c c'.
    Lemma st_packrat E pos r fn c len val c' : nlargs c -> fn_sticky fn ->
      packrat E pos r fn c = Ok (len, val, c') -> sticky c c'.
    Proof.
      intros Hc Hf H. unfold packrat in H. destruct (e_slot E r).
      - cbv zeta in H. destruct (_ <? _); [|discriminate]. destruct (nfind _ _) as [[|]|]; try (inv H; apply sticky_refl).
        binv H. inv H. apply Hf in Hm; [|exact Hc]. destruct len; [|exact Hm].
        eapply sticky_trans; [exact Hm|]. apply cutv, cut_write.
      - destruct (nfind _ _).
        + destruct (_ =? _); [inv H; apply sticky_refl|]. binv H. inv H. apply Hf in Hm; [|exact Hc]. exact Hm.
        + binv H. inv H. apply Hf in Hm; [|exact Hc]. exact Hm.
    Qed.
    Lemma st_guard pos r fn c len val c' : nlargs c -> fn_sticky fn ->
      guard pos r fn c = Ok (len, val, c') -> sticky c c'.
    Proof.
      intros Hc Hf H. unfold guard in H. destruct (lr_find _ _); [inv H; apply sticky_refl|].
      binv H. inv H. apply Hf in Hm; [|exact Hc]. exact Hm.
    Qed.
    Lemma st_grow fuel : forall E r d body cycle pos len val c len' val' c', nolabels E -> nlargs c -> nolabel body = true ->
      lr_grow fuel E rec r d body cycle pos len val c = Ok (len', val', c') -> sticky c c'.
    Proof.
      induction fuel as [|fuel IH]; intros E r d body cycle pos len val c len' val' c' HE Hc Hn H; cbn [lr_grow] in H; [discriminate|].
      cbv zeta in H. binv H. 
      set (c2 := clear_cycle pos r cycle (clear_packrat_cache E pos r c)) in *.
      assert (H0 : sticky c c2) by (apply cutv; unfold c2, clear_cycle; csimpl; apply cut_clear).
      assert (H1 : nlargs c2).
      { unfold nlargs, c2, clear_cycle. csimpl. pose proof (frame_clear E pos r c) as F. rewrite (f_args _ _ F). exact Hc. }
      clearbody c2. pose proof (frame_do_parse rec Hfr _ _ _ _ _ _ _ _ _ Hm) as F. apply st_do in Hm; auto.
      assert (H2 : sticky c k) by (eapply sticky_trans; eauto).
      destruct r0 as [n|]; [|inv H; assumption]. destruct (n <=? len); [inv H; assumption|].
      apply IH in H; auto.
      - eapply sticky_trans; [exact H2|]. exact H.
      - unfold nlargs. csimpl. rewrite (f_args _ _ F). exact H1.
    Qed.
    Lemma st_lr fuel E r d body pos c len val c' : nolabels E -> nlargs c -> nolabel body = true ->
      parse_lr fuel E rec r d body pos c = Ok (len, val, c') -> sticky c c'.
    Proof.
      intros HE Hc Hn H. unfold parse_lr in H. cbv zeta in H.
      destruct (lr_find _ _) as [[[l0|] v0]|]; [inv H; apply cutv; reflexivity|inv H; apply cutv; reflexivity|].
      binv H. pose proof (frame_do_parse rec Hfr _ _ _ _ _ _ _ _ _ Hm) as F. apply st_do in Hm; auto.
      assert (H0 : sticky c k) by exact Hm.
      destruct r0 as [n|]; [|inv H; exact H0]. binv H. inv H. apply st_grow in Hm0; auto.
      - eapply sticky_trans; [exact H0|]. eapply sticky_trans; [exact Hm0|]. apply cutv. csimpl. apply cut_write.
      - unfold nlargs. csimpl. rewrite (f_args _ _ F). exact Hc.
    Qed.
    Lemma st_hld fuel E r pos vs c len vs' c' : nolabels E -> nlargs c ->
      parse_hld fuel E rec r pos vs c = Ok (len, vs', c') -> sticky c c'.
    Proof.
      intros HE Hc H. unfold parse_hld in H. binv H. unfold get_rule in Hm.
      destruct (nth_error (e_g E) r) as [d|] eqn:Hd; [|discriminate]. inv Hm.
      destruct (r_body a) as [body|] eqn:Hb; [|discriminate].
      assert (Hn : nolabel body = true) by (eapply nl_rule; eauto).
      destruct (r_is_macro a).
      { destruct (r_lr a); [discriminate|]. binv H. inv H. apply Hrec in Hm; auto. }
      destruct (e_recog E && negb (r_lr a)).
      { destruct (e_packrat E).
        - destruct (e_slot E r).
          + cbv zeta in H. destruct (_ <? _); [|discriminate]. destruct (nfind _ _); [inv H; apply sticky_refl|].
            binv H. inv H. apply st_body in Hm; auto. destruct len; [|exact Hm].
            eapply sticky_trans; [exact Hm|]. apply cutv, cut_write.
          + destruct (nfind _ _).
            * destruct (_ =? _); [inv H; apply sticky_refl|]. binv H. inv H. apply st_body in Hm; auto.
            * binv H. inv H. apply st_body in Hm; auto.
        - destruct (lr_find _ _); [inv H; apply sticky_refl|]. binv H. inv H. apply st_body in Hm; auto. }
      binv H. assert (Hs : sticky c k).
      { destruct (r_lr a); [eapply st_lr; eauto|].
        assert (Hf : fn_sticky (do_parse E rec r a body pos)) by (intros ? ? ? ? ? ?; eapply st_do; eauto).
        destruct (e_packrat E); [eapply st_packrat; eauto|eapply st_guard; eauto]. }
      destruct r0; inv H; exact Hs.
    Qed.
    Lemma st_dispatch E rl iarg args pos vs c len vs' c' : nolabels E -> nlargs c -> forallb nolabel args = true ->
      parse_dispatch E rec rl iarg args pos vs c = Ok (len, vs', c') -> sticky c c'.
    Proof.
      intros HE Hc Ha H. unfold parse_dispatch in H. destruct rl as [r|].
      - binv H. destruct (r_is_macro a).
        + destruct (c_rstk c); [discriminate|]. binv H. binv H. destruct (r_lr a); [discriminate|].
          binv H. inv H. apply Hrec in Hm2; auto. unfold nlargs. csimpl. cbn.
          apply andb_true_intro. split; [|exact Hc]. eapply nolabel_subst_args; [|exact Ha|exact Hm1]. now apply nlargs_top.
        + match type of H with (if ?b then _ else _) = _ => destruct b end; [apply Hrec in H; auto|]. binv H. inv H. apply Hrec in Hm0; auto.
      - destruct (nth_error _ _) as [x|] eqn:Hx; [|discriminate]. eapply Hrec; eauto.
        apply nth_error_In in Hx. pose proof (nlargs_top _ Hc) as Ht. rewrite forallb_forall in Ht. now apply Ht.
    Qed.
    Lemma st_ref E rl iarg args pos vs c len vs' c' : nolabels E -> nlargs c -> forallb nolabel args = true ->
      parse_ref E rec rl iarg args pos vs c = Ok (len, vs', c') -> sticky c c'.
    Proof.
      intros HE Hc Ha H. unfold parse_ref in H. destruct (e_tracer E); [|eapply st_dispatch; eauto].
      cbv zeta in H. binv H. inv H. apply st_dispatch in Hm; auto.
      - destruct (match rl with Some _ => _ | None => _ end); exact Hm.
      - destruct (match rl with Some _ => _ | None => _ end); exact Hc.
    Qed.
    Lemma st_prec_loop fuel : forall E atom binop info rl mp pos i vs c r vs' c', nolabels E -> nlargs c ->
      nolabel atom = true -> nolabel binop = true ->
      prec_loop fuel E rec atom binop info rl mp pos i vs c = Ok (r, vs', c') -> sticky c c'.
    Proof.
      induction fuel as [|fuel IH]; intros E atom binop info rl mp pos i vs c r vs' c' HE Hc Ha Hb H; cbn [prec_loop] in H.
      { destruct (_ <? _); [discriminate|]. inv H. apply sticky_refl. }
      destruct (_ <? _); [|inv H; apply sticky_refl].
      binv H. pose proof (Hfr _ _ _ _ _ _ _ _ Hm) as F. apply Hrec in Hm; auto.
      pose proof (nlargs_frame _ _ F Hc) as Hk.
      destruct r0 as [chlen|]; [|inv H; assumption]. cbv zeta in H.
      destruct (binfo_find _ _) as [[level la]|]; [|inv H; assumption].
      destruct (level <? mp); [inv H; assumption|]. destruct (v_vals v); [discriminate|].
      binv H.
      assert (Hs : sticky c k0 /\ nlargs k0).
      { clear H. binv Hm0. pose proof (Hfr _ _ _ _ _ _ _ _ Hm1) as F1. apply Hrec in Hm1; auto.
        pose proof (nlargs_frame _ _ F1 Hk) as Hk1.
        destruct r1; [|inv Hm0; split; [eapply sticky_trans; eauto|assumption]].
        binv Hm0. binv Hm0. inv Hm0. pose proof (frame_prec_loop rec Hfr _ _ _ _ _ _ _ _ _ _ _ _ _ _ Hm3) as F2.
        apply IH in Hm3; auto. split.
        - eapply sticky_trans; [exact Hm|]. eapply sticky_trans; [exact Hm1|]. exact Hm3.
        - unfold nlargs. csimpl. rewrite (f_args _ _ F2). exact Hk1. }
      destruct Hs as [Hs Hn]. destruct r0 as [l2|]; [|inv H; assumption].
      destruct (v_vals v0); [discriminate|].
      match type of H with (match ?x with _ => _ end) = _ => assert (Hq : c_cut (snd x) = c_cut k0 /\ c_args (snd x) = c_args k0) end.
      { destruct (has_action E k0 rl); [|split; reflexivity].
        match goal with |- context [run_action E rl ?a None k0] => pose proof (cut_action E rl a None k0) as Q; pose proof (frame_action E rl a None k0) as Q2; destruct (run_action E rl a None k0) end.
        cbn [snd] in *. split; [assumption|apply Q2]. }
      match type of H with (match ?x with _ => _ end) = _ => destruct x as [[val vs3] c3] end.
      cbn [snd] in Hq. destruct Hq as [Q1 Q2]. apply IH in H; auto.
      - eapply sticky_trans; [exact Hs|]. eapply sticky_trans; [apply cutv; exact Q1|exact H].
      - unfold nlargs. rewrite Q2. exact Hn.
    Qed.
    Lemma st_prec fuel E atom binop info rl pos vs c r vs' c' : nolabels E -> nlargs c ->
      nolabel atom = true -> nolabel binop = true ->
      parse_prec fuel E rec atom binop info rl pos vs c = Ok (r, vs', c') -> sticky c c'.
    Proof.
      intros HE Hc Ha Hb H. unfold parse_prec in H. binv H.
      pose proof (Hfr _ _ _ _ _ _ _ _ Hm) as F. apply Hrec in Hm; auto.
      pose proof (nlargs_frame _ _ F Hc) as Hk. destruct r0; [|inv H; assumption].
      binv H. binv H. inv H. apply st_prec_loop in Hm1; auto. eapply sticky_trans; [exact Hm|exact Hm1].
    Qed.
    Lemma st_rcv E e pos vs c r vs' c' : nolabels E -> nlargs c -> nolabel e = true ->
      parse_rcv E rec e pos vs c = Ok (r, vs', c') -> sticky c c'.
    Proof.
      intros HE Hc Hn H. unfold parse_rcv in H. destruct e; try discriminate. cbv zeta in H. binv H. binv H. binv H. inv H.
      assert (H0 : c_cut a = c_cut c /\ c_args a = c_args c).
      { destruct (c_log c); [|inv Hm; auto]. destruct args as [|x ?]; [discriminate|].
        destruct x; try (inv Hm; auto; fail). destruct rule0; [|discriminate]. binv Hm.
        match type of Hm with (match ?x with _ => _ end) = _ => destruct x end; inv Hm; auto. }
      destruct H0 as [Q1 Q2]. apply Hrec in Hm0; auto.
      2:{ unfold nlargs. csimpl. rewrite Q2. exact Hc. }
      assert (H1 : sticky c k) by (eapply sticky_trans; [apply cutv; exact Q1|exact Hm0]).
      assert (H2 : sticky k a0).
      { apply cutv. destruct r; [|inv Hm1; reflexivity]. destruct (c_log a); [|inv Hm1; reflexivity].
        binv Hm1. inv Hm1. reflexivity. }
      eapply sticky_trans; [exact H1|]. eapply sticky_trans; [exact H2|]. apply sticky_settrue.
    Qed.
    Lemma st_core fuel E o pos vs c r vs' c' : nolabels E -> nlargs c -> nolabel o = true ->
      parse_core fuel rec E o pos vs c = Ok (r, vs', c') -> sticky c c'.
    Proof.
      intros HE Hc Hn H. destruct o; cbn [parse_core nolabel] in H, Hn.
      - eapply st_seq; eauto.
      - apply andb_prop in Hn as [A B]. destruct for_label; [discriminate|]. eapply st_cho; eauto.
      - eapply st_rep; eauto.
      - unfold parse_and in H. binv H. inv H. apply Hrec in Hm; auto.
      - unfold parse_not in H. binv H. apply Hrec in Hm; auto. cbv zeta in H. destruct r0; inv H; auto.
        eapply sticky_trans; [exact Hm|]. apply cutv. rewrite cut_error. reflexivity.
      - eapply st_dic; eauto.
      - eapply st_lit; eauto.
      - unfold parse_cls in H. destruct (_ =? 0); [inv H; apply cutv, cut_error|]. binv H. binv H.
        destruct (xorb _ _); inv H; [apply sticky_refl|apply cutv, cut_error].
      - unfold parse_chr in H. destruct (_ =? 0); [inv H; apply cutv, cut_error|]. binv H.
        destruct (_ =? _)%N; inv H; [apply sticky_refl|apply cutv, cut_error].
      - unfold parse_dot in H. binv H. destruct (_ <? 1); inv H; [apply cutv, cut_error|apply sticky_refl].
      - unfold parse_csc in H. binv H. inv H. apply Hrec in Hm; auto.
      - unfold parse_cap in H. binv H. apply Hrec in Hm; auto. destruct r0; inv H; exact Hm.
      - eapply st_tok; eauto.
      - unfold parse_ign in H. binv H. inv H. apply Hrec in Hm; auto.
      - unfold parse_usr in H. destruct (e_user _ _ _ _ _ _) as [[? ?] ?]. inv H. apply cutv. reflexivity.
      - apply Hrec in H; auto.
      - eapply st_hld; eauto.
      - eapply st_ref; eauto.
      - unfold parse_wsp in H. destruct (c_inws c); [inv H; apply sticky_refl|]. binv H. inv H. apply Hrec in Hm; auto.
      - unfold parse_bkr in H. destruct (last_capture _ _); [eapply st_lit; eauto|]. inv H. apply cutv. reflexivity.
      - apply andb_prop in Hn as [A B]. apply st_prec in H; auto.
      - eapply st_rcv; eauto.
      - inv H. apply sticky_settrue.
      - discriminate.
    Qed.
  End Ops.

  Theorem parse_sticky fuel : forall E o pos vs c r vs' c',
    nolabels E -> nlargs c -> nolabel o = true ->
    parse fuel E o pos vs c = Ok (r, vs', c') -> sticky c c'.
  Proof.
    induction fuel as [|fuel IH]; intros E o pos vs c r vs' c' HE Hc Hn H; cbn [parse] in H; [discriminate|].
    unfold traced in H. destruct (is_traceable E o c).
    - binv H. inv H. apply (st_core (parse fuel) IH (parse_frame fuel)) in Hm; auto.
    - apply (st_core (parse fuel) IH (parse_frame fuel)) in H; auto.
  Qed.
End Cut.
