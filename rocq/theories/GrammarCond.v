(** * Static conditions on a parser under which the reference semantics applies
    (vocabulary of C12, C18-C20, C41).

    [md r] is the one mode (inside a token boundary?  inside the whitespace
    expression?) in which the ordinary rule [r] is used; macros and macro arguments
    may be used in the modes [mm].  Without %whitespace there is one mode. *)
From Verif Require Import Base Utf8 Escape TrieM LineInfo Ope Ctx ErrLog Engine Top Scope RefSem Refine.

Section Cond.
  Variable g : grammar.
  Variable ws : bool.                       (* is there a %whitespace? *)
  Variable md : rid -> mode.
  Variable mm : list mode.

  Definition in_mm (m : mode) : bool := existsb (mode_eqb m) mm.
  Definition token_mode (m : mode) : mode := if ws then {| m_tok := true; m_ws := m_ws m |} else m.

  (** Built from the core operators, with rules used in their mode.  A reference in
      a macro context is by a name that is not also a macro parameter. *)
  Fixpoint core_in (m : mode) (o : ope) : bool :=
    match o with
    | Seq _ l | Cho _ _ l => forallb (core_in m) l
    | Rep e _ _ _ | And e | Not e | Csc e | Cap _ e | Ign e => core_in m e
    | Tok e => core_in (token_mode m) e
    | Wsp e => m_ws m || core_in {| m_tok := m_tok m; m_ws := true |} e
    | Wkh r => mode_eqb (md r) m
               && match nth_error g r with Some d => negb (r_is_macro d) && negb (r_macro_ref d) | None => false end
    | Ref n (Some r) _ _ args =>
      match nth_error g r with Some d => if r_is_macro d then in_mm m else mode_eqb (md r) m | None => false end
      && (in_mm m || hygienic g n)
      && forallb (fun a => forallb (fun m' => core_in m' a) mm) args
    | Ref _ None _ _ _ => in_mm m
    | Dic _ | Lit _ _ | Cls _ _ _ | Chr _ | Dot => true
    | Hld _ | Usr _ | Bkr _ | Pre _ _ _ _ | Rcv _ | Cut | Nul => false
    end.
  Definition core_rule (r : rid) (d : rule) : bool :=
    match r_body d with
    | None => true
    | Some body =>
      (if r_is_macro d then forallb (fun m => core_in m body) mm
      else core_in (if r_no_whitespace d then token_mode (md r) else md r) body
           && implb (mref g body) (r_macro_ref d))
      && nopre body
    end.
  Definition core_grammar : bool := forallb (fun p => core_rule (fst p) (snd p)) (combine (seq 0 (List.length g)) g).
  (** %whitespace is wrapped in the Whitespace operator (wsp) by the loader. *)
  Definition core_ws (w : ope) : bool :=
    match w with
    | Wsp e => core_in {| m_tok := false; m_ws := true |} e && negb (mref g e) && nopre e
    | _ => false
    end.
End Cond.

(** No first set, keyword guard or byte-set span is attached. *)
Fixpoint bare (o : ope) : bool :=
  match o with
  | Seq None l => forallb bare l
  | Cho _ [] l => forallb bare l
  | Rep e _ _ None => bare e
  | Seq (Some _) _ | Cho _ (_ :: _) _ | Rep _ _ _ (Some _) => false
  | And e | Not e | Csc e | Cap _ e | Ign e | Tok e | Wsp e | Rcv e => bare e
  | Pre a b _ _ => bare a && bare b
  | Ref _ _ _ _ args => forallb bare args
  | _ => true
  end.
Definition bare_grammar (g : grammar) : bool :=
  forallb (fun d => match r_body d with Some b => bare b | None => true end) g.

(** The annotations of every node are sound (see Refine.v: ann_cho, ann_seq, ann_rep). *)
Section Anns.
  Context {V U : Type}.
  Variable E : env V U.
  Fixpoint anns (o : ope) : Prop :=
    let fix all l := match l with [] => True | a :: l' => anns a /\ all l' end in
    match o with
    | Seq kg l => ann_seq E kg l /\ all l
    | Cho _ fs l => ann_cho E fs l /\ all l
    | Rep e mn mx sp => ann_rep E e mn mx sp /\ anns e
    | And e | Not e | Csc e | Cap _ e | Ign e | Tok e | Wsp e => anns e
    | Ref _ _ _ _ args => all args
    | _ => True
    end.
  Lemma anns_all l : (fix all l := match l with [] => True | a :: l' => anns a /\ all l' end) l <-> Forall anns l.
  Proof.
    induction l as [|a l IH]; split; intros H; [constructor|exact I| |].
    - destruct H as [A B]. constructor; [exact A|]. now apply IH.
    - inversion H; subst. split; [assumption|]. now apply IH.
  Qed.
  Lemma bare_anns o : bare o = true -> anns o.
  Proof.
    induction o using ope_ind'; cbn [bare anns]; intros Hb; try exact I; try (now apply IHo);
      try (rewrite ?andb_true_iff in Hb; now auto).
    - destruct kg; [discriminate|]. split; [exact I|]. apply anns_all.
      rewrite forallb_forall in Hb. rewrite Forall_forall in *. auto.
    - destruct fs; [|discriminate]. split.
      + intros id o pos Ho Hp Hs. exfalso. unfold fs_skip in Hs. destruct (_ =? 0); [discriminate|].
        destruct id; cbn in Hs; discriminate.
      + apply anns_all. rewrite forallb_forall in Hb. rewrite Forall_forall in *. auto.
    - destruct sp; [discriminate|]. split; [exact I|now apply IHo].
    - apply anns_all. rewrite forallb_forall in Hb. rewrite Forall_forall in *. auto.
  Qed.
End Anns.

(** A parser over a core grammar. *)
Section Parser.
  Context {V U : Type} {kp : keepvals}.
  Implicit Types (P : pobj V U).
  Record core_parser (md : rid -> mode) (mm : list mode) P : Prop := {
    cp_rules : core_grammar (p_g P) (is_some (p_ws P)) md mm = true;
    cp_ws : match p_ws P with Some w => core_ws (p_g P) (is_some (p_ws P)) md mm w = true | None => True end;
    cp_start : md (p_start P) = m_top /\ exists d, nth_error (p_g P) (p_start P) = Some d /\ r_is_macro d = false;
    (* %word is run without whitespace, in the one mode outside tokens *)
    cp_word : match p_word P with
              | Some w => core_grammar (p_g P) false (fun _ => m_top) [m_top] = true
                          /\ core_in (p_g P) false (fun _ => m_top) [m_top] m_top w = true
                          /\ mref (p_g P) w = false /\ nopre w = true
              | None => True
              end;
    (* no custom parsers are registered *)
    cp_user : forall id inp pos vs u, p_user P id inp pos vs u = (None, vs, u);
    (* packrat slots are numbered injectively below their count *)
    cp_slot : p_packrat P = true -> forall r s, p_slot P r = Some s ->
      s < p_cached P /\ forall r', p_slot P r' = Some s -> r' = r
  }.
  Definition anns_parser P (input : bytes) : Prop :=
    (forall r d body, nth_error (p_g P) r = Some d -> r_body d = Some body -> anns (mk_env P input) body)
    /\ (forall w, p_ws P = Some w -> anns (mk_env P input) w)
    /\ (forall w, p_word P = Some w -> forall inp,
          (forall r d body, nth_error (p_g P) r = Some d -> r_body d = Some body -> anns (word_env (mk_env P input) inp) body)
          /\ anns (word_env (mk_env P input) inp) w).
  Definition bare_parser P : Prop :=
    bare_grammar (p_g P) = true /\ match p_ws P with Some w => bare w = true | None => True end
    /\ match p_word P with Some w => bare w = true | None => True end.
  Lemma bare_parser_anns P input : bare_parser P -> anns_parser P input.
  Proof.
    intros (Hg & Hw & Hwd).
    assert (Hr : forall E : env V U, forall r d body, nth_error (p_g P) r = Some d -> r_body d = Some body -> anns E body).
    { intros E r d body Hd Hb. apply bare_anns. unfold bare_grammar in Hg. rewrite forallb_forall in Hg.
      specialize (Hg d (nth_error_In _ _ Hd)). now rewrite Hb in Hg. }
    split; [apply Hr|]. split.
    - intros w Hws. rewrite Hws in Hw. now apply bare_anns.
    - intros w Hws inp. rewrite Hws in Hwd. split; [apply Hr|now apply bare_anns].
  Qed.

  (** The modes of a core parser. *)
  Definition core_modes (g : grammar) (md : rid -> mode) (mm : list mode) : modes :=
    {| m_rule := fun r m => match nth_error g r with Some d => if r_is_macro d then in_mm mm m = true else md r = m | None => False end;
       m_arg := fun m => in_mm mm m = true |}.
  Definition no_modes : modes := {| m_rule := fun _ _ => False; m_arg := fun _ => False |}.

  Lemma mode_eqb_eq a b : mode_eqb a b = true <-> a = b.
  Proof.
    destruct a as [a1 a2], b as [b1 b2]. unfold mode_eqb. cbn. rewrite andb_true_iff, !Bool.eqb_true_iff. split.
    - now intros [-> ->].
    - intros [= -> ->]. auto.
  Qed.
  Lemma in_mm_In mm m : in_mm mm m = true <-> In m mm.
  Proof.
    unfold in_mm. rewrite existsb_exists. split.
    - intros (x & Hx & He). apply mode_eqb_eq in He as ->. exact Hx.
    - intros H. exists m. split; [exact H|]. now apply mode_eqb_eq.
  Qed.

  Lemma core_chk (E : env V U) md mm o : anns E o -> forall m,
    core_in (e_g E) (is_some (e_ws E)) md mm m o = true -> chk E (core_modes (e_g E) md mm) m o.
  Proof.
    set (al := core_modes (e_g E) md mm).
    assert (Hlist : forall l, Forall (fun o => anns E o -> forall m, core_in (e_g E) (is_some (e_ws E)) md mm m o = true -> chk E al m o) l ->
      Forall (anns E) l -> forall m, forallb (core_in (e_g E) (is_some (e_ws E)) md mm m) l = true -> Forall (chk E al m) l).
    { intros l H1 H2 m Hf. rewrite forallb_forall in Hf. rewrite Forall_forall in *. auto. }
    assert (Htok : forall m, tok_mode E m = token_mode (is_some (e_ws E)) m).
    { intros m. unfold tok_mode, token_mode. destruct (e_ws E); reflexivity. }
    induction o using ope_ind'; cbn [anns core_in chk]; intros Ha m' Hc; try exact I; try discriminate; eauto.
    - destruct Ha as [H1 H2]. split; [exact H1|]. apply chk_all. apply anns_all in H2. auto.
    - destruct Ha as [H1 H2]. split; [exact H1|]. apply chk_all. apply anns_all in H2. auto.
    - destruct Ha as [H1 H2]. auto.
    - rewrite Htok. auto.
    - apply andb_prop in Hc as [H1 H2]. apply mode_eqb_eq in H1. destruct (nth_error (e_g E) r) as [d|] eqn:Hd; [|discriminate].
      apply andb_prop in H2 as [H2 H3]. apply negb_true_iff in H2, H3. split; [|exists d; auto].
      unfold al, core_modes. cbn. rewrite Hd, H2. exact H1.
    - destruct rl as [r|]; [|exact Hc]. apply andb_prop in Hc as [Hc H3]. apply andb_prop in Hc as [H1 H2].
      apply anns_all in Ha. split; [split|].
      + unfold al, core_modes. cbn. destruct (nth_error (e_g E) r) as [d|]; [|discriminate].
        destruct (r_is_macro d); [exact H1|now apply mode_eqb_eq].
      + apply orb_prop in H2 as [H2|H2]; [now left|now right].
      + apply chk_every. rewrite forallb_forall in H3. rewrite Forall_forall in *. intros a Hin mo Hmo.
        specialize (H3 a Hin). rewrite forallb_forall in H3. apply H; auto. apply H3. now apply in_mm_In.
    - apply orb_prop in Hc as [Hc|Hc]; [now left|right]. auto.
  Qed.

  Lemma in_combine_seq (g : grammar) r d : nth_error g r = Some d -> In (r, d) (combine (seq 0 (List.length g)) g).
  Proof.
    assert (H : forall k (g : grammar) r d, nth_error g r = Some d -> In (k + r, d) (combine (seq k (List.length g)) g)).
    { intros k g0. revert k. induction g0 as [|x g0 IH]; intros k [|r0] d0 H; cbn in *; try discriminate.
      - inversion H; subst. left. f_equal. lia.
      - right. replace (k + S r0) with (S k + r0) by lia. now apply IH. }
    apply (H 0 g r d).
  Qed.

  (** The modes of the %word expression. *)
  Definition word_modes P : modes :=
    match p_word P with Some _ => core_modes (p_g P) (fun _ => m_top) [m_top] | None => no_modes end.

  Lemma core_rules (E : env V U) md mm r m d body :
    core_grammar (e_g E) (is_some (e_ws E)) md mm = true ->
    (forall r d body, nth_error (e_g E) r = Some d -> r_body d = Some body -> anns E body) ->
    core_modes (e_g E) md mm r m -> nth_error (e_g E) r = Some d -> r_body d = Some body ->
    (nopre body = true \/ (r_is_macro d = false /\ exists a b i q, body = Pre a b i q))
    /\ (if r_is_macro d then chk E (core_modes (e_g E) md mm) m body
        else chk E (core_modes (e_g E) md mm) (if r_no_whitespace d then tok_mode E m else m) body
             /\ (mref (e_g E) body = true -> r_macro_ref d = true)).
  Proof.
    intros Hr Ha Hal Hd Hb. unfold core_grammar in Hr. rewrite forallb_forall in Hr. specialize (Hr _ (in_combine_seq _ _ _ Hd)).
    unfold core_rule in Hr. cbn [fst snd] in Hr. rewrite Hb in Hr. apply andb_prop in Hr as [Hr Hn]. split; [now left|].
    cbn in Hal. rewrite Hd in Hal. destruct (r_is_macro d).
    - rewrite forallb_forall in Hr. apply (core_chk E); [eapply Ha; eauto|]. apply Hr. now apply in_mm_In.
    - apply andb_prop in Hr as [H1 H2]. subst m. split.
      + replace (if r_no_whitespace d then tok_mode E (md r) else md r)
          with (if r_no_whitespace d then token_mode (is_some (e_ws E)) (md r) else md r).
        * apply (core_chk E); [eapply Ha; eauto|exact H1].
        * destruct (r_no_whitespace d); [|reflexivity]. unfold tok_mode, token_mode. destruct (e_ws E); reflexivity.
      + intros X. rewrite X in H2. exact H2.
  Qed.
  Lemma core_okA md mm P input : core_parser md mm P -> anns_parser P input ->
    (keepv = false /\ forall r, p_pred P r = None) \/ pure (mk_env P input) ->
    (recognize_only P = true -> forall r, p_pred P r = None) ->
    okA (mk_env P input) (core_modes (p_g P) md mm) (word_modes P).
  Proof.
    intros [Hr Hw Hs Hwd Hu Hsl] (Ha & Haw & Haww) Hpure Hrec.
    assert (Hnop : forall r d body, nth_error (p_g P) r = Some d -> r_body d = Some body -> nopre body = true).
    { intros r d body Hd Hb. unfold core_grammar in Hr. rewrite forallb_forall in Hr.
      specialize (Hr _ (in_combine_seq _ _ _ Hd)). unfold core_rule in Hr. cbn [fst snd] in Hr. rewrite Hb in Hr.
      now apply andb_prop in Hr as [_ Hr]. }
    assert (Hext : forall id pos (vs : sv V) u r vs' u' inp, p_user P id inp pos vs u = (r, vs', u') -> ext vs vs').
    { intros id pos vs u r vs' u' inp H. rewrite Hu in H. inversion H; subst. constructor; apply EngineLemmas.prefix_refl || reflexivity. }
    constructor.
    - constructor.
      + constructor; cbn.
        * intros. eauto.
        * intros; eauto.
        * intros w Hws. rewrite Hws in Hw. unfold core_ws in Hw. destruct w; try discriminate.
          apply andb_prop in Hw as [_ Hw]. exact Hw.
      + constructor; cbn.
        * intros id inp pos vs u n vs' u' _ H. rewrite Hu in H. discriminate.
        * intros Hp r s H. now destruct (Hsl Hp r s H).
      + destruct Hpure as [H|H]; [left; right; exact H|now right].
      + cbn. intros r m H _. now apply Hrec.
      + intros r m d body. exact (core_rules (mk_env P input) md mm r m d body Hr Ha).
      + cbn. intros r m1 m2 d Hd Hm. rewrite Hd, Hm. congruence.
      + cbn. intros w Hws. pose proof (Haw w Hws) as Hann. rewrite Hws in Hw. unfold core_ws in Hw. destruct w; try discriminate.
        apply andb_prop in Hw as [Hw _]. apply andb_prop in Hw as [H1 H2]. apply negb_true_iff in H2. cbn [mref]. split; [exact H2|].
        intros m Hm. cbn [chk]. destruct (m_ws m); [now left|right]. rewrite Hm.
        apply (core_chk (mk_env P input)); [exact Hann|]. cbn. rewrite Hws. exact H1.
      + cbn. intros Hp r1 r2 s H1 H2. destruct (Hsl Hp r2 s H2) as [_ H]. now apply H.
    - intros inp. constructor.
      + constructor; cbn; eauto. discriminate.
      + constructor; cbn; [|discriminate]. intros id i0 pos vs u n vs' u' _ H. rewrite Hu in H. discriminate.
      + destruct Hpure as [H|H]; [left; right; exact H|right]. destruct H. constructor; assumption.
      + cbn. discriminate.
      + unfold word_modes. destruct (p_word P) as [w|] eqn:Hwe; [|intros r m d body []]. destruct Hwd as (Hg & _).
        intros r m d body. exact (core_rules (word_env (mk_env P input) inp) _ _ r m d body Hg (proj1 (Haww w eq_refl inp))).
      + unfold word_modes. destruct (p_word P) as [w|]; [|intros r m1 m2 d _ _ []]. cbn. intros r m1 m2 d Hd Hm. rewrite Hd, Hm. congruence.
      + cbn. discriminate.
      + cbn. discriminate.
    - cbn. intros w Hwe. unfold word_modes. rewrite Hwe in *. destruct Hwd as (_ & Hc & Hm & Hn). split; [exact Hm|]. split; [exact Hn|].
      intros inp. apply (core_chk (word_env (mk_env P input) inp)); [apply (Haww w eq_refl inp)|exact Hc].
  Qed.
End Parser.
