(** * References of a loaded grammar (C31). *)
From Verif Require Import Base BaseLemmas Utf8 Escape TrieM LineInfo Ope Ctx ErrLog Engine EngineLemmas Top Scope RefSem Refine GrammarCond FirstSetM FirstSetup FirstTop
  PackratFilter PrecSpec PrecM LoadM LoadSpec.

Lemma bmem_In n l : bmem n l = true <-> In n l.
Proof.
  unfold bmem. rewrite existsb_exists. split.
  - intros (x & H & He). apply bytes_eqb_eq in He as ->. exact H.
  - intros H. exists n. split; [exact H|apply bytes_eqb_refl].
Qed.
Lemma bindex_Some n l i : bindex n l = Some i -> nth_error l i = Some n.
Proof.
  revert i. induction l as [|x l IH]; intros i H; cbn in H; [discriminate|]. destruct (bytes_eqb x n) eqn:He.
  - inv H. apply bytes_eqb_eq in He as ->. reflexivity.
  - destruct (bindex n l) as [j|]; [|discriminate]. inv H. cbn. now apply IH.
Qed.
Lemma bindex_None n l : bindex n l = None <-> ~ In n l.
Proof.
  induction l as [|x l IH]; cbn; [intuition|]. destruct (bytes_eqb x n) eqn:He.
  - apply bytes_eqb_eq in He as ->. split; [discriminate|]. intros H. exfalso. apply H. now left.
  - split.
    + intros H [-> |Hin]; [now rewrite bytes_eqb_refl in He|]. destruct (bindex n l); [discriminate|]. now apply IH.
    + intros H. destruct (bindex n l) eqn:Hb; [|reflexivity]. exfalso. apply H. right. apply bindex_Some, nth_error_In in Hb. exact Hb.
Qed.
Lemma bmem_bindex n l : bmem n l = is_some (bindex n l).
Proof.
  destruct (bindex n l) eqn:H; cbn.
  - apply bmem_In. eapply nth_error_In, bindex_Some, H.
  - apply bindex_None in H. destruct (bmem n l) eqn:Hb; [|reflexivity]. apply bmem_In in Hb. contradiction.
Qed.
Lemma rule_named_Some g n r : rule_named g n = Some r -> exists d, nth_error g r = Some d /\ r_name d = n.
Proof.
  unfold rule_named. intros H. apply bindex_Some in H. rewrite nth_error_map in H.
  destruct (nth_error g r) as [d|]; [|discriminate]. inv H. eauto.
Qed.
Lemma rule_named_None g n : rule_named g n = None <-> forall d, In d g -> r_name d <> n.
Proof.
  unfold rule_named. rewrite bindex_None, in_map_iff. split.
  - intros H d Hd <-. apply H. eauto.
  - intros H (d & <- & Hd). eapply H; eauto.
Qed.
Lemma rule_named_unique g n r d : NoDup (map r_name g) -> rule_named g n = Some r -> In d g -> r_name d = n -> nth_error g r = Some d.
Proof.
  intros Hn Hr Hd <-. apply rule_named_Some in Hr as (d' & A & B). apply In_nth_error in Hd as [j Hj].
  assert (H : j = r).
  { rewrite NoDup_nth_error in Hn. apply Hn.
    - rewrite map_length. apply nth_error_Some. congruence.
    - rewrite !nth_error_map, Hj, A. cbn. congruence. }
  congruence.
Qed.

(** ** The check *)
Section Check.
  Variable g : grammar.
  Hypothesis Hnd : NoDup (map r_name g).
  Lemma ref_ok_good ps n mac args : ~ In n ps -> (ref_ok g n mac (List.length args) = true <-> ~ bad_reference g ps n mac args).
  Proof.
    intros Hi. unfold ref_ok, bad_reference. destruct (rule_named g n) as [r|] eqn:Hr.
    - destruct (rule_named_Some _ _ _ Hr) as (d & Hd & Hn). rewrite Hd. split.
      + intros H [_ [Hb|(d' & Hin & Hn' & Hb)]]; [now apply (Hb d (nth_error_In _ _ Hd))|].
        pose proof (rule_named_unique g n r d' Hnd Hr Hin Hn') as Hd'. assert (d' = d) as -> by congruence.
        destruct (r_is_macro d); [apply andb_prop in H as [-> H]; apply Nat.eqb_eq in H; destruct Hb as [Hb|[_ Hb]]; auto|].
        destruct mac; [discriminate|]. destruct Hb as [Hb|[Hb _]]; [auto|discriminate].
      + intros H. destruct (r_is_macro d) eqn:Hm.
        * destruct mac.
          -- cbn. destruct (List.length args =? List.length (r_params d)) eqn:Hl; [reflexivity|]. apply Nat.eqb_neq in Hl. exfalso. apply H.
             split; [exact Hi|]. right. exists d. split; [eapply nth_error_In; eauto|]. auto.
          -- exfalso. apply H. split; [exact Hi|]. right. exists d. split; [eapply nth_error_In; eauto|]. split; [exact Hn|]. left. congruence.
        * destruct mac; [|reflexivity]. exfalso. apply H. split; [exact Hi|]. right. exists d. split; [eapply nth_error_In; eauto|].
          split; [exact Hn|]. left. congruence.
    - split; [discriminate|]. intros H. exfalso. apply H. split; [exact Hi|]. left. now apply rule_named_None.
  Qed.
  Lemma inside_inv ps o x : inside ps o x -> x = o \/ exists p, In p (parts ps o) /\ inside ps p x.
  Proof. intros H. inversion H; subst; eauto. Qed.
  Definition good_below ps o : Prop := forall n rl ia mac args, inside ps o (Ref n rl ia mac args) -> ~ bad_reference g ps n mac args.
  Lemma good_parts ps o : (match o with Ref _ _ _ _ _ => False | _ => True end) -> (good_below ps o <-> Forall (good_below ps) (parts ps o)).
  Proof.
    intros Ho. rewrite Forall_forall. split.
    - intros H p Hp n rl ia mac args Hi. eapply H. eapply inside_part; eauto.
    - intros H n rl ia mac args Hi. apply inside_inv in Hi as [<-|(p & Hp & Hi)]; [contradiction|]. eapply H; eauto.
  Qed.
  Lemma refs_ok_good ps o : from_text o = true -> (refs_ok g ps o = true <-> good_below ps o).
  Proof.
    assert (Hl : forall l, Forall (fun o => from_text o = true -> (refs_ok g ps o = true <-> good_below ps o)) l -> forallb from_text l = true ->
      (forallb (refs_ok g ps) l = true <-> Forall (good_below ps) l)).
    { intros l H Hf. rewrite forallb_forall in *. rewrite Forall_forall in *. split; intros H1 x Hx; apply H; auto. }
    assert (H1 : forall e, (refs_ok g ps e = true <-> good_below ps e) -> (refs_ok g ps e = true <-> Forall (good_below ps) [e])).
    { intros e [A B]. split; [intros H; constructor; [auto|constructor]|]. intros H. inversion H; subst. auto. }
    induction o using ope_ind'; cbn [from_text refs_ok]; intros Hf; try discriminate;
      try (rewrite good_parts by exact I; cbn [parts]; auto; fail);
      try (rewrite good_parts by exact I; cbn [parts]; split; [constructor|reflexivity]).
    - rewrite good_parts by exact I. cbn [parts]. destruct kg; [discriminate|]. auto.
    - rewrite good_parts by exact I. cbn [parts]. destruct fs; [|discriminate]. auto.
    - rewrite good_parts by exact I. cbn [parts]. destruct sp; [discriminate|]. auto.
    - destruct rl; [discriminate|]. apply andb_prop in Hf as [_ Hf]. rewrite orb_true_iff, andb_true_iff, bmem_In.
      destruct (in_dec (list_eq_dec Byte.byte_eq_dec) n ps) as [Hi|Hi].
      + split; [|now left]. intros _ n0 rl ia0 mac args0 Hin. apply inside_inv in Hin as [E|(p & Hp & _)].
        * inv E. intros [X _]. auto.
        * cbn [parts] in Hp. destruct (in_dec (list_eq_dec Byte.byte_eq_dec) n ps); [contradiction|]. contradiction.
      + rewrite (Hl _ H Hf), (ref_ok_good ps n m args Hi). split.
        * intros [X|[A B]]; [contradiction|]. intros n0 rl ia0 mac args0 Hin. apply inside_inv in Hin as [E|(p & Hp & Hin)].
          -- inv E. exact A.
          -- cbn [parts] in Hp. destruct (in_dec (list_eq_dec Byte.byte_eq_dec) n ps); [contradiction|]. rewrite Forall_forall in B. eapply B; eauto.
        * intros X. right. split; [eapply X; apply inside_self|]. rewrite Forall_forall. intros p Hp n0 rl ia0 mac args0 Hin.
          eapply X. eapply inside_part; [|exact Hin]. cbn [parts]. destruct (in_dec (list_eq_dec Byte.byte_eq_dec) n ps); [contradiction|]. exact Hp.
  Qed.
  Lemma all_refs_ok_spec : (forall d, In d g -> exists b, r_body d = Some b /\ from_text b = true) -> (all_refs_ok g = true <-> ~ dangling g).
  Proof.
    intros Hb. unfold all_refs_ok. rewrite forallb_forall. split.
    - intros H (d & b & n & rl & ia & mac & args & Hd & Hbd & Hi & Hbad). destruct (Hb d Hd) as (b' & Hb' & Hf). rewrite Hbd in Hb'. inv Hb'.
      specialize (H d Hd). unfold body_ok in H. rewrite Hbd in H. apply (proj1 (refs_ok_good (r_params d) b' Hf) H) in Hi. contradiction.
    - intros H d Hd. destruct (Hb d Hd) as (b & Hbd & Hf). unfold body_ok. rewrite Hbd. apply refs_ok_good; [exact Hf|].
      intros n rl ia mac args Hi Hbad. apply H. exists d, b, n, rl, ia, mac, args. auto.
  Qed.
End Check.

(** ** Linked references stay linked *)
(** What the later steps of loading do not change about a rule. *)
Definition rsig (d : rule) : bytes * bool * nat := (r_name d, r_is_macro d, List.length (r_params d)).
Section Res.
  Variable sg : list (bytes * bool * nat).
  Variable ps : list bytes.
  Definition ref_res (n : bytes) (rl : option rid) (ia : nat) (mac : bool) (nargs : nat) : bool :=
    match bindex n ps with
    | Some i => (ia =? i) && negb (is_some rl)
    | None => match rl with
              | Some r => match nth_error sg r with
                          | Some (n', mac', k) => bytes_eqb n' n && Bool.eqb mac' mac && (negb mac || (nargs =? k))
                          | None => false
                          end
              | None => false
              end
    end.
  Fixpoint res_ok (o : ope) : bool :=
    match o with
    | Seq _ l | Cho _ _ l => forallb res_ok l
    | Rep e _ _ _ | And e | Not e | Csc e | Cap _ e | Tok e | Ign e | Wsp e | Rcv e => res_ok e
    | Pre a b _ _ => res_ok a && res_ok b
    | Ref n rl ia mac args => ref_res n rl ia mac (List.length args) && (bmem n ps || forallb res_ok args)
    | _ => true
    end.
  Lemma res_ok_inside o x : inside ps o x -> res_ok o = true -> res_ok x = true.
  Proof.
    induction 1 as [o|o p x Hp _ IH]; intros H; [exact H|]. apply IH. clear IH.
    destruct o; cbn [parts] in Hp; cbn [res_ok] in H; try contradiction; try (destruct Hp as [<-|[]]; exact H);
      try (rewrite forallb_forall in H; now apply H).
    - destruct (in_dec (list_eq_dec Byte.byte_eq_dec) name ps) as [Hi|Hi]; [contradiction|]. apply andb_prop in H as [_ H].
      apply orb_prop in H as [H|H]; [apply bmem_In in H; contradiction|]. rewrite forallb_forall in H. now apply H.
    - apply andb_prop in H as [A B]. destruct Hp as [<-|[<-|[]]]; assumption.
  Qed.
  Lemma res_ok_strip o : res_ok (strip o) = res_ok o.
  Proof.
    assert (Hl : forall l, Forall (fun o => res_ok (strip o) = res_ok o) l -> forallb res_ok (map strip l) = forallb res_ok l).
    { induction 1 as [|x l Hx _ IH]; [reflexivity|]. cbn. now rewrite Hx, IH. }
    induction o using ope_ind'; cbn [strip res_ok]; auto.
    - rewrite map_length. now rewrite (Hl _ H).
    - now rewrite IHo1, IHo2.
  Qed.
End Res.
Lemma res_ok_resolved g ps n rl ia mac args : res_ok (map rsig g) ps (Ref n rl ia mac args) = true -> resolved g ps n rl ia mac args.
Proof.
  cbn [res_ok]. intros H. apply andb_prop in H as [H _]. unfold ref_res in H. unfold resolved. destruct (bindex n ps) as [i|] eqn:Hi.
  - apply andb_prop in H as [A B]. apply Nat.eqb_eq in A as ->. left. apply bindex_Some in Hi. destruct rl; [discriminate|]. auto.
  - destruct rl as [r|]; [|discriminate]. rewrite nth_error_map in H. destruct (nth_error g r) as [d|] eqn:Hd; [|discriminate].
    cbn in H. rewrite !andb_true_iff, orb_true_iff in H. destruct H as [[A B] C]. apply bytes_eqb_eq in A. apply Bool.eqb_prop in B.
    right. exists r, d. repeat split; auto. intros ->. destruct C as [C|C]; [discriminate|]. now apply Nat.eqb_eq in C.
Qed.
Lemma link_res g ps o : from_text o = true -> refs_ok g ps o = true -> res_ok (map rsig g) ps (link g ps o) = true.
Proof.
  assert (Hl : forall l, Forall (fun o => from_text o = true -> refs_ok g ps o = true -> res_ok (map rsig g) ps (link g ps o) = true) l ->
    forallb from_text l = true -> forallb (refs_ok g ps) l = true -> forallb (res_ok (map rsig g) ps) (map (link g ps) l) = true).
  { induction 1 as [|x l Hx _ IH]; [reflexivity|]. cbn. intros A B. apply andb_prop in A as [A1 A2]. apply andb_prop in B as [B1 B2]. rewrite Hx, IH; auto. }
  induction o using ope_ind'; cbn [from_text refs_ok link res_ok]; intros Hf Hr; try discriminate; auto.
  - destruct kg; [discriminate|]. auto.
  - destruct fs; [|discriminate]. auto.
  - destruct sp; [discriminate|]. auto.
  - destruct rl; [discriminate|]. apply andb_prop in Hf as [_ Hf]. rewrite bmem_bindex in Hr.
    destruct (bindex n ps) as [i|] eqn:Hi; cbn [is_some orb] in Hr.
    + cbn [res_ok]. unfold ref_res. rewrite Hi, Nat.eqb_refl. cbn. rewrite bmem_bindex, Hi. reflexivity.
    + apply andb_prop in Hr as [A B]. cbn [res_ok]. unfold ref_res. rewrite Hi, map_length. unfold ref_ok in A.
      destruct (rule_named g n) as [r|] eqn:Hr; [|discriminate]. destruct (rule_named_Some _ _ _ Hr) as (d & Hd & Hn). rewrite Hd in A.
      rewrite nth_error_map, Hd. cbn. rewrite Hn, bytes_eqb_refl, (Hl _ H Hf B), orb_true_r. cbn.
      destruct (r_is_macro d), m; try discriminate; cbn in *; rewrite ?A; reflexivity.
Qed.

(** The annotations of SetupFirstSets aside, bodies do not change. *)
Section Strip.
  Variable g : grammar.
  Definition done_str (st : setup_st) : Prop := forall r b', In (r, b') (u_done st) -> exists d b, nth_error g r = Some d /\ r_body d = Some b /\ strip b' = strip b.
  Definition visit_str (visit : setup_st -> ope -> outcome (ope * setup_st)) (o : ope) : Prop :=
    forall st o' st', done_str st -> visit st o = Ok (o', st') -> strip o' = strip o /\ done_str st'.
  Lemma setup_list_str visit l : Forall (visit_str visit) l -> forall st l' st', done_str st ->
    setup_list visit st l = Ok (l', st') -> map strip l' = map strip l /\ done_str st'.
  Proof.
    induction 1 as [|o l Ho Hl IH]; intros st l' st' Hd H; cbn [setup_list] in H.
    - inv H. auto.
    - binv H. binv H. inv H. destruct (Ho _ _ _ Hd Hm) as (A & C). destruct (IH _ _ _ C Hm0) as (D & G). cbn. rewrite A, D. auto.
  Qed.
  Lemma setup_ope_str n rule : (forall st r st', done_str st -> rule st r = Ok st' -> done_str st') -> forall o, visit_str (setup_ope g n rule) o.
  Proof.
    intros Hrule. induction o using ope_ind'; intros st o' st' Hd Hs; cbn [setup_ope] in Hs;
      try (inv Hs; auto; fail); try (binv Hs; inv Hs; destruct (IHo _ _ _ Hd Hm) as (A & C); cbn; rewrite A; auto; fail).
    - binv Hs. inv Hs. destruct (setup_list_str (setup_ope g n rule) l H _ _ _ Hd Hm) as (A & C). cbn. rewrite A. auto.
    - binv Hs. binv Hs. inv Hs. destruct (setup_list_str (setup_ope g n rule) l H (with_cache st v) _ _ Hd Hm0) as (A & C). cbn. rewrite A. auto.
    - binv Hs. inv Hs. eauto.
    - binv Hs. inv Hs. eauto.
    - destruct rl as [r|]; [binv Hs|]; inv Hs; eauto.
    - binv Hs. inv Hs. destruct (IHo1 _ _ _ Hd Hm) as (A & C). cbn. rewrite A. auto.
  Qed.
  Lemma setup_rule_str n k : forall st r st', done_str st -> setup_rule g k n st r = Ok st' -> done_str st'.
  Proof.
    induction k as [|k IH]; intros st r st' Hd H; cbn [setup_rule] in H.
    - destruct (existsb _ _); [inv H; exact Hd|discriminate].
    - destruct (existsb _ _); [inv H; exact Hd|].
      destruct (nth_error g r) as [d|] eqn:Hr; [|discriminate]. destruct (r_body d) as [b|] eqn:Hb; [|discriminate].
      binv H. inv H. assert (Hd0 : done_str {| u_cache := u_cache st; u_seen := r :: u_seen st; u_done := u_done st |}) by exact Hd.
      destruct (setup_ope_str n _ IH b _ _ _ Hd0 Hm) as (A & C). intros r' b' [[= <- <-]|Hin]; [|now apply C]. exists d, b. auto.
  Qed.
  Lemma setup_all_str k n order : forall st st', done_str st -> setup_all g k n order st = Ok st' -> done_str st'.
  Proof.
    induction order as [|r order IH]; intros st st' Hd H; cbn [setup_all] in H; [inv H; exact Hd|].
    binv H. eapply IH; [|exact H]. eapply setup_rule_str; eauto.
  Qed.
  Theorem setup_strip k n order g' : setup_first_sets k n order g = Ok g' -> strip_grammar g' = strip_grammar g.
  Proof.
    intros H. unfold setup_first_sets in H. binv H. inv H.
    assert (Hd : done_str a) by (eapply setup_all_str; [|exact Hm]; intros r b' []).
    apply nth_error_ext. intros r. rewrite !strip_nth, apply_done_nth. destruct (nth_error g r) as [d|] eqn:Hr; [|reflexivity].
    cbn [option_map]. f_equal. destruct (find (fun e => fst e =? r) (u_done a)) as [[r' b']|] eqn:Hf; [|reflexivity].
    apply find_some in Hf as [Hin He]. cbn in He. apply Nat.eqb_eq in He as ->. destruct (Hd _ _ Hin) as (d0 & b & A & B & C).
    rewrite Hr in A. inv A. unfold strip_rule. cbn. rewrite B. cbn. rewrite C. reflexivity.
  Qed.
End Strip.

(** ** Through the pipeline *)
Section Pipe.
  Variable sg : list (bytes * bool * nat).
  Definition res_rule (d : rule) : bool := body_ok (res_ok sg (r_params d)) d.
  Definition res_grammar (g : grammar) : Prop := map rsig g = sg /\ forallb res_rule g = true.
  Lemma set_nth_map {A B} (f : A -> B) l : forall i x y, nth_error l i = Some y -> f x = f y -> map f (set_nth l i x) = map f l.
  Proof. induction l as [|z l IH]; intros [|i] x y H E; cbn in *; try discriminate; [inv H; congruence|]. f_equal. eapply IH; eauto. Qed.
  Lemma set_nth_forallb {A} (p : A -> bool) l : forall i x, forallb p l = true -> p x = true -> forallb p (set_nth l i x) = true.
  Proof.
    induction l as [|z l IH]; intros [|i] x H E; cbn in *; try reflexivity; apply andb_prop in H as [A1 A2]; rewrite ?E, ?A1, ?A2; auto. cbn. auto.
  Qed.
  Lemma empty_pass_res n : forall i g, res_grammar g -> res_grammar (fst (empty_pass n i g)).
  Proof.
    induction n as [|n IH]; intros i g [A B]; [split; auto|]. cbn [empty_pass]. destruct (nth_error g i) as [d|] eqn:Hd; [|split; auto]. cbv zeta.
    destruct (Bool.eqb _ _); [apply IH; split; auto|]. cbn [fst]. apply IH. split.
    - rewrite (set_nth_map rsig g i _ d Hd); [exact A|reflexivity].
    - apply set_nth_forallb; [exact B|]. rewrite forallb_forall in B. exact (B d (nth_error_In _ _ Hd)).
  Qed.
  Lemma empty_fix_res fuel : forall g g', res_grammar g -> empty_fix fuel g = Some g' -> res_grammar g'.
  Proof.
    induction fuel as [|fuel IH]; intros g g' H E; [discriminate|]. cbn [empty_fix] in E. pose proof (empty_pass_res (List.length g) 0 g H) as Hp.
    destruct (empty_pass (List.length g) 0 g) as [g1 ch]. destruct ch; [eapply IH; eauto|]. inv E. exact Hp.
  Qed.
  Lemma map_res (f : rule -> rule) g : (forall d, rsig (f d) = rsig d) -> (forall d, res_rule d = true -> res_rule (f d) = true) ->
    res_grammar g -> res_grammar (map f g).
  Proof.
    intros H1 H2 [A B]. split; [rewrite map_map, <- A; apply map_ext; exact H1|].
    rewrite forallb_forall in *. intros d Hd. apply in_map_iff in Hd as (d0 & <- & Hd0). auto.
  Qed.
  Lemma set_lrs_res fl : forall g, map rsig (set_lrs fl g) = map rsig g /\ forallb res_rule (set_lrs fl g) = forallb res_rule g.
  Proof.
    induction fl as [|b fl IH]; intros [|d g]; cbn; auto. destruct (IH g) as [A B]. rewrite A, B. split; reflexivity.
  Qed.
  Lemma tok_rule_res g : res_grammar g -> res_grammar (map tok_rule g).
  Proof.
    apply map_res; intros d; unfold tok_rule; destruct (r_body d) as [b|] eqn:Hb; try reflexivity; try (destruct (is_literal_token b); reflexivity); auto.
    destruct (is_literal_token b); [|auto]. unfold res_rule, body_ok. rewrite Hb. cbn. auto.
  Qed.
  Lemma prec_res ps r info b b' : apply_precedence r info b = Some b' -> res_ok sg ps b = true -> res_ok sg ps b' = true.
  Proof.
    unfold apply_precedence.
    repeat match goal with |- match ?x with _ => _ end = _ -> _ => destruct x; try discriminate end.
    intros H Hr. inv H. cbn [res_ok forallb] in Hr. rewrite !andb_true_iff in Hr. cbn [res_ok].
    destruct Hr as [[A1 A2] [[B1 B2] _]]. rewrite A1, A2. cbn. destruct B1 as [C1 C2]. rewrite C1. exact C2.
  Qed.
  Lemma instruct_res r i d d' : instruct r i d = Some d' -> res_rule d = true -> rsig d' = rsig d /\ res_rule d' = true.
  Proof.
    destruct i; cbn [instruct]; intros H Hr; try (inv H; split; [reflexivity|exact Hr]).
    destruct (r_body d) as [b|] eqn:Hb; [|discriminate]. destruct (apply_precedence r (prec_table ls) b) as [b'|] eqn:Hp; [|discriminate].
    inv H. split; [reflexivity|]. unfold res_rule, body_ok in *. rewrite Hb in Hr. cbn. eapply prec_res; eauto.
  Qed.
  Lemma instruct_all_res l : forall g g', res_grammar g -> instruct_all l g = Some g' -> res_grammar g'.
  Proof.
    induction l as [|[r i] l IH]; intros g g' [A B] H; cbn [instruct_all] in H; [inv H; split; auto|].
    destruct (nth_error g r) as [d|] eqn:Hd; [|discriminate]. destruct (instruct r i d) as [d'|] eqn:Hi; [|discriminate].
    assert (Hrd : res_rule d = true) by (rewrite forallb_forall in B; apply B; eapply nth_error_In; eauto).
    destruct (instruct_res _ _ _ _ Hi Hrd) as [C D]. eapply IH; [|exact H]. split.
    - rewrite (set_nth_map rsig g r _ d Hd); [exact A|exact C].
    - now apply set_nth_forallb.
  Qed.
  Lemma strip_res g : res_grammar (strip_grammar g) <-> res_grammar g.
  Proof.
    unfold res_grammar, strip_grammar. rewrite map_map.
    assert (E1 : map (fun d => rsig (strip_rule d)) g = map rsig g) by (apply map_ext; reflexivity).
    assert (E2 : forallb res_rule (map strip_rule g) = forallb res_rule g).
    { apply forallb_map_ext. apply Forall_forall. intros d _. unfold res_rule, body_ok. cbn. destruct (r_body d); [|reflexivity]. cbn. apply res_ok_strip. }
    rewrite E1, E2. reflexivity.
  Qed.
End Pipe.

Theorem loaded_references fuel keq lrec instrs start src l : source_grammar src ->
  load fuel keq lrec instrs start src = Some (Accepted l) ->
  ~ dangling src
  /\ forall d b n rl ia mac args, In d (ld_g l) -> r_body d = Some b -> inside (r_params d) b (Ref n rl ia mac args) ->
       resolved (ld_g l) (r_params d) n rl ia mac args.
Proof.
  intros [Hnd Hb _] H. unfold load in H. destruct (rule_named src start) as [s|]; [|discriminate]. destruct (nth_error src s) as [sd|]; [|discriminate].
  destruct (negb (forallb _ src)); [discriminate|]. destruct (r_ignore sd); [discriminate|].
  destruct (all_refs_ok src) eqn:Hall; cbn [negb] in H; [|discriminate].
  split; [now apply all_refs_ok_spec|].
  assert (R0 : res_grammar (map rsig src) (link_all src)).
  { split; [unfold link_all; rewrite map_map; apply map_ext; reflexivity|]. unfold link_all. apply forallb_forall. intros d Hd. apply in_map_iff in Hd as (d0 & <- & Hd0).
    unfold all_refs_ok in Hall. rewrite forallb_forall in Hall. specialize (Hall d0 Hd0). unfold res_rule, body_ok in *. cbn.
    destruct (Hb d0 Hd0) as (b & Hbd & Hf). rewrite Hbd in *. cbn. now apply link_res. }
  set (sg := map rsig src) in *.
  destruct (empty_fix fuel (link_all src)) as [g1|] eqn:Hg1; [|discriminate]. cbn [obind] in H. pose proof (empty_fix_res sg _ _ _ R0 Hg1) as R1.
  destruct (lr_flags fuel g1 keq) as [fl|]; [|discriminate]. cbn [obind] in H. destruct (_ && _); [discriminate|]. cbv zeta in H.
  assert (R2 : res_grammar sg (if lrec then set_lrs fl g1 else g1)).
  { destruct lrec; [|exact R1]. destruct (set_lrs_res sg fl g1) as [A B]. destruct R1 as [C D]. split; congruence. }
  set (g2 := if lrec then set_lrs fl g1 else g1) in *. clearbody g2.
  destruct (loop_detect fuel g2 s) as [[]|]; try discriminate. cbn [obind] in H.
  assert (R3 : res_grammar sg (match rule_named g2 ws_name return list rule with Some _ => map tok_rule g2 | None => g2 end)).
  { destruct (rule_named g2 ws_name); [now apply tok_rule_res|exact R2]. }
  set (g3 := match rule_named g2 ws_name return list rule with Some _ => map tok_rule g2 | None => g2 end) in *. clearbody g3.
  match type of H with obind ?x _ = _ => destruct x as [[]|]; try discriminate end. cbn [obind] in H.
  match type of H with obind ?x _ = _ => destruct x as [[]|]; try discriminate end. cbn [obind] in H.
  destruct (instruct_all instrs g3) as [g4|] eqn:Hg4; [|discriminate]. pose proof (instruct_all_res sg _ _ _ R3 Hg4) as R4.
  destruct (setup_first_sets fuel fuel (seq 0 (List.length g4)) g4) as [g5| | |] eqn:Hg5; try discriminate. inv H. cbn [ld_g].
  assert (R5 : res_grammar sg g5) by (apply strip_res; rewrite (setup_strip _ _ _ _ _ Hg5); now apply strip_res).
  destruct R5 as [A B]. intros d b n rl ia mac args Hd Hbd Hi. apply res_ok_resolved. rewrite A. eapply res_ok_inside; [exact Hi|].
  rewrite forallb_forall in B. specialize (B d Hd). unfold res_rule, body_ok in B. now rewrite Hbd in B.
Qed.
