(** * What an error report says was expected (property C47). *)
From Verif Require Import Base BaseLemmas Utf8 Escape TrieM LineInfo Ope Ctx ErrLog Engine EngineLemmas Bounds EngineFacts.

(** A rule whose body is a token: a literal or dictionary or choice of those, or an
    expression with a token boundary or without references (Definition::is_token). *)
Definition is_token_rule (g : grammar) (r : rid) : bool :=
  match nth_error g r with Some d => match r_body d with Some o => is_token_ope o | None => false end | None => false end.
(** The rule a failure is attributed to, from the rules being parsed, outermost first: the
    outermost token rule, or the innermost rule if none of them is a token. *)
Inductive attributed (g : grammar) : list rid -> option rid -> Prop :=
| AttrToken : forall a r b, (forall x, In x a -> is_token_rule g x = false) -> is_token_rule g r = true -> attributed g (a ++ r :: b) (Some r)
| AttrInner : forall a r, (forall x, In x (a ++ [r]) -> is_token_rule g x = false) -> attributed g (a ++ [r]) (Some r)
| AttrNone : attributed g [] None.

Section Expected.
  Context {V U : Type}.
  Notation env := (env V U).
  Notation ctx := (ctx V U).
  Notation sv := (sv V).
  Implicit Types (E : env) (c : ctx) (vs : sv).
  Lemma error_rule_attr E : forall stk pre acc, (forall x, In x pre -> is_token_rule (e_g E) x = false) ->
    (match acc with Some r => exists a, pre = a ++ [r] | None => pre = [] end) ->
    attributed (e_g E) (pre ++ stk) (error_rule_of E stk acc).
  Proof.
    induction stk as [|r stk IH]; intros pre acc Hp Ha; cbn [error_rule_of].
    - rewrite app_nil_r. destruct acc as [r|]; [destruct Ha as [a ->]; now constructor|subst; constructor].
    - change (rule_is_token E r) with (is_token_rule (e_g E) r). destruct (is_token_rule (e_g E) r) eqn:Ht; [now constructor|].
      replace (pre ++ r :: stk) with ((pre ++ [r]) ++ stk) by (now rewrite <- app_assoc). apply IH; [|now exists pre].
      intros x Hx. apply in_app_or in Hx as [Hx|[<- |[]]]; auto.
  Qed.
  Lemma obytes_eq a b : obytes_eqb a b = true -> a = b.
  Proof. destruct a, b; cbn; try discriminate; [|reflexivity]. intros H. apply bytes_eqb_eq in H. now subst. Qed.
  Lemma orid_eq a b : orid_eqb a b = true -> a = b.
  Proof. destruct a, b; cbn; try discriminate; [|reflexivity]. intros H. apply Nat.eqb_eq in H. now subst. Qed.
  Lemma add_in l r e : In (l, r) (ei_exp (err_add l r e)) /\ forall x, In x (ei_exp e) -> In x (ei_exp (err_add l r e)).
  Proof.
    unfold err_add. destruct (existsb _ _) eqn:Hx.
    - apply existsb_exists in Hx as ([a b] & Hi & Hb). apply andb_prop in Hb as [H1 H2]. cbn [fst snd] in *.
      apply obytes_eq in H1. apply orid_eq in H2. subst. auto.
    - cbn. split; [apply in_or_app; right; now left|]. intros x Hi. apply in_or_app. now left.
  Qed.
  Lemma add_only l r e x : In x (ei_exp (err_add l r e)) -> x = (l, r) \/ In x (ei_exp e).
  Proof.
    unfold err_add. destruct (existsb _ _); [auto|]. cbn. intros Hi. apply in_app_or in Hi as [Hi|[<- |[]]]; auto.
  Qed.
  (** A literal that is not there, at or beyond every failure so far, is listed. *)
  Theorem literal_listed fuel E s pos vs c r vs' c' : wfE E -> pos <= List.length (e_input E) -> e_tracer E = false ->
    parse (S fuel) E (Lit s false) pos vs c = Ok (r, vs', c') -> c_log c = true ->
    ~ (exists rest, skipn pos (e_input E) = s ++ rest) ->
    (forall p, ei_pos (c_err c) = Some p -> p <= pos) ->
    r = None /\ ei_pos (c_err c') = Some pos
    /\ (exists q, In (Some s, q) (ei_exp (c_err c')) /\ attributed (e_g E) (rev (c_rstk c)) q)
    /\ (forall x, In x (ei_exp (c_err c')) -> fst x = Some s \/ (ei_pos (c_err c) = Some pos /\ In x (ei_exp (c_err c))))
    /\ (ei_keep (c_err c) = true -> ei_pos (c_err c) = Some pos -> forall x, In x (ei_exp (c_err c)) -> In x (ei_exp (c_err c'))).
  Proof.
    intros HE Hp Ht H Hlog Hno Hfar. cbn [parse] in H. unfold traced, is_traceable in H. rewrite Ht in H. cbn [andb parse_core] in H.
    unfold parse_literal in H. destruct (lit_loop_iff (e_input E) false s pos (left E pos)) as (b & Hb & Hiff); [unfold left, inlen; lia|].
    rewrite Hb in H. cbn [bind] in H. destruct b.
    { exfalso. apply Hno. exists (skipn (List.length s) (skipn pos (e_input E))). pose proof (proj1 Hiff eq_refl) as Hs. unfold sub in Hs.
      rewrite <- Hs at 1. symmetry. apply firstn_skipn. }
    injection H as <- <- <-. split; [reflexivity|]. clear Hb Hiff Hno. unfold set_error_pos. rewrite Hlog.
    assert (Hole : ole (ei_pos (c_err c)) pos = true). { unfold ole. destruct (ei_pos (c_err c)) as [p|]; [apply Nat.leb_le; auto|reflexivity]. }
    rewrite Hole. cbv zeta. csimpl.
    set (e1 := if olt (ei_pos (c_err c)) pos || negb (ei_keep (c_err c)) then err_move pos (c_err c) else c_err c).
    set (q := error_rule_of E (rev (c_rstk c)) None).
    assert (He1 : ei_pos e1 = Some pos /\ (forall x, In x (ei_exp e1) -> ei_pos (c_err c) = Some pos /\ In x (ei_exp (c_err c)))
      /\ (ei_keep (c_err c) = true -> ei_pos (c_err c) = Some pos -> e1 = c_err c)).
    { unfold e1. destruct (olt (ei_pos (c_err c)) pos || negb (ei_keep (c_err c))) eqn:Ho.
      - split; [reflexivity|]. split; [intros x []|]. intros Hk Hq. rewrite Hk, Hq in Ho. unfold olt in Ho. rewrite Nat.ltb_irrefl in Ho. discriminate.
      - apply orb_false_iff in Ho as [Ho _]. unfold olt in Ho. destruct (ei_pos (c_err c)) as [p|] eqn:Hq; [|discriminate].
        apply Nat.ltb_ge in Ho. specialize (Hfar p eq_refl). assert (p = pos) as -> by lia. auto. }
    destruct He1 as (A & B & C). destruct (add_in (Some s) q e1) as [D F].
    split; [now rewrite ei_pos_add|]. split; [exists q; split; [exact D|exact (error_rule_attr E (rev (c_rstk c)) [] None (fun x (Hx : In x []) => match Hx with end) eq_refl)]|].
    split.
    - intros x Hx. apply add_only in Hx as [-> |Hx]; [now left|right; auto].
    - intros Hk Hq x Hx. apply F. now rewrite (C Hk Hq).
  Qed.
End Expected.
