(** * More fuel never changes a finished parse. *)
From Verif Require Import Base BaseLemmas Utf8 Escape TrieM LineInfo Ope Ctx ErrLog Engine EngineLemmas Top.

(** [ole o o']: [o] ran out of fuel, or both are the same. *)
Definition below {A} (o o' : outcome A) : Prop := o = OutOfFuel \/ o = o'.
Lemma below_refl {A} (o : outcome A) : below o o.
Proof. now right. Qed.
Lemma below_bind {A B} (m m' : outcome A) (f f' : A -> outcome B) :
  below m m' -> (forall a, below (f a) (f' a)) -> below (bind m f) (bind m' f').
Proof.
  intros [-> | ->] Hf; [now left|]. destruct m'; cbn; try (now right). apply Hf.
Qed.
Lemma below_trans {A} (x y z : outcome A) : below x y -> below y z -> below x z.
Proof. intros [-> | ->]; [now left|auto]. Qed.
Lemma below_Ok {A} (o o' : outcome A) a : below o o' -> o = Ok a -> o' = Ok a.
Proof. intros [-> | ->]; congruence. Qed.

Ltac bmono :=
  repeat first
  [ apply below_refl
  | assumption
  | match goal with H : forall _, _ |- below _ _ => apply H end
  | apply below_bind; [|let x := fresh in intros x]
  | match goal with
    | |- below (match ?x with _ => _ end) (match ?x with _ => _ end) => destruct x
    | |- below (let (_, _) := ?x in _) _ => destruct x
    end ].

Section Mono.
  Context {V U : Type}.
  Notation env := (env V U).
  Notation ctx := (ctx V U).
  Notation sv := (sv V).
  Implicit Types (E : env) (c : ctx) (vs : sv).
  Variables rec rec' : @rec_t V U.
  Hypothesis H : forall E o pos vs c, below (rec E o pos vs c) (rec' E o pos vs c).

  Lemma b_skip E pos vs c : below (skip_whitespace E rec pos vs c) (skip_whitespace E rec' pos vs c).
  Proof. unfold skip_whitespace. bmono. Qed.
  Lemma b_then E pos len vs c : below (then_skip E rec pos len vs c) (then_skip E rec' pos len vs c).
  Proof. unfold then_skip. pose proof b_skip. bmono. Qed.
  Lemma b_lit E l ic pos vs c : below (parse_literal E rec l ic pos vs c) (parse_literal E rec' l ic pos vs c).
  Proof. unfold parse_literal, is_word, not_word. pose proof b_then. bmono. Qed.
  Lemma b_dic E t pos vs c : below (parse_dic E rec t pos vs c) (parse_dic E rec' t pos vs c).
  Proof. unfold parse_dic, not_word. pose proof b_then. cbv zeta. bmono. Qed.
  Lemma b_seq_loop E l : forall pos i vs c, below (seq_loop E rec l pos i vs c) (seq_loop E rec' l pos i vs c).
  Proof. induction l; intros; cbn [seq_loop]; bmono. Qed.
  Lemma b_seq E kg l pos vs c : below (parse_seq E rec kg l pos vs c) (parse_seq E rec' kg l pos vs c).
  Proof.
    unfold parse_seq, parse_keyword_guarded. pose proof b_then. pose proof (b_seq_loop E l). cbv zeta. bmono.
  Qed.
  Lemma b_cho_loop E fs total l : forall id pos vs c,
    below (cho_loop E rec fs total l id pos vs c) (cho_loop E rec' fs total l id pos vs c).
  Proof. induction l; intros; cbn [cho_loop]; cbv zeta; bmono. Qed.
  Lemma b_cho E fl fs l pos vs c : below (parse_cho E rec fl fs l pos vs c) (parse_cho E rec' fl fs l pos vs c).
  Proof. unfold parse_cho. cbv zeta. pose proof b_cho_loop. bmono. Qed.
  Lemma b_rep_min E e m : forall pos i vs c, below (rep_min E rec e m pos i vs c) (rep_min E rec' e m pos i vs c).
  Proof. induction m; intros; cbn [rep_min]; bmono. Qed.
  Lemma b_rep_more E e fuel : forall fuel' room pos i vs c, fuel <= fuel' ->
    below (rep_more fuel E rec e room pos i vs c) (rep_more fuel' E rec' e room pos i vs c).
  Proof.
    induction fuel as [|fuel IH]; intros [|fuel'] room pos i vs c Hf; try lia.
    - apply below_refl.
    - cbn [rep_more]. destruct room as [[|n]|]; [apply below_refl|now left|now left].
    - cbn [rep_more]. assert (Hf' : fuel <= fuel') by lia.
      destruct room as [[|n]|]; bmono; try (apply IH; assumption).
  Qed.
  Lemma b_rep fuel fuel' E e mn mx sp pos vs c : fuel <= fuel' ->
    below (parse_rep fuel E rec e mn mx sp pos vs c) (parse_rep fuel' E rec' e mn mx sp pos vs c).
  Proof.
    intros Hf. unfold parse_rep. destruct sp; [apply below_refl|]. apply below_bind; [apply b_rep_min|].
    intros [[r v] k]. destruct r; [|apply below_refl]. destruct mx; [|now apply b_rep_more].
    destruct (mn <? n0); [now apply b_rep_more|apply below_refl].
  Qed.
  Lemma b_body E r d body pos vs c : below (parse_ope_body E rec r d body pos vs c) (parse_ope_body E rec' r d body pos vs c).
  Proof. unfold parse_ope_body. cbv zeta. pose proof b_then. bmono. Qed.
  Lemma b_do E r d body pos c : below (do_parse E rec r d body pos c) (do_parse E rec' r d body pos c).
  Proof. unfold do_parse. cbv zeta. apply below_bind; [apply b_body|]. intros; apply below_refl. Qed.
  Lemma b_packrat E pos r fn fn' c : (forall c, below (fn c) (fn' c)) ->
    below (packrat E pos r fn c) (packrat E pos r fn' c).
  Proof. intros Hf. unfold packrat. cbv zeta. bmono. Qed.
  Lemma b_guard (E : env) pos r fn fn' c : (forall c, below (fn c) (fn' c)) ->
    below (guard pos r fn c) (@guard V U pos r fn' c).
  Proof. intros Hf. unfold guard. bmono. Qed.
  Lemma b_grow fuel : forall fuel' E r d body cycle pos len val c, fuel <= fuel' ->
    below (lr_grow fuel E rec r d body cycle pos len val c) (lr_grow fuel' E rec' r d body cycle pos len val c).
  Proof.
    induction fuel as [|fuel IH]; intros [|fuel'] E r d body cycle pos len val c Hf; try lia; try (now left).
    cbn [lr_grow]. cbv zeta. apply below_bind; [apply b_do|]. intros [[nl nv] k].
    destruct nl; [|apply below_refl]. destruct (_ <=? _); [apply below_refl|]. apply IH. lia.
  Qed.
  Lemma b_lr fuel fuel' E r d body pos c : fuel <= fuel' ->
    below (parse_lr fuel E rec r d body pos c) (parse_lr fuel' E rec' r d body pos c).
  Proof.
    intros Hf. unfold parse_lr. cbv zeta. destruct (lr_find _ _) as [[[]]|]; try apply below_refl.
    apply below_bind; [apply b_do|]. intros [[il iv] k]. destruct il; [|apply below_refl].
    apply below_bind; [now apply b_grow|]. intros; apply below_refl.
  Qed.
  Lemma b_hld fuel fuel' E r pos vs c : fuel <= fuel' ->
    below (parse_hld fuel E rec r pos vs c) (parse_hld fuel' E rec' r pos vs c).
  Proof.
    intros Hf. unfold parse_hld. cbv zeta. pose proof b_body. pose proof b_do.
    apply below_bind; [apply below_refl|]. intros d. destruct (r_body d); [|apply below_refl].
    destruct (r_is_macro d); [bmono|]. destruct (_ && _); [bmono|].
    apply below_bind; [|intros; apply below_refl].
    destruct (r_lr d); [now apply b_lr|]. destruct (e_packrat E); [apply b_packrat|apply (b_guard E)]; auto.
  Qed.
  Lemma b_ref E rl i args pos vs c : below (parse_ref E rec rl i args pos vs c) (parse_ref E rec' rl i args pos vs c).
  Proof. unfold parse_ref, parse_dispatch. cbv zeta. bmono. Qed.
  Lemma b_prec_loop fuel : forall fuel' E atom binop info rl mp pos i vs c, fuel <= fuel' ->
    below (prec_loop fuel E rec atom binop info rl mp pos i vs c) (prec_loop fuel' E rec' atom binop info rl mp pos i vs c).
  Proof.
    induction fuel as [|fuel IH]; intros [|fuel'] E atom binop info rl mp pos i vs c Hf; try lia;
      try (apply below_refl); try (cbn [prec_loop]; destruct (_ <? _); [now left|apply below_refl]).
    cbn [prec_loop]. assert (Hf' : fuel <= fuel') by lia. cbv zeta.
    destruct (_ <? _); [|apply below_refl]. apply below_bind; [apply H|]. intros [[r v] k].
    destruct r; [|apply below_refl]. destruct (binfo_find _ _) as [[]|]; [|apply below_refl].
    destruct (_ <? _); [apply below_refl|]. destruct (v_vals v); [apply below_refl|].
    apply below_bind.
    - apply below_bind; [apply H|]. intros [[ra va] ca]. destruct ra; [|apply below_refl].
      apply below_bind; [apply below_refl|]. intros br.
      apply below_bind; [now apply IH|]. intros; apply below_refl.
    - intros [[r2 v2] k2]. destruct r2; [|apply below_refl]. destruct (v_vals v2); [apply below_refl|].
      match goal with |- below (match ?x with _ => _ end) _ => destruct x as [[? ?] ?] end. now apply IH.
  Qed.
  Lemma b_prec fuel fuel' E a b info rl pos vs c : fuel <= fuel' ->
    below (parse_prec fuel E rec a b info rl pos vs c) (parse_prec fuel' E rec' a b info rl pos vs c).
  Proof.
    intros Hf. unfold parse_prec. apply below_bind; [apply H|]. intros [[r v] k]. destruct r; [|apply below_refl].
    apply below_bind; [apply below_refl|]. intros br. apply below_bind; [now apply b_prec_loop|]. intros; apply below_refl.
  Qed.
  Lemma b_rcv E e pos vs c : below (parse_rcv E rec e pos vs c) (parse_rcv E rec' e pos vs c).
  Proof.
    unfold parse_rcv. cbv zeta. destruct e; try apply below_refl.
    apply below_bind; [apply below_refl|]. intros c1. apply below_bind; [apply H|]. intros; apply below_refl.
  Qed.
  Lemma b_core fuel fuel' E o pos vs c : fuel <= fuel' ->
    below (parse_core fuel rec E o pos vs c) (parse_core fuel' rec' E o pos vs c).
  Proof.
    intros Hf. destruct o; cbn [parse_core];
      try apply below_refl; try apply H;
      auto using b_seq, b_cho, b_rep, b_dic, b_lit, b_hld, b_ref, b_prec, b_rcv.
    - unfold parse_and. bmono.
    - unfold parse_not. bmono.
    - unfold parse_csc. bmono.
    - unfold parse_cap. bmono.
    - unfold parse_tok. pose proof b_then. cbv zeta. bmono.
    - unfold parse_ign. bmono.
    - unfold parse_wsp. bmono.
    - unfold parse_bkr. pose proof b_lit. bmono.
  Qed.
End Mono.

Section Main.
  Context {V U : Type}.
  Implicit Types (E : env V U) (c : ctx V U) (vs : sv V).
  Theorem parse_below : forall fuel fuel' E o pos vs c, fuel <= fuel' ->
    below (parse fuel E o pos vs c) (parse fuel' E o pos vs c).
  Proof.
    induction fuel as [|fuel IH]; intros [|fuel'] E o pos vs c Hf; try lia; try (now left).
    cbn [parse]. assert (Hf' : fuel <= fuel') by lia. unfold traced. cbv zeta.
    destruct (is_traceable E o c).
    - apply below_bind; [|intros; apply below_refl]. apply b_core; auto.
    - apply b_core; auto.
  Qed.
  (** A finished parse is the same for every larger fuel. *)
  Theorem parse_mono fuel fuel' E o pos vs c x : fuel <= fuel' ->
    parse fuel E o pos vs c = Ok x -> parse fuel' E o pos vs c = Ok x.
  Proof. intros Hf. apply below_Ok. now apply parse_below. Qed.
  Theorem parse_det f1 f2 E o pos vs c x y :
    parse f1 E o pos vs c = Ok x -> parse f2 E o pos vs c = Ok y -> x = y.
  Proof.
    intros H1 H2. assert (H3 := parse_mono f1 (f1 + f2) E o pos vs c x ltac:(lia) H1).
    assert (H4 := parse_mono f2 (f1 + f2) E o pos vs c y ltac:(lia) H2). congruence.
  Qed.
  Theorem def_parse_below fuel fuel' (P : pobj V U) input dt : fuel <= fuel' ->
    below (def_parse fuel P input dt) (def_parse fuel' P input dt).
  Proof.
    intros Hf. unfold def_parse. cbv zeta. apply below_bind.
    - destruct (p_ws P); [|apply below_refl]. apply below_bind; [now apply parse_below|]. intros; apply below_refl.
    - intros [[wl vs1] c1]. destruct wl; [|apply below_refl].
      apply below_bind; [now apply parse_below|]. intros; apply below_refl.
  Qed.
  Theorem parser_parse_below fuel fuel' (P : pobj V U) input dt : fuel <= fuel' ->
    below (parser_parse fuel P input dt) (parser_parse fuel' P input dt).
  Proof.
    intros Hf. unfold parser_parse. apply below_bind; [now apply def_parse_below|]. intros; apply below_refl.
  Qed.
End Main.
