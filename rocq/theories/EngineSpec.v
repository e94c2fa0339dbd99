(** * Vocabulary of the operator-level properties (C14, C15, C21, C23-C25, C27).
    Small and separate from the proofs: what an observer of a sub-parse sees. *)
From Verif Require Import Base Utf8 Escape TrieM LineInfo Ope Ctx ErrLog Engine.

Section Spec.
  Context {V U : Type}.
  Notation env := (env V U).
  Notation ctx := (ctx V U).
  Notation sv := (sv V).

  (** The evaluation state an expression can depend on: captures, macro
      arguments, rule stack, token and whitespace nesting, open choices. *)
  Definition view (c : ctx) := (c_caps c, c_args c, c_rstk c, c_tb c, c_inws c).

  (** [e] matched [n] times in a row, from ([pos], [vs], [c]) to ([pos'], [vs'], [c']),
      each iteration starting where and with what the previous one left. *)
  Inductive iterations (E : env) (f : nat) (e : ope) :
    nat -> nat -> sv -> ctx -> nat -> sv -> ctx -> Prop :=
  | it_zero pos vs c : iterations E f e 0 pos vs c pos vs c
  | it_more n pos vs c k vs1 c1 pos' vs' c' :
      parse f E e pos vs c = Ok (Some k, vs1, c1) ->
      iterations E f e n (pos + k) vs1 c1 pos' vs' c' ->
      iterations E f e (S n) pos vs c pos' vs' c'.

  (** The expressions of [l] matched one after the other. *)
  Inductive in_turn (E : env) (f : nat) :
    list ope -> nat -> sv -> ctx -> nat -> sv -> ctx -> Prop :=
  | tu_nil pos vs c : in_turn E f [] pos vs c pos vs c
  | tu_cons o l pos vs c k vs1 c1 pos' vs' c' :
      parse f E o pos vs c = Ok (Some k, vs1, c1) ->
      in_turn E f l (pos + k) vs1 c1 pos' vs' c' ->
      in_turn E f (o :: l) pos vs c pos' vs' c'.
  (** ... up to one that failed. *)
  Definition fails_in_turn (E : env) (f : nat) (l : list ope) (pos : nat) (vs : sv) (c : ctx) : Prop :=
    exists l1 o l2 pos1 vs1 c1 vs2 c2, l = l1 ++ o :: l2 /\ in_turn E f l1 pos vs c pos1 vs1 c1
      /\ parse f E o pos1 vs1 c1 = Ok (None, vs2, c2).

  (** [s] is in the input at [pos], up to letter case if [ic]. *)
  Definition text_at (inp : bytes) (pos : nat) (s : bytes) (ic : bool) : Prop :=
    if ic then to_lower (sub inp pos (List.length s)) = to_lower s
    else sub inp pos (List.length s) = s.

  (** The %word expression matches at [pos] of [inp]. *)
  Definition word_at (E : env) (w : ope) (inp : bytes) (pos : nat) : Prop :=
    exists f n vs c, parse f (word_env E inp) w pos sv_new (word_ctx E) = Ok (Some n, vs, c).
  (** ... and is known not to. *)
  Definition no_word_at (E : env) (w : ope) (inp : bytes) (pos : nat) : Prop :=
    exists f vs c, parse f (word_env E inp) w pos sv_new (word_ctx E) = Ok (None, vs, c).

  (** Whitespace skipping from [pos] takes [k] bytes: none inside a token or
      without %whitespace. *)
  Definition skips (E : env) (pos : nat) (vs : sv) (c : ctx) (k : nat) (vs' : sv) (c' : ctx) : Prop :=
    match e_ws E with
    | None => k = 0 /\ vs' = vs /\ view c' = view c
    | Some w =>
      if 0 <? c_tb c then k = 0 /\ vs' = vs /\ view c' = view c
      else exists f c1 c2, view c1 = view c /\ view c' = view c2
             /\ parse f E w pos vs c1 = Ok (Some k, vs', c2)
    end.
  (** Whitespace skipping is attempted and fails (e.g. [%whitespace <- [ ]+]). *)
  Definition skip_fails (E : env) (pos : nat) (vs : sv) (c : ctx) : Prop :=
    exists w f c1 c2 vs', e_ws E = Some w /\ c_tb c = 0 /\ view c1 = view c
      /\ parse f E w pos vs c1 = Ok (None, vs', c2).

  (** No choice anywhere is one made for a label ([e^label], whose choice has no
      cut frame of its own). *)
  Fixpoint nolabel (o : ope) : bool :=
    match o with
    | Seq _ l => forallb nolabel l
    | Cho fl _ l => negb fl && forallb nolabel l
    | Rep e _ _ _ | And e | Not e | Csc e | Cap _ e | Tok e | Ign e | Wsp e | Rcv e => nolabel e
    | Ref _ _ _ _ args => forallb nolabel args
    | Pre a b _ _ => nolabel a && nolabel b
    | _ => true
    end.
End Spec.
