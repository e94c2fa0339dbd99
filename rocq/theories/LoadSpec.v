(** * Vocabulary of C31: which references of a grammar are dangling. *)
From Verif Require Import Base Ope FirstSetM FirstSpec.
From Verif Require PegSpec.

(** The operators directly below [o] that can be evaluated when [o] is, in a rule
    with parameters [ps].  (What stands in parentheses after a parameter is never
    evaluated.) *)
Definition parts (ps : list bytes) (o : ope) : list ope :=
  match o with
  | Seq _ l | Cho _ _ l => l
  | Rep e _ _ _ | And e | Not e | Csc e | Cap _ e | Tok e | Ign e | Wsp e | Rcv e => [e]
  | Pre a b _ _ => [a; b]
  | Ref n _ _ _ args => if in_dec (list_eq_dec Byte.byte_eq_dec) n ps then [] else args
  | _ => []
  end.
Inductive inside (ps : list bytes) : ope -> ope -> Prop :=
| inside_self o : inside ps o o
| inside_part o p x : In p (parts ps o) -> inside ps p x -> inside ps o x.

(** A reference [name] or [name(args)] in a rule with parameters [ps] that is neither
    one of them nor a rule of [g] used with the right number of arguments. *)
Definition bad_reference (g : grammar) (ps : list bytes) (name : bytes) (mac : bool) (args : list ope) : Prop :=
  ~ In name ps /\
  ((forall d, In d g -> r_name d <> name)
   \/ exists d, In d g /\ r_name d = name
        /\ (r_is_macro d <> mac \/ (r_is_macro d = true /\ List.length args <> List.length (r_params d)))).
Definition dangling (g : grammar) : Prop :=
  exists d b name rl ia mac args, In d g /\ r_body d = Some b
    /\ inside (r_params d) b (Ref name rl ia mac args) /\ bad_reference g (r_params d) name mac args.

(** The reference is to parameter [ia] of the rule, or linked to a rule of that name
    and kind that takes as many arguments. *)
Definition resolved (g : grammar) (ps : list bytes) (name : bytes) (rl : option rid) (ia : nat) (mac : bool) (args : list ope) : Prop :=
  (rl = None /\ nth_error ps ia = Some name)
  \/ (exists r d, rl = Some r /\ nth_error g r = Some d /\ r_name d = name /\ r_is_macro d = mac
        /\ (mac = true -> List.length args = List.length (r_params d))).

(** Grammars as the grammar text gives them: references not linked, no operators that
    only the library creates, nothing annotated; every rule has a body; names are the
    keys of a map. *)
Fixpoint from_text (o : ope) : bool :=
  match o with
  | Seq None l | Cho _ [] l => forallb from_text l
  | Rep e _ _ None | And e | Not e | Csc e | Cap _ e | Tok e | Ign e | Rcv e => from_text e
  | Ref _ None _ mac args => (mac || match args with [] => true | _ => false end) && forallb from_text args
  | Dic _ | Lit _ _ | Cls _ _ _ | Chr _ | Dot | Bkr _ | Cut => true
  | _ => false
  end.
Record source_grammar (g : grammar) : Prop := {
  sg_names : NoDup (map r_name g);
  sg_bodies : forall d, In d g -> exists b, r_body d = Some b /\ from_text b = true;
  sg_flags : forall d, In d g -> r_lr d = false /\ r_can_be_empty d = false
}.

(** ** Vocabulary of C32, C33 and C45, for grammars without macros *)

(** [x] is a part of [o] outside the operand of every unbounded repetition in [o]. *)
Inductive unlooped : ope -> ope -> Prop :=
| unlooped_self o : unlooped o o
| unlooped_part o p x : (forall e mn sp, o <> Rep e mn None sp) -> In p (parts [] o) -> unlooped p x -> unlooped o x.

Section Calls.
  Variable g : grammar.
  Definition mentions (o : ope) (r : rid) : Prop := exists n ia mac args, inside [] o (Ref n (Some r) ia mac args).
  (** The body of rule [r] mentions rule [r']. *)
  Definition calls (r r' : rid) : Prop := exists d b, nth_error g r = Some d /\ r_body d = Some b /\ mentions b r'.
  Inductive reaches : rid -> rid -> Prop :=
  | reaches_self r : reaches r r
  | reaches_step r r1 r2 : calls r r1 -> reaches r1 r2 -> reaches r r2.
  (** Rule [r] can be run, from rule [s], inside an unbounded repetition. *)
  Definition run_in_loop (s r : rid) : Prop :=
    exists r0 d b e mn sp r1, reaches s r0 /\ nth_error g r0 = Some d /\ r_body d = Some b
      /\ inside [] b (Rep e mn None sp) /\ mentions e r1 /\ reaches r1 r.
  (** Rule [r] can be run in a parse that starts with [s], with whitespace rule [wr]. *)
  Definition run (s : rid) (wr : option rid) (r : rid) : Prop := reaches s r \/ exists w, wr = Some w /\ reaches w r.
  (** Part [o] of body [b] of rule [r] can be run inside an unbounded repetition. *)
  Definition looped (s : rid) (wr : option rid) (r : rid) (b o : ope) : Prop :=
    (exists e mn sp, inside [] b (Rep e mn None sp) /\ inside [] e o)
    \/ run_in_loop s r \/ exists w, wr = Some w /\ run_in_loop w r.
End Calls.

(** ** Vocabulary of C33 *)
Section FirstCalls.
  Variable g : grammar.
  (** [o] can call rule [r] before anything is consumed, predicates included. *)
  Inductive calls_first : ope -> rid -> Prop :=
  | cf_seq kg l1 o l2 r : Forall (may_be_empty g) l1 -> calls_first o r -> calls_first (Seq kg (l1 ++ o :: l2)) r
  | cf_cho fl fs l o r : In o l -> calls_first o r -> calls_first (Cho fl fs l) r
  | cf_rep e mn mx sp r : calls_first e r -> calls_first (Rep e mn mx sp) r
  | cf_and e r : calls_first e r -> calls_first (And e) r
  | cf_not e r : calls_first e r -> calls_first (Not e) r
  | cf_csc e r : calls_first e r -> calls_first (Csc e) r
  | cf_cap n e r : calls_first e r -> calls_first (Cap n e) r
  | cf_tok e r : calls_first e r -> calls_first (Tok e) r
  | cf_ign e r : calls_first e r -> calls_first (Ign e) r
  | cf_ref n r ia mac args : calls_first (Ref n (Some r) ia mac args) r.
  (** What the detection of left recursion takes for granted: if an alternative may be
      empty then so may the last one, and what is repeated at least once consumes. *)
  Definition regular (b : ope) : Prop :=
    forall x, inside [] b x ->
      match x with
      | Cho _ _ l => Exists (may_be_empty g) l -> exists l' y, l = l' ++ [y] /\ may_be_empty g y
      | Rep e mn _ _ => 0 < mn -> ~ may_be_empty g e
      | _ => True
      end.
  Inductive left_reaches : rid -> rid -> Prop :=
  | lr_one r r' d b : nth_error g r = Some d -> r_body d = Some b -> calls_first b r' -> left_reaches r r'
  | lr_more r r1 r2 : left_reaches r r1 -> left_reaches r1 r2 -> left_reaches r r2.
End FirstCalls.

(** In a textbook PEG: nonterminal [n] can call [n'] before it has consumed anything,
    directly or through others. *)
Inductive calls_left {NT : Type} (G : NT -> PegSpec.pexp NT) : NT -> NT -> Prop :=
| cl_one n n' : PegSpec.left_call G (G n) n' -> calls_left G n n'
| cl_more n n1 n2 : calls_left G n n1 -> PegSpec.left_call G (G n1) n2 -> calls_left G n n2.
