(** * What a trace says (properties C29, C38): nesting of enter/leave events and
    the failures a trace shows. *)
From Verif Require Import Base Utf8 Escape TrieM LineInfo Ope Ctx ErrLog Engine EngineSpec.

(** Oldest first: a sequence of complete enter ... leave brackets, a leave event
    naming the operator and position of its enter event. *)
Inductive nested : list event -> Prop :=
| ne_nil : nested []
| ne_one o pos r inner rest : nested inner -> nested rest ->
    nested (TEnter o pos :: inner ++ TLeave o pos r :: rest).

(** A terminal (or a negative predicate) failed at [p]. *)
Definition failure (inp : bytes) (e : event) (p : nat) : Prop :=
  match e with
  | TLeave o pos None => p = pos /\
    match o with
    | Lit s ic => ~ text_at inp pos s ic
    | Dic t => fst (trie_match t (from inp pos)) = 0
    | Cls _ _ _ | Chr _ | Dot | Not _ => True
    | _ => False
    end
  | _ => False
  end.

(** What can make [p] the error position: a failed terminal at [p]; or one of the
    shortcuts that stand for failed terminals (an alternative skipped by its first
    set, a keyword guard, a byte-set span that stopped short at [p]). *)
Definition blamed (e : event) (p : nat) : Prop :=
  match e with
  | TLeave o pos None =>
    match o with
    | Lit _ _ | Dic _ | Cls _ _ _ | Chr _ | Dot | Not _ | Bkr _ => p = pos
    | Seq (Some _) _ => p = pos
    | Rep _ mn _ (Some _) => pos <= p < pos + mn
    | _ => False
    end
  | TEnter (Cho _ (_ :: _) _) pos => p = pos
  | _ => False
  end.

(** No error recovery operator ([e^label]) in the expression. *)
Fixpoint norcv (o : ope) : bool :=
  match o with
  | Rcv _ => false
  | Seq _ l | Cho _ _ l => forallb norcv l
  | Rep e _ _ _ | And e | Not e | Csc e | Cap _ e | Tok e | Ign e | Wsp e => norcv e
  | Ref _ _ _ _ args => forallb norcv args
  | Pre a b _ _ => norcv a && norcv b
  | _ => true
  end.
