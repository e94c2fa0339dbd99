(** * Replacing macro calls by macro bodies (vocabulary of C41). *)
From Verif Require Import Base TrieM Ope Refine.

(** The [i]th parameter of the enclosing macro is replaced by the [i]th argument. *)
Fixpoint fill (args : list ope) (o : ope) : ope :=
  match o with
  | Seq kg l => Seq kg (map (fill args) l)
  | Cho fl fs l => Cho fl fs (map (fill args) l)
  | Rep e mn mx sp => Rep (fill args e) mn mx sp
  | And e => And (fill args e)
  | Not e => Not (fill args e)
  | Csc e => Csc (fill args e)
  | Cap n e => Cap n (fill args e)
  | Tok e => Tok (fill args e)
  | Ign e => Ign (fill args e)
  | Ref n None i mc l => nth i args o
  | Ref n (Some r) i mc l => Ref n (Some r) i mc (map (fill args) l)
  | _ => o
  end.

(** [inlines g o o']: [o'] is [o] with some macro calls replaced by the macro's
    body, filled with the arguments (repeatedly). *)
Inductive inlines (g : grammar) : ope -> ope -> Prop :=
| il_call n r i mc args d body o' :
    nth_error g r = Some d -> r_is_macro d = true -> r_lr d = false -> r_body d = Some body -> List.length args = List.length (r_params d) ->
    inlines g (fill args body) o' -> inlines g (Ref n (Some r) i mc args) o'
| il_same o : inlines g o o
| il_seq kg l l' : Forall2 (inlines g) l l' -> inlines g (Seq kg l) (Seq kg l')
| il_cho fl fs l l' : Forall2 (inlines g) l l' -> inlines g (Cho fl fs l) (Cho fl fs l')
| il_rep e e' mn mx sp : inlines g e e' -> inlines g (Rep e mn mx sp) (Rep e' mn mx sp)
| il_and e e' : inlines g e e' -> inlines g (And e) (And e')
| il_not e e' : inlines g e e' -> inlines g (Not e) (Not e')
| il_csc e e' : inlines g e e' -> inlines g (Csc e) (Csc e')
| il_cap n e e' : inlines g e e' -> inlines g (Cap n e) (Cap n e')
| il_tok e e' : inlines g e e' -> inlines g (Tok e) (Tok e')
| il_ign e e' : inlines g e e' -> inlines g (Ign e) (Ign e').

(** Position of a name in a parameter list. *)
Fixpoint param_index (ps : list bytes) (n : bytes) : option nat :=
  match ps with
  | [] => None
  | p :: ps' => if bytes_eqb p n then Some 0 else option_map S (param_index ps' n)
  end.

(** Parameters are referred to by their name and position; no rule has the name of
    a parameter of some macro; a macro call within a macro argument does not mention
    the enclosing macro's parameters. *)
Section Named.
  Variable g : grammar.
  Fixpoint named (ps : list bytes) (in_arg : bool) (o : ope) : bool :=
    match o with
    | Seq None l | Cho false [] l => forallb (named ps in_arg) l
    | Rep e _ _ None | And e | Not e | Csc e | Cap _ e | Tok e | Ign e => named ps in_arg e
    | Dic _ | Lit _ _ | Cls _ _ _ | Chr _ | Dot => true
    | Ref n None i _ [] => match param_index ps n with Some j => j =? i | None => false end
    | Ref n (Some r) _ _ l =>
      hygienic g n && forallb (named (if in_arg then [] else ps) true) l
      && match nth_error g r with Some d => implb (r_is_macro d) (List.length l =? List.length (r_params d)) | None => true end
    | _ => false
    end.
  Definition named_rule (d : rule) : bool :=
    match r_body d with
    | None => true
    | Some b => named (r_params d) false b && implb (negb (r_is_macro d)) (match r_params d with [] => true | _ => false end)
    end.
  Definition named_grammar : bool := forallb named_rule g.
End Named.

(** [g'] is [g] with some macro calls of its ordinary rules inlined. *)
Definition inlined_rule (g : grammar) (d d' : rule) : Prop :=
  r_name d' = r_name d /\ r_ignore d' = r_ignore d /\ r_is_macro d' = r_is_macro d /\ r_params d' = r_params d
  /\ r_lr d' = r_lr d /\ r_no_whitespace d' = r_no_whitespace d
  /\ match r_body d, r_body d' with
     | None, None => True
     | Some b, Some b' => if r_is_macro d then b' = b else inlines g b b'
     | _, _ => False
     end.
Definition inlined (g g' : grammar) : Prop := Forall2 (inlined_rule g) g g'.
