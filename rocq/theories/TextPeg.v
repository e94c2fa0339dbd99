(** * The textbook PEG a list of definitions stands for (C57).

    Definitions are found by name; nothing here refers to the reader, the loader or the
    parser.  [NotationSpec.grammar_text] says which definitions a text consists of.

    If %whitespace is defined, it is skipped after every literal, after every
    dictionary and after every token boundary, but not inside a token boundary and not
    inside %whitespace itself; so a rule is one nonterminal per mode.  A rule that
    consists of literals only is a token then, and one with the instruction
    no_whitespace is read like a token boundary.  Macro calls, back references,
    recovery, cut and case-insensitive classes have no meaning here ([TBad]).
    A definition  A <- A a1 / ... / A an / b1 / ... / bm  (n > 0) is read as
    A <- (b1 / ... / bm) (a1 / ... / an)*. *)
From Verif Require Import Base TrieM Ope RefSem PegSpec DicDen PegDen LrSpec PrecSpec PrecM LoadM NotationSpec.

Inductive tnt :=
| TRule (n : bytes) (m : mode)
| TSkip (m : mode)
| TDic (t : trie)          (* the words of a dictionary, longest first (DicDen.v) *)
| TBad.

Section Text.
  Variable ds : list def.
  Definition def_named (n : bytes) : option def := find (fun x => bytes_eqb (df_name x) n) ds.
  Definition white : bytes := bs "%whitespace".
  Definition spaced : bool := match def_named white with Some _ => true | None => false end.
  Definition token (m : mode) : mode := if spaced then {| m_tok := true; m_ws := m_ws m |} else m.
  Definition then_skip (m : mode) (e : pexp tnt) : pexp tnt := PSeq e (PNT (TSkip m)).

  Fixpoint means (m : mode) (o : ope) : pexp tnt :=
    match o with
    | Seq _ l => PSeqs (map (means m) l)
    | Cho _ _ l => PAlts (map (means m) l)
    | Rep e mn mx _ => PRepeat mn mx (means m e)
    | And e => PAnd (means m e)
    | Not e => PNot (means m e)
    | Lit s ic => then_skip m (PLit ic s)
    | Dic t => then_skip m (PNT (TDic t))
    | Cls rs neg false => PChr (in_class rs neg)
    | Chr c => PChr (N.eqb c)
    | Dot => PChr (fun _ => true)
    | Csc e | Cap _ e | Ign e => means m e
    | Tok e => then_skip m (means (token m) e)
    | Ref n _ _ false [] => PNT (TRule n m)
    | _ => PNT TBad
    end.
  (** Literals and choices of such. *)
  Fixpoint literals_only (o : ope) : bool :=
    match o with Lit _ _ | Dic _ => true | Cho _ _ l => forallb literals_only l | _ => false end.
  (** The leading alternatives that start with [n] itself, without it; and the others. *)
  Definition self_alt (n : bytes) (o : ope) : option (list ope) :=
    match o with
    | Seq _ (Ref n' _ _ false [] :: rest) => if bytes_eqb n' n then Some rest else None
    | _ => None
    end.
  Fixpoint split_self (n : bytes) (l : list ope) : list (list ope) * list ope :=
    match l with
    | [] => ([], [])
    | o :: l' => match self_alt n o with Some rest => let (a, b) := split_self n l' in (rest :: a, b) | None => ([], l) end
    end.
  Definition reading (n : bytes) (b : ope) : ope :=
    match b with
    | Cho _ _ l => match split_self n l with ([], _) => b | (a, c) => iteration a c end
    | _ => b
    end.
  Definition body_means (m : mode) (x : def) : pexp tnt :=
    if spaced && literals_only (df_body x) then then_skip m (means (token m) (df_body x)) else means m (reading (df_name x) (df_body x)).
  Definition unspacedb (x : def) : bool := existsb (fun i => match i with INoWhitespace => true | _ => false end) (df_instrs x).
  Definition text_peg (n : tnt) : pexp tnt :=
    match n with
    | TRule n m =>
      match def_named n with
      | Some x => if unspacedb x then then_skip m (body_means (token m) x) else body_means m x
      | None => PNT TBad
      end
    | TSkip m =>
      match def_named white with
      | Some x => if m_tok m || m_ws m then PEps else body_means {| m_tok := false; m_ws := true |} x
      | None => PEps
      end
    | TDic t => dic_exp t
    | TBad => PNT TBad
    end.
  (** What a text has to match: white space, then the start rule. *)
  Definition text_start (start : bytes) : pexp tnt := PSeq (PNT (TSkip m_top)) (PNT (TRule start m_top)).
End Text.

(** The definitions the theorem is about: operators with a meaning in [means], every
    name defined and not a macro.  (Macros may be defined; no other rule calls them.) *)
Fixpoint covered (ds : list def) (o : ope) : bool :=
  match o with
  | Seq _ l | Cho _ _ l => negb (match l with [] => true | _ => false end) && forallb (covered ds) l
  | Rep e _ _ _ | And e | Not e | Csc e | Cap _ e | Tok e | Ign e => covered ds e
  | Lit _ _ | Dic _ | Cls _ _ false | Chr _ | Dot => true
  | Ref n _ _ false [] => match def_named ds n with Some x => match df_params x with None => true | Some _ => false end | None => false end
  | _ => false
  end.
Definition covered_text (ds : list def) : Prop := forall x, In x ds -> df_params x = None -> covered ds (df_body x) = true.
