(** * Parser operators and rules as data: peglib.h 1440-2213, 3106-3330.
    Every C++ [Ope] subclass is one constructor; [std::shared_ptr<Ope>] edges
    become tree edges, except that a rule is reached by its index ([rid], the
    [Definition*]). *)
From Verif Require Import Base Utf8 Escape TrieM LineInfo.

Definition rid := nat.

(** [std::bitset<256>] as a bit mask. *)
Definition bitset := N.
Definition btest (s : bitset) (b : byte) : bool := N.testbit s (bN b).
Definition bset (s : bitset) (n : N) : bitset := N.setbit s n.

(** FirstSet, peglib.h 1556-1572.  The pointers [first_literal] and
    [first_rule] become the literal's text and the rule's index. *)
Record first_set := {
  fs_chars : bitset;
  fs_can_be_empty : bool;
  fs_any_char : bool;
  fs_first_literal : option bytes;
  fs_first_rule : option rid
}.

(** KeywordGuardData, peglib.h 1457-1471. *)
Record kw_guard := {
  kg_first : bitset;
  kg_rest : bitset;
  kg_exact : list bytes;
  kg_prefix : list bytes;
  kg_min : nat;
  kg_max : nat
}.

(** Precedence table: operator text, level, associativity is left
    (PrecedenceClimbing::BinOpeInfo, peglib.h 2160). *)
Definition binop_info := list (bytes * (nat * bool)).

Inductive ope : Type :=
| Seq (kg : option kw_guard) (l : list ope)                     (* Sequence 1474 *)
| Cho (for_label : bool) (fs : list first_set) (l : list ope)   (* PrioritizedChoice 1574 *)
| Rep (e : ope) (min : nat) (max : option nat) (span : option bitset)
                                       (* Repetition 1660; None = SIZE_MAX *)
| And (e : ope)                                                 (* AndPredicate 1740 *)
| Not (e : ope)                                                 (* NotPredicate 1760 *)
| Dic (t : trie)                                                (* Dictionary 1783 *)
| Lit (s : bytes) (ic : bool)                                   (* LiteralString 1798 *)
| Cls (rs : ranges) (neg ic : bool)                             (* CharacterClass 1823 *)
| Chr (cp : N)                                                  (* Character 1927 *)
| Dot                                                           (* AnyCharacter 1953 *)
| Csc (e : ope)                                                 (* CaptureScope 1969 *)
| Cap (name : bytes) (e : ope)      (* Capture 1986 with the action of 5862-5870 *)
| Tok (e : ope)                                                 (* TokenBoundary 2006 *)
| Ign (e : ope)                                                 (* Ignore 2020 *)
| Usr (id : nat)                                                (* User 2039 *)
| Wkh (r : rid)                                                 (* WeakHolder 2053 *)
| Hld (r : rid)                                                 (* Holder 2069 *)
| Ref (name : bytes) (rule : option rid) (iarg : nat) (is_macro : bool) (args : list ope)
                                                                (* Reference 2098 *)
| Wsp (e : ope)                                                 (* Whitespace 2127 *)
| Bkr (name : bytes)                                            (* BackReference 2144 *)
| Pre (atom binop : ope) (info : binop_info) (rule : rid)       (* PrecedenceClimbing 2158 *)
| Rcv (e : ope)                                                 (* Recovery 2190 *)
| Cut                                                           (* Cut 2202 *)
| Nul.                              (* a null shared_ptr<Ope> *)

(** Definition, peglib.h 3106-3330: the parts read while parsing.  [r_body] is
    [holder_->ope_], null until assigned. *)
Record rule := {
  r_name : bytes;
  r_body : option ope;
  r_ignore : bool;            (* ignoreSemanticValue *)
  r_is_macro : bool;
  r_params : list bytes;
  r_disable_action : bool;
  r_lr : bool;                (* is_left_recursive *)
  r_can_be_empty : bool;
  r_macro_ref : bool;         (* has_macro_ref *)
  r_error_message : bytes;
  r_no_ast_opt : bool;
  r_no_whitespace : bool;
  r_ast_name : bytes
}.

Definition grammar := list rule.

(** Ope::is_token_boundary / is_choice_like flags (peglib.h 1449-1450, set in the
    constructors at 1580-1589, 1787, 2009). *)
Definition is_token_boundary (o : ope) : bool := match o with Tok _ => true | _ => false end.
Definition is_choice_like (o : ope) : bool :=
  match o with Cho _ _ _ | Dic _ => true | _ => false end.

(** IsLiteralToken, peglib.h 2462-2483. *)
Fixpoint is_literal_token (o : ope) : bool :=
  match o with
  | Cho _ _ l => forallb is_literal_token l
  | Dic _ | Lit _ _ => true
  | _ => false
  end.

(** TokenChecker, peglib.h 2485-2505, 4370-4378: (has_token_boundary, has_rule).
    A Reference is entered only through the arguments of a macro call. *)
Fixpoint token_check (o : ope) : bool * bool :=
  let or2 a b := (fst a || fst b, snd a || snd b)%bool in
  let all l := fold_right (fun o acc => or2 (token_check o) acc) (false, false) l in
  match o with
  | Tok _ => (true, false)
  | And _ | Not _ => (false, false)
  | Wkh _ => (false, true)
  | Ref _ _ _ m args => if m then all args else (false, true)
  | Seq _ l | Cho _ _ l => all l
  | Rep e _ _ _ | Csc e | Cap _ e | Ign e | Wsp e | Rcv e | Pre e _ _ _ => token_check e
  | _ => (false, false)
  end.
Definition is_token_ope (o : ope) : bool :=
  is_literal_token o || (let r := token_check o in fst r || negb (snd r)).

(** FindLiteralToken, peglib.h 2507-2524, 4380-4387: the last literal found.
    [ope.rule_->accept] reaches a Holder, whose visit is empty. *)
Fixpoint find_literal_token (o : ope) : option bytes :=
  match o with
  | Lit s _ => Some s
  | Tok e | Ign e | Rcv e => find_literal_token e
  | Ref _ _ _ true args =>
    fold_left (fun acc t => match t with Some s => Some s | None => acc end)
              (map find_literal_token args) None
  | _ => None
  end.

(** FindReference, peglib.h 2861-2943, 4942-4951: substitution of macro
    arguments.  The visitor has no case for User and BackReference, so
    [found_ope] stays null there; first sets, guards and spans are not copied
    because fresh nodes are built; a PrecedenceClimbing becomes a capture scope
    of its atom.  Holder/WeakHolder (combinator API only) are left alone:
    simplification.  [fst] lookup reads [params_[i]] for every [i] below the
    number of arguments. *)
Fixpoint find_param (params : list bytes) (args : list ope) (name : bytes) : outcome (option ope) :=
  match args with
  | [] => Ok None
  | a :: args' =>
    match params with
    | [] => UB BadIndex
    | p :: params' => if bytes_eqb p name then Ok (Some a) else find_param params' args' name
    end
  end.
Fixpoint find_reference (params : list bytes) (args : list ope) (o : ope) : outcome ope :=
  let fix go l := match l with
                  | [] => Ok []
                  | x :: l' => let* x' := find_reference params args x in
                               let* r := go l' in Ok (x' :: r)
                  end in
  match o with
  | Seq _ l => let* l' := go l in Ok (Seq None l')
  | Cho _ _ l => let* l' := go l in Ok (Cho false [] l')
  | Rep e mn mx _ => let* e' := find_reference params args e in Ok (Rep e' mn mx None)
  | And e => let* e' := find_reference params args e in Ok (And e')
  | Not e => let* e' := find_reference params args e in Ok (Not e')
  | Csc e => let* e' := find_reference params args e in Ok (Csc e')
  | Cap n e => let* e' := find_reference params args e in Ok (Cap n e')
  | Tok e => let* e' := find_reference params args e in Ok (Tok e')
  | Ign e => let* e' := find_reference params args e in Ok (Ign e')
  | Wsp e => let* e' := find_reference params args e in Ok (Wsp (Ign e'))
  | Pre a _ _ _ => let* a' := find_reference params args a in Ok (Csc a')
  | Rcv e => let* e' := find_reference params args e in Ok (Rcv e')
  | Ref name _ _ _ _ =>
    let* f := find_param params args name in
    match f with Some a => Ok a | None => Ok o end
  | Usr _ | Bkr _ | Nul => Ok Nul
  | Dic _ | Lit _ _ | Cls _ _ _ | Chr _ | Dot | Cut | Wkh _ | Hld _ => Ok o
  end.
