(** * Which grammars a blob can carry. *)
From Verif Require Import Base Escape TrieM TrieSpec Ope Scope FirstSetM FirstSetup BlobM.

(** Sizes are saved in 32 bits, repetition counts and precedence levels in 64. *)
Definition fits32 (n : nat) : Prop := (N.of_nat n < 2 ^ 32)%N.
Definition fits64 (n : nat) : Prop := (N.of_nat n < 2 ^ 64)%N.
(** Strictly increasing in the order of std::string. *)
Fixpoint sorted (l : list bytes) : Prop :=
  match l with
  | [] => True
  | x :: l' => Forall (fun y => blt x y = true) l' /\ sorted l'
  end.
(** A dictionary built from words none of which is a prefix of an earlier one (nor equal
    to it), after case folding. *)
Definition plain_words (ic : bool) (ws : list bytes) : Prop :=
  forall m n a b, m < n -> nth_error ws m = Some a -> nth_error ws n = Some b -> ~ prefix (same_text ic b) (same_text ic a).
Definition plain_dic (t : trie) : Prop :=
  exists ic ws, t = make_trie ws ic /\ plain_words ic ws /\ fits32 (List.length ws) /\ Forall (fun w => fits32 (List.length w)) ws.
(** Every number fits its field, and dictionaries are plain. *)
Definition conj_all (l : list Prop) : Prop := fold_right and True l.
Fixpoint fits (o : ope) : Prop :=
  match o with
  | Seq _ l | Cho _ _ l => fits32 (List.length l) /\ conj_all (map fits l)
  | Rep e mn mx _ => fits64 mn /\ match mx with Some m => (N.of_nat m < 2 ^ 64 - 1)%N | None => True end /\ fits e
  | And e | Not e | Csc e | Cap _ e | Tok e | Ign e | Wsp e | Rcv e => fits e
  | Dic t => plain_dic t
  | Lit s _ | Bkr s => fits32 (List.length s)
  | Cls rs _ _ => fits32 (List.length rs) /\ Forall (fun r => (fst r < 2 ^ 32)%N /\ (snd r < 2 ^ 32)%N) rs
  | Chr cp => (cp < 2 ^ 32)%N
  | Ref n _ _ _ args => fits32 (List.length n) /\ fits32 (List.length args) /\ conj_all (map fits args)
  | Pre a b i _ => fits a /\ fits b /\ fits32 (List.length i) /\ sorted (map fst i)
      /\ Forall (fun e => fits32 (List.length (fst e)) /\ fits64 (fst (snd e))) i
  | Dot | Usr _ | Wkh _ | Hld _ | Cut | Nul => True
  end.
(** References point where LinkReferences 4919-4940 sends them: to the parameter, if the
    name is one, else to the rule of that name, if there is one. *)
Definition target (names params : list bytes) (n : bytes) : option rid * nat :=
  match index_of n params with Some i => (None, i) | None => (index_of n names, 0) end.
Fixpoint resolved (names params : list bytes) (o : ope) : Prop :=
  match o with
  | Seq _ l | Cho _ _ l => conj_all (map (resolved names params) l)
  | Rep e _ _ _ | And e | Not e | Csc e | Cap _ e | Tok e | Ign e | Wsp e | Rcv e => resolved names params e
  | Ref n r ia _ args => (r, ia) = target names params n /\ conj_all (map (resolved names params) args)
  | Pre a b _ _ => resolved names params a /\ resolved names params b
  | Nul => False
  | _ => True
  end.
(** A rule as a grammar text leaves it, before the first parse: it has a body, whose
    references are resolved, and a precedence expression can only be the whole body. *)
Definition def_ok (names : list bytes) (self : rid) (d : defn) : Prop :=
  let r := d_rule d in
  fits32 (List.length (r_name r)) /\ fits32 (List.length (r_params r)) /\ Forall (fun p => fits32 (List.length p)) (r_params r)
  /\ fits32 (List.length (r_ast_name r)) /\ fits32 (List.length (r_error_message r)) /\ r_macro_ref r = true
  /\ exists o, r_body r = Some o /\ fits o /\ resolved names (r_params r) o
     /\ (nopre o = true \/ exists a b i, o = Pre a b i self /\ nopre a = true /\ nopre b = true).
(** The grammar of a parser object as load_grammar leaves it.  Since Grammar is an
    unordered map, the list may be taken in the order of the names. *)
Record ready (k n : nat) (order : list rid) (L : loaded) : Prop := {
  rd_names : sorted (def_names (l_defs L));
  rd_size : fits32 (List.length (l_defs L)) /\ fits32 (List.length (l_start L));
  rd_defs : forall i d, nth_error (l_defs L) i = Some d -> def_ok (def_names (l_defs L)) i d;
  rd_start : In (l_start L) (def_names (l_defs L));
  rd_first : setup_first_sets k n order (strip_grammar (l_grammar L)) = Ok (l_grammar L);
  rd_ws : l_ws L = option_map Wsp (core_of (bs "%whitespace") (l_defs L));
  rd_word : l_word L = core_of (bs "%word") (l_defs L)
}.
(** Operators that cannot be saved. *)
Fixpoint savable (o : ope) : bool :=
  match o with
  | Seq _ l | Cho _ _ l => forallb savable l
  | Rep e _ _ _ | And e | Not e | Csc e | Tok e | Ign e | Wsp e | Rcv e => savable e
  | Ref _ _ _ _ args => forallb savable args
  | Pre a b _ _ => savable a && savable b
  | Cap _ _ | Usr _ | Wkh _ | Hld _ => false
  | _ => true
  end.
