(** * Saved grammars: GrammarBlob, peglib.h 4967-5366, and parser::serialize_grammar /
    load_blob, 6843-6863.
    Not modelled: the C++ stack (deep nesting overflows it in the code) and running out of
    memory. *)
From Verif Require Import Base Utf8 Escape TrieM LineInfo Ope Ctx FirstSetM FirstSetup.

(** The parts of a Definition that are saved: those of [rule] plus eoi_check and
    enablePackratParsing. *)
Record defn := { d_rule : rule; d_eoi : bool; d_packrat : bool }.
(** The grammar of a parser object.  [Grammar] is an unordered_map from names; here it is
    the list of its definitions, and a [Definition*] is a position in it. *)
Record loaded := { l_defs : list defn; l_start : bytes; l_ws : option ope; l_word : option ope }.
Definition l_grammar (L : loaded) : grammar := map d_rule (l_defs L).

(** std::string operator<. *)
Fixpoint blt (a b : bytes) : bool :=
  match a, b with
  | _, [] => false
  | [], _ :: _ => true
  | x :: a', y :: b' => (bN x <? bN y)%N || (beq x y && blt a' b')
  end.

(** ** Writer, 4992-5009 *)
Fixpoint le (k : nat) (v : N) : bytes :=
  match k with O => [] | S k' => byteN v :: le k' (v / 256)%N end.
Definition w8 (v : N) : bytes := le 1 v.
Definition w32 (v : N) : bytes := le 4 v.
Definition w64 (v : N) : bytes := le 8 v.
Definition wlen {A} (l : list A) : bytes := w32 (N.of_nat (List.length l)).
Definition wstr (s : bytes) : bytes := wlen s ++ s.
Definition wbool (b : bool) : bytes := w8 (if b then 1 else 0)%N.
Definition SIZE_MAX : N := (2 ^ 64 - 1)%N.

(** Entries of a std::map in key order. *)
Fixpoint insert_by {A} (key : A -> bytes) (x : A) (l : list A) : list A :=
  match l with
  | [] => [x]
  | y :: l' => if blt (key x) (key y) then x :: l else y :: insert_by key x l'
  end.
Definition sort_by {A} (key : A -> bytes) (l : list A) : list A := fold_right (insert_by key) [] l.

(** The words of a dictionary by their ids, 5037-5044. *)
Fixpoint set_nth {A} (i : nat) (x : A) (l : list A) : list A :=
  match l, i with
  | [], _ => []
  | _ :: l', O => x :: l'
  | y :: l', S i' => y :: set_nth i' x l'
  end.
Definition place_word (words : list bytes) (e : bytes * info) : list bytes :=
  if i_match (snd e) && (i_id (snd e) <? List.length words) then set_nth (i_id (snd e)) (fst e) words else words.
Definition trie_words (t : trie) : list bytes :=
  fold_left place_word (sort_by fst (t_dic t)) (repeat [] (t_items_count t)).

Definition oapp (a b : outcome bytes) : outcome bytes := let* x := a in let* y := b in Ok (x ++ y).
Definition winfo (e : bytes * (nat * bool)) : bytes :=
  wstr (fst e) ++ w64 (N.of_nat (fst (snd e))) ++ w8 (if snd (snd e) then 76 else 82)%N.
(** write_ope, 5011-5112.  The Capture of a grammar text has a match action. *)
Fixpoint write_ope (o : ope) : outcome bytes :=
  let write_list := fix write_list (l : list ope) : outcome bytes :=
    match l with [] => Ok [] | x :: l' => oapp (write_ope x) (write_list l') end in
  match o with
  | Nul => Ok (w8 20)
  | Seq _ l => oapp (Ok (w8 0 ++ wlen l)) (write_list l)
  | Cho fl _ l => oapp (Ok (w8 1 ++ wbool fl ++ wlen l)) (write_list l)
  | Rep e mn mx _ => oapp (Ok (w8 2 ++ w64 (N.of_nat mn) ++ w64 (match mx with Some m => N.of_nat m | None => SIZE_MAX end))) (write_ope e)
  | And e => oapp (Ok (w8 3)) (write_ope e)
  | Not e => oapp (Ok (w8 4)) (write_ope e)
  | Dic t => Ok (w8 5 ++ wbool (t_ignore_case t) ++ wlen (trie_words t) ++ flat_map wstr (trie_words t))
  | Lit s ic => Ok (w8 6 ++ wbool ic ++ wstr s)
  | Cls rs neg ic => Ok (w8 7 ++ wbool neg ++ wbool ic ++ wlen rs ++ flat_map (fun r => w32 (fst r) ++ w32 (snd r)) rs)
  | Chr cp => Ok (w8 8 ++ w32 cp)
  | Dot => Ok (w8 9)
  | Csc e => oapp (Ok (w8 10)) (write_ope e)
  | Cap _ _ => Throw "GrammarBlob: Capture with a match action is not serializable"
  | Tok e => oapp (Ok (w8 12)) (write_ope e)
  | Ign e => oapp (Ok (w8 13)) (write_ope e)
  | Bkr n => Ok (w8 14 ++ wstr n)
  | Ref n _ _ m args => oapp (Ok (w8 15 ++ wbool m ++ wstr n ++ wlen args)) (write_list args)
  | Wsp e => oapp (Ok (w8 16)) (write_ope e)
  | Rcv e => oapp (Ok (w8 17)) (write_ope e)
  | Cut => Ok (w8 18)
  | Pre a b i _ => oapp (Ok (w8 19)) (oapp (write_ope a) (oapp (write_ope b) (Ok (wlen i ++ flat_map winfo i))))
  | Usr _ | Wkh _ | Hld _ => Throw "GrammarBlob: operator not serializable"
  end.

Definition MAGIC : N := 1346717490. (* 0x50454732, 5232 *)
Definition bit (b : bool) (v : N) : N := if b then v else 0%N.
(** One definition, 5255-5275. *)
Definition write_def (d : defn) : outcome bytes :=
  let r := d_rule d in
  oapp (Ok (wstr (r_name r)
    ++ w8 (bit (r_ignore r) 1 + bit (r_is_macro r) 2 + bit (r_no_ast_opt r) 4 + bit (d_eoi d) 8 + bit (d_packrat d) 16
           + bit (r_lr r) 32 + bit (r_can_be_empty r) 64 + bit (r_disable_action r) 128)%N
    ++ w8 (bit (r_no_whitespace r) 1)
    ++ wlen (r_params r) ++ flat_map wstr (r_params r) ++ wstr (r_ast_name r) ++ wstr (r_error_message r)))
    (write_ope (match r_body r with Some o => o | None => Nul end)).
Fixpoint write_defs (l : list defn) : outcome bytes :=
  match l with [] => Ok [] | d :: l' => oapp (write_def d) (write_defs l') end.
(** serialize, 5234-5278. *)
Definition serialize (L : loaded) : outcome bytes :=
  oapp (Ok (w32 MAGIC ++ wstr (l_start L) ++ wlen (l_defs L)))
    (write_defs (sort_by (fun d => r_name (d_rule d)) (l_defs L))).

(** ** Reader, 5114-5140: the argument is what is left of the buffer. *)
Definition reader (A : Type) := bytes -> outcome (A * bytes).
Definition r8 : reader N := fun b =>
  match b with [] => Throw "GrammarBlob: unexpected end of blob" | x :: b' => Ok (bN x, b') end.
Fixpoint rle (k : nat) : reader N := fun b =>
  match k with
  | O => Ok (0%N, b)
  | S k' => let* (x, b1) := r8 b in let* (y, b2) := rle k' b1 in Ok ((x + 256 * y)%N, b2)
  end.
Definition r32 : reader N := rle 4.
Definition r64 : reader N := rle 8.
Definition rbool : reader bool := fun b => let* (x, b1) := r8 b in Ok (negb (x =? 0)%N, b1).
(** str(), 5134-5139: no check that [n] bytes are left. *)
Definition rstr : reader bytes := fun b =>
  let* (n, b1) := r32 b in
  if (N.of_nat (List.length b1) <? n)%N then UB OutOfBounds
  else Ok (firstn (N.to_nat n) b1, skipn (N.to_nat n) b1).
(** for (i = 0; i < n; i++) v.push_back(...): every round takes at least one byte. *)
Fixpoint rloop {A} (rd : reader A) (fuel : nat) (n : N) : reader (list A) := fun b =>
  if (n =? 0)%N then Ok ([], b) else
  match fuel with
  | O => OutOfFuel
  | S f => let* (x, b1) := rd b in let* (l, b2) := rloop rd f (N.pred n) b1 in Ok (x :: l, b2)
  end.
Definition rlist {A} (rd : reader A) : reader (list A) := fun b =>
  let* (n, b1) := r32 b in rloop rd (S (List.length b1)) n b1.
Definition rrange : reader (N * N) := fun b => let* (lo, b1) := r32 b in let* (hi, b2) := r32 b1 in Ok ((lo, hi), b2).
Definition rinfo : reader (bytes * (nat * bool)) := fun b =>
  let* (k, b1) := rstr b in let* (lv, b2) := r64 b1 in let* (a, b3) := r8 b2 in Ok ((k, (N.to_nat lv, (a =? 76)%N)), b3).
(** info_[key] = ..., on a std::map. *)
Fixpoint put_by {A} (key : A -> bytes) (x : A) (l : list A) : list A :=
  match l with
  | [] => [x]
  | y :: l' => if bytes_eqb (key x) (key y) then x :: l' else if blt (key x) (key y) then x :: l else y :: put_by key x l'
  end.
Definition map_of {A} (key : A -> bytes) (l : list A) : list A := fold_left (fun m x => put_by key x m) l [].

(** read_ope, 5142-5229.  References are unlinked (null rule, index 0); the owner of a
    precedence expression is filled in by [own_ope] below.  A Capture without action
    behaves as its operand; it is read as a sequence of one. *)
Fixpoint read_ope (fuel : nat) : reader ope := fun b =>
  match fuel with
  | O => OutOfFuel
  | S f =>
    let un (k : ope -> ope) (b : bytes) : outcome (ope * bytes) := let* (o, b1) := read_ope f b in Ok (k o, b1) in
    let* (t, b) := r8 b in
    match t with
    | 0%N => let* (l, b) := rlist (read_ope f) b in Ok (Seq None l, b)
    | 1%N => let* (fl, b) := rbool b in let* (l, b) := rlist (read_ope f) b in Ok (Cho fl [] l, b)
    | 2%N => let* (mn, b) := r64 b in let* (mx, b) := r64 b in
             un (fun o => Rep o (N.to_nat mn) (if (mx =? SIZE_MAX)%N then None else Some (N.to_nat mx)) None) b
    | 3%N => un And b
    | 4%N => un Not b
    | 5%N => let* (ic, b) := rbool b in let* (ws, b) := rlist rstr b in Ok (Dic (make_trie ws ic), b)
    | 6%N => let* (ic, b) := rbool b in let* (s, b) := rstr b in Ok (Lit s ic, b)
    | 7%N => let* (neg, b) := rbool b in let* (ic, b) := rbool b in let* (rs, b) := rlist rrange b in Ok (Cls rs neg ic, b)
    | 8%N => let* (c, b) := r32 b in Ok (Chr c, b)
    | 9%N => Ok (Dot, b)
    | 10%N => un Csc b
    | 11%N => un (fun o => Seq None [o]) b
    | 12%N => un Tok b
    | 13%N => un Ign b
    | 14%N => let* (s, b) := rstr b in Ok (Bkr s, b)
    | 15%N => let* (m, b) := rbool b in let* (s, b) := rstr b in let* (l, b) := rlist (read_ope f) b in Ok (Ref s None 0 m l, b)
    | 16%N => un Wsp b
    | 17%N => un Rcv b
    | 18%N => Ok (Cut, b)
    | 19%N => let* (a, b) := read_ope f b in let* (o, b) := read_ope f b in
              let* (i, b) := rlist rinfo b in Ok (Pre a o (map_of fst i) 0, b)
    | 20%N => Ok (Nul, b)
    | _ => Throw "GrammarBlob: bad operator tag"
    end
  end.

(** One definition, 5292-5322.  A null operator leaves the rule without a body. *)
Definition read_def : reader defn := fun b =>
  let* (name, b) := rstr b in
  let* (fl, b) := r8 b in
  let* (fl2, b) := r8 b in
  let* (ps, b) := rlist rstr b in
  let* (an, b) := rstr b in
  let* (em, b) := rstr b in
  let* (o, b) := read_ope (S (List.length b)) b in
  Ok ({| d_rule := {| r_name := name; r_body := match o with Nul => None | _ => Some o end;
           r_ignore := N.testbit fl 0; r_is_macro := N.testbit fl 1; r_params := ps; r_disable_action := N.testbit fl 7;
           r_lr := N.testbit fl 5; r_can_be_empty := N.testbit fl 6; r_macro_ref := true; r_error_message := em;
           r_no_ast_opt := N.testbit fl 2; r_no_whitespace := N.testbit fl2 0; r_ast_name := an |};
         d_eoi := N.testbit fl 3; d_packrat := N.testbit fl 4 |}, b).
Definition read_blob : reader (bytes * list defn) := fun b =>
  let* (m, b) := r32 b in
  if negb (m =? MAGIC)%N then Throw "GrammarBlob: bad magic / not a grammar blob" else
  let* (start, b) := rstr b in
  let* (ds, b) := rlist read_def b in
  Ok ((start, map_of (fun d => r_name (d_rule d)) ds), b).

(** ** Linking, 4919-4940 and 5323-5334 *)
Fixpoint index_of (n : bytes) (l : list bytes) : option nat :=
  match l with
  | [] => None
  | x :: l' => if bytes_eqb x n then Some 0 else option_map S (index_of n l')
  end.
(** The rule a precedence expression belongs to. *)
Fixpoint own_ope (self : rid) (o : ope) : ope :=
  match o with
  | Seq k l => Seq k (map (own_ope self) l)
  | Cho fl fs l => Cho fl fs (map (own_ope self) l)
  | Rep e mn mx s => Rep (own_ope self e) mn mx s
  | And e => And (own_ope self e)
  | Not e => Not (own_ope self e)
  | Csc e => Csc (own_ope self e)
  | Cap n e => Cap n (own_ope self e)
  | Tok e => Tok (own_ope self e)
  | Ign e => Ign (own_ope self e)
  | Wsp e => Wsp (own_ope self e)
  | Rcv e => Rcv (own_ope self e)
  | Pre a b i _ => Pre (own_ope self a) (own_ope self b) i self
  | Ref n r ia m args => Ref n r ia m (map (own_ope self) args)
  | _ => o
  end.
(** LinkReferences over TraversalVisitor 2376-2400: the operator of a precedence
    expression is not visited. *)
Fixpoint link_ope (names params : list bytes) (o : ope) : outcome ope :=
  let link_list := fix link_list (l : list ope) : outcome (list ope) :=
    match l with [] => Ok [] | x :: l' => let* y := link_ope names params x in let* r := link_list l' in Ok (y :: r) end in
  let un (k : ope -> ope) (e : ope) : outcome ope := let* y := link_ope names params e in Ok (k y) in
  match o with
  | Nul => UB NullDeref
  | Seq k l => let* l' := link_list l in Ok (Seq k l')
  | Cho fl fs l => let* l' := link_list l in Ok (Cho fl fs l')
  | Rep e mn mx s => un (fun y => Rep y mn mx s) e
  | And e => un And e
  | Not e => un Not e
  | Csc e => un Csc e
  | Cap n e => un (Cap n) e
  | Tok e => un Tok e
  | Ign e => un Ign e
  | Wsp e => un Wsp e
  | Rcv e => un Rcv e
  | Pre a b i q => un (fun y => Pre y b i q) a
  | Ref n r ia m args =>
    let* args' := link_list args in
    match index_of n params with
    | Some i => Ok (Ref n r i m args')
    | None => match index_of n names with Some q => Ok (Ref n (Some q) ia m args') | None => Ok (Ref n r ia m args') end
    end
  | _ => Ok o
  end.
(** One rule, 5323-5334. *)
Definition link_def (names : list bytes) (self : rid) (d : defn) : outcome defn :=
  let r := d_rule d in
  match r_body r with
  | None => UB NullDeref
  | Some o =>
    let* o1 := link_ope names (r_params r) (own_ope self o) in
    let* o2 := match o1 with Pre a b i q => let* b' := link_ope names (r_params r) b in Ok (Pre a b' i q) | _ => Ok o1 end in
    Ok {| d_rule := with_body r (Some o2); d_eoi := d_eoi d; d_packrat := d_packrat d |}
  end.
Fixpoint link_defs (names : list bytes) (i : nat) (l : list defn) : outcome (list defn) :=
  match l with [] => Ok [] | d :: l' => let* d' := link_def names i d in let* r := link_defs names (S i) l' in Ok (d' :: r) end.

(** (g)[name], which creates the definition if there is none. *)
Definition def_names (l : list defn) : list bytes := map (fun d => r_name (d_rule d)) l.
Definition empty_def (name : bytes) : defn :=
  {| d_rule := {| r_name := name; r_body := None; r_ignore := false; r_is_macro := false; r_params := []; r_disable_action := false;
       r_lr := false; r_can_be_empty := false; r_macro_ref := true; r_error_message := []; r_no_ast_opt := false;
       r_no_whitespace := false; r_ast_name := [] |}; d_eoi := true; d_packrat := false |}.
Definition ensure (name : bytes) (l : list defn) : list defn :=
  match index_of name (def_names l) with Some _ => l | None => l ++ [empty_def name] end.
Definition with_rules (l : list defn) (g : grammar) : list defn :=
  map (fun p => {| d_rule := snd p; d_eoi := d_eoi (fst p); d_packrat := d_packrat (fst p) |}) (combine l g).
(** get_core_operator of a named rule. *)
Definition core_of (name : bytes) (l : list defn) : option ope :=
  match index_of name (def_names l) with Some i => match nth_error l i with Some d => r_body (d_rule d) | None => None end | None => None end.
(** load_blob, 6852-6863, with deserialize, 5280-5364.  [order] is the iteration order of
    the rebuilt hash map; [k], [n] are fuel for SetupFirstSets.  The exceptions caught by
    load_blob are [Throw]. *)
Definition load_blob (k n : nat) (order : list rid) (blob : bytes) : outcome loaded :=
  let* ((start, ds), _) := read_blob blob in
  let* ls := link_defs (def_names ds) 0 ds in
  let* g := setup_first_sets k n order (map d_rule ls) in
  let fs := with_rules ls g in
  Ok {| l_defs := ensure start fs; l_start := start;
        l_ws := option_map Wsp (core_of (bs "%whitespace") fs); l_word := core_of (bs "%word") fs |}.
