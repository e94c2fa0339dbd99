(** * Parse trees and their values (vocabulary of C54 and C19).

    What a grammar means, as parse trees: one node per use of a rule, whose
    subtrees are, in the order of the text, the uses of rules inside its body that
    are not ignored (~), and which records the tokens < > matched directly in the
    body and the alternative taken.  Nothing here mentions memo tables, seeds,
    scopes that are rolled back, or first sets: an expression that is given up, a
    predicate, an ignored expression contribute nothing.

    A directly left-recursive rule  A <- A a1 / ... / A an / b1 / ... / bm  starts
    with a tree for the first bi that matches and then, as long as some ai
    matches, becomes the first subtree of a new tree for A: trees lean to the left.

    The value of a tree is computed bottom-up by the rules' actions. *)
From Verif Require Import Base Utf8 TrieM TrieSpec LineInfo Ope Ctx Engine RefSem LrSpec.

Inductive ptree := Node (r : rid) (pos len : nat) (kids : list ptree) (toks : list (nat * nat)) (alt : nat * nat).
Definition t_len (t : ptree) : nat := let (_, _, n, _, _, _) := t in n.
Definition t_rule (t : ptree) : rid := let (r, _, _, _, _, _) := t in r.

(** What an expression contributes: bytes matched, trees, tokens, alternative
    (number of alternatives, index) of the last choice completed, if any. *)
Record found := { f_len : nat; f_kids : list ptree; f_toks : list (nat * nat); f_alt : option (nat * nat) }.
Definition bytes_only (n : nat) : found := {| f_len := n; f_kids := []; f_toks := []; f_alt := None |}.
Definition join (a b : found) : found :=
  {| f_len := f_len a + f_len b; f_kids := f_kids a ++ f_kids b; f_toks := f_toks a ++ f_toks b;
     f_alt := match f_alt b with Some x => Some x | None => f_alt a end |}.
Definition with_alt (total i : nat) (f : found) : found :=
  {| f_len := f_len f; f_kids := f_kids f; f_toks := f_toks f; f_alt := Some (total, i) |}.
Definition with_tok (pos : nat) (f : found) : found :=
  {| f_len := f_len f; f_kids := f_kids f; f_toks := f_toks f ++ [(pos, f_len f)]; f_alt := f_alt f |}.
(** Only choices (and dictionaries) report an alternative to their rule. *)
Definition alt_of (body : ope) (f : found) : nat * nat :=
  if is_choice_like (match body with Tok e => e | _ => body end)
  then match f_alt f with Some a => a | None => (0, 0) end else (0, 0).
Definition node (r : rid) (body : ope) (pos : nat) (f : found) : ptree :=
  Node r pos (f_len f) (f_kids f) (f_toks f) (alt_of body f).

Section Trees.
  Variable g : grammar.
  Variable ws : option ope.        (* %whitespace *)
  Variable input : bytes.
  (** May the literal [s] at [pos] end there (%word)?  May a dictionary word end at [pos]? *)
  Variable lit_end : bytes -> nat -> bool -> Prop.
  Variable dic_end : nat -> bool -> Prop.

  Definition inner_mode (m : mode) : mode :=
    match ws with Some _ => {| m_tok := true; m_ws := m_ws m |} | None => m end.
  Definition text_at (ic : bool) (s : bytes) (pos : nat) : Prop :=
    same_text ic (sub input pos (List.length s)) = same_text ic s.
  (** A single character operator on code point [cp]. *)
  Definition char_ok (o : ope) (cp : N) : option bool :=
    match o with
    | Cls rs neg ic => match in_ranges ic rs cp with Ok b => Some (xorb b neg) | _ => None end
    | Chr c => Some (cp =? c)%N
    | _ => None
    end.
  Definition is_char (o : ope) : bool := match o with Cls _ _ _ | Chr _ => true | _ => false end.
  Definition decoded (pos n : nat) (cp : N) : Prop :=
    decode_codepoint_len (from input pos) (List.length input - pos) 0%N = Ok (n, cp).
  (** A use of a rule inside another one. *)
  Definition used (d : rule) (t : ptree) : found :=
    if r_ignore d then bytes_only (t_len t)
    else {| f_len := t_len t; f_kids := [t]; f_toks := []; f_alt := None |}.
  (** The next tree of a left-recursive rule. *)
  Definition lean (d : rule) (r : rid) (body : ope) (pos : nat) (t : ptree) (f : found) : ptree :=
    node r body pos (join (used d t) f).

  Inductive der : fram -> mode -> ope -> nat -> option found -> Prop :=
  | d_seq fr m kg l pos x : der_seq fr m l pos x -> der fr m (Seq kg l) pos x
  | d_cho fr m fl fs l pos x : der_cho fr m (List.length l) 0 l pos x -> der fr m (Cho fl fs l) pos x
  | d_rep_no fr m e mn mx sp pos : der_times fr m e mn pos None -> der fr m (Rep e mn mx sp) pos None
  | d_rep fr m e mn mx sp pos f f' : der_times fr m e mn pos (Some f) ->
      der_upto fr m e (option_map (fun x => x - mn) mx) (pos + f_len f) f' -> der fr m (Rep e mn mx sp) pos (Some (join f f'))
  | d_and_no fr m e pos : der fr m e pos None -> der fr m (And e) pos None
  | d_and fr m e pos f : der fr m e pos (Some f) -> der fr m (And e) pos (Some (bytes_only 0))
  | d_not fr m e pos : der fr m e pos None -> der fr m (Not e) pos (Some (bytes_only 0))
  | d_not_no fr m e pos f : der fr m e pos (Some f) -> der fr m (Not e) pos None
  | d_lit_no fr m s ic pos : ~ text_at ic s pos -> der fr m (Lit s ic) pos None
  | d_lit_word fr m s ic pos : text_at ic s pos -> lit_end s pos false -> der fr m (Lit s ic) pos None
  | d_lit fr m s ic pos x : text_at ic s pos -> lit_end s pos true -> skip m (pos + List.length s) x ->
      der fr m (Lit s ic) pos (option_map (join (bytes_only (List.length s))) x)
  | d_dic_no fr m t pos : fst (trie_match t (from input pos)) = 0 -> der fr m (Dic t) pos None
  | d_dic_word fr m t pos i id : trie_match t (from input pos) = (i, id) -> 0 < i -> dic_end (pos + i) false -> der fr m (Dic t) pos None
  | d_dic fr m t pos i id x : trie_match t (from input pos) = (i, id) -> 0 < i -> dic_end (pos + i) true -> skip m (pos + i) x ->
      der fr m (Dic t) pos
        (option_map (join (with_alt (t_items_count t) (match id with Some k => k | None => 0 end) (bytes_only i))) x)
  | d_char_end fr m o pos : is_char o = true -> List.length input <= pos -> der fr m o pos None
  | d_char fr m o pos n cp : pos < List.length input -> decoded pos n cp -> char_ok o cp = Some true -> der fr m o pos (Some (bytes_only n))
  | d_char_no fr m o pos n cp : pos < List.length input -> decoded pos n cp -> char_ok o cp = Some false -> der fr m o pos None
  | d_dot fr m pos n : codepoint_length (from input pos) (List.length input - pos) = Ok n -> 0 < n -> der fr m Dot pos (Some (bytes_only n))
  | d_dot_no fr m pos : codepoint_length (from input pos) (List.length input - pos) = Ok 0 -> der fr m Dot pos None
  | d_csc fr m e pos x : der fr m e pos x -> der fr m (Csc e) pos x
  | d_cap fr m nm e pos x : der fr m e pos x -> der fr m (Cap nm e) pos x
  | d_tok_no fr m e pos : der fr (inner_mode m) e pos None -> der fr m (Tok e) pos None
  | d_tok fr m e pos f x : der fr (inner_mode m) e pos (Some f) -> skip m (pos + f_len f) x ->
      der fr m (Tok e) pos (option_map (join (with_tok pos f)) x)
  | d_ign_no fr m e pos : der fr m e pos None -> der fr m (Ign e) pos None
  | d_ign fr m e pos f : der fr m e pos (Some f) -> der fr m (Ign e) pos (Some (bytes_only (f_len f)))
  | d_wsp_in fr m e pos : m_ws m = true -> der fr m (Wsp e) pos (Some (bytes_only 0))
  | d_wsp fr m e pos x : m_ws m = false -> der fr {| m_tok := m_tok m; m_ws := true |} e pos x -> der fr m (Wsp e) pos x
  | d_wkh fr m r pos x : der fr m (Hld r) pos x -> der fr m (Wkh r) pos x
  | d_rule fr m r d pos x : nth_error g r = Some d -> r_is_macro d = false -> der_rule m r pos x -> der fr m (Hld r) pos (option_map (used d) x)
  | d_ref fr m nm r d i mc args pos x : nth_error g r = Some d -> r_is_macro d = false ->
      der ([], []) m (Hld r) pos x -> der fr m (Ref nm (Some r) i mc args) pos x
  (* a macro: its body, with the parameters standing for the arguments *)
  | d_macro fr m nm r d i mc args args' pos x : nth_error g r = Some d -> r_is_macro d = true ->
      subst_args (fst fr) (snd fr) args = Ok args' ->
      der (r_params d, args') m (Hld r) pos x -> der fr m (Ref nm (Some r) i mc args) pos x
  | d_body fr m r d body pos x : nth_error g r = Some d -> r_is_macro d = true -> r_body d = Some body -> r_lr d = false ->
      der (r_params d, snd fr) m body pos x -> der fr m (Hld r) pos x
  | d_arg fr m nm i mc args a pos x : nth_error (snd fr) i = Some a -> der fr m a pos x -> der fr m (Ref nm None i mc args) pos x
  with der_seq : fram -> mode -> list ope -> nat -> option found -> Prop :=
  | ds_nil fr m pos : der_seq fr m [] pos (Some (bytes_only 0))
  | ds_no fr m o l pos : der fr m o pos None -> der_seq fr m (o :: l) pos None
  | ds_cons fr m o l pos f x : der fr m o pos (Some f) -> der_seq fr m l (pos + f_len f) x ->
      der_seq fr m (o :: l) pos (option_map (join f) x)
  with der_cho : fram -> mode -> nat -> nat -> list ope -> nat -> option found -> Prop :=
  | dc_nil fr m total i pos : der_cho fr m total i [] pos None
  | dc_first fr m total i o l pos f : der fr m o pos (Some f) -> der_cho fr m total i (o :: l) pos (Some (with_alt total i f))
  | dc_next fr m total i o l pos x : der fr m o pos None -> der_cho fr m total (S i) l pos x -> der_cho fr m total i (o :: l) pos x
  (* exactly n times *)
  with der_times : fram -> mode -> ope -> nat -> nat -> option found -> Prop :=
  | dt_zero fr m e pos : der_times fr m e 0 pos (Some (bytes_only 0))
  | dt_no fr m e n pos : der fr m e pos None -> der_times fr m e (S n) pos None
  | dt_more fr m e n pos f x : der fr m e pos (Some f) -> der_times fr m e n (pos + f_len f) x ->
      der_times fr m e (S n) pos (option_map (join f) x)
  (* as often as possible, at most [room] times if bounded *)
  with der_upto : fram -> mode -> ope -> option nat -> nat -> found -> Prop :=
  | du_full fr m e pos : der_upto fr m e (Some 0) pos (bytes_only 0)
  | du_end fr m e room pos : room <> Some 0 -> der fr m e pos None -> der_upto fr m e room pos (bytes_only 0)
  | du_more fr m e room pos f f' : room <> Some 0 -> der fr m e pos (Some f) -> der_upto fr m e (option_map pred room) (pos + f_len f) f' ->
      der_upto fr m e room pos (join f f')
  (* whitespace after a literal or token; not inside tokens *)
  with skip : mode -> nat -> option found -> Prop :=
  | sk_none m pos : ws = None \/ m_tok m = true -> skip m pos (Some (bytes_only 0))
  | sk_ws m w pos x : ws = Some w -> m_tok m = false -> der ([], []) m w pos x -> skip m pos x
  with der_rule : mode -> rid -> nat -> option ptree -> Prop :=
  | r_no m r d body pos : nth_error g r = Some d -> r_body d = Some body -> r_is_macro d = false -> r_lr d = false ->
      der (r_params d, []) (if r_no_whitespace d then inner_mode m else m) body pos None -> der_rule m r pos None
  | r_plain m r d body pos f : nth_error g r = Some d -> r_body d = Some body -> r_is_macro d = false -> r_lr d = false ->
      r_no_whitespace d = false -> der (r_params d, []) m body pos (Some f) -> der_rule m r pos (Some (node r body pos f))
  (* a token rule skips whitespace after its match *)
  | r_token m r d body pos f x : nth_error g r = Some d -> r_body d = Some body -> r_is_macro d = false -> r_lr d = false ->
      r_no_whitespace d = true -> der (r_params d, []) (inner_mode m) body pos (Some f) -> skip m (pos + f_len f) x ->
      der_rule m r pos (option_map (fun w => node r body pos (join f w)) x)
  (* left recursion: the alternatives that do not start with r ... *)
  | r_lr_no m r d fl fs l a b pos : nth_error g r = Some d -> r_body d = Some (Cho fl fs l) -> r_is_macro d = false -> r_lr d = true ->
      r_no_whitespace d = false -> split_lr r l = (a, b) ->
      der_cho (r_params d, []) m (List.length l) (List.length a) b pos None -> der_rule m r pos None
  (* ... then the continuations of those that do *)
  | r_lr_yes m r d fl fs l a b pos f t : nth_error g r = Some d -> r_body d = Some (Cho fl fs l) -> r_is_macro d = false -> r_lr d = true ->
      r_no_whitespace d = false -> split_lr r l = (a, b) ->
      der_cho (r_params d, []) m (List.length l) (List.length a) b pos (Some f) ->
      grow m r d l a pos (node r (Cho fl fs l) pos f) t -> der_rule m r pos (Some t)
  with grow : mode -> rid -> rule -> list ope -> list (list ope) -> nat -> ptree -> ptree -> Prop :=
  | g_end m r d l a pos t : der_cho (r_params d, []) m (List.length l) 0 (map (Seq None) a) (pos + t_len t) None -> grow m r d l a pos t t
  | g_more m r d l a pos t f t' : der_cho (r_params d, []) m (List.length l) 0 (map (Seq None) a) (pos + t_len t) (Some f) -> 0 < f_len f ->
      grow m r d l a pos (lean d r (Cho false [] l) pos t f) t' -> grow m r d l a pos t t'.

  (** ** Values *)
  Section Values.
    Context {V U : Type}.
    Variables (action : rid -> option (bytes -> sv V -> U -> option V -> option V * U))
              (leave : rid -> option (bytes -> nat -> option nat -> option V -> U -> option V * U)) (u0 : U).
    Definition tag_of (r : rid) : N := match nth_error g r with Some d => str2tag (r_name d) | None => 0%N end.
    Definition muted (r : rid) : bool := match nth_error g r with Some d => r_disable_action d | None => false end.
    (** The action of the rule receives the values of the subtrees, their tags, the
        tokens, the matched text and the alternative; a rule without action has the
        value of its first subtree. *)
    Fixpoint eval (t : ptree) : option V :=
      match t with
      | Node r pos len kids toks alt =>
        let vals := map eval kids in
        let vs := {| v_vals := vals; v_tags := map (fun k => tag_of (t_rule k)) kids; v_toks := toks; v_sv := (pos, len);
                     v_cc := fst alt; v_ch := snd alt; v_name := Some r |} in
        let v := match action r with
                 | Some f => if muted r then hd None vals else fst (f input vs u0 None)
                 | None => hd None vals
                 end in
        match leave r with Some f => fst (f input pos (Some len) v u0) | None => v end
      end.
  End Values.
End Trees.

(** ** %word: a literal that is itself a word, and any dictionary word, must not be
    followed by a word.  The word expression is run without whitespace skipping. *)
Section Word.
  Variables (g : grammar) (word : option ope).
  Definition word_at (w : ope) (input : bytes) (pos : nat) (x : option found) : Prop :=
    der g None input (fun _ _ b => b = true) (fun _ b => b = true) ([], []) {| m_tok := false; m_ws := false |} w pos x.
  Definition dic_ends (input : bytes) (pos : nat) (b : bool) : Prop :=
    match word with
    | None => b = true
    | Some w => exists x, word_at w input pos x /\ b = match x with Some _ => false | None => true end
    end.
  Definition lit_ends (input s : bytes) (pos : nat) (b : bool) : Prop :=
    match word with
    | None => b = true
    | Some w => exists x, word_at w s 0 x /\ match x with Some _ => dic_ends input (pos + List.length s) b | None => b = true end
    end.
End Word.

(** ** A whole parse: leading whitespace, then the start rule. *)
Section Whole.
  Variables (g : grammar) (ws word : option ope) (start : rid) (input : bytes).
  Let top : mode := {| m_tok := false; m_ws := false |}.
  Let le := lit_ends g word input.
  Let de := dic_ends g word input.
  Inductive whole : option found -> Prop :=
  | w_no_skip : skip g ws input le de top 0 None -> whole None
  | w_no f : skip g ws input le de top 0 (Some f) -> der_rule g ws input le de top start (f_len f) None -> whole None
  | w_yes f d t : skip g ws input le de top 0 (Some f) -> nth_error g start = Some d ->
      der_rule g ws input le de top start (f_len f) (Some t) -> whole (Some (join f (used d t))).
End Whole.
