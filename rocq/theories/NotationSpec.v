(** * The notation of grammar texts (README, "PEG Grammar" and "Supported operators"),
    written without the model of the reader: which pieces of text stand for which
    operators.  A judgement [what text meaning r] says that [text], where [r] follows
    it, is a [what] with that meaning; [r] is there because the notation has no
    separators: a name ends where no letter follows, a reference is a reference only if
    no arrow follows, and so on. *)
From Verif Require Import Base Utf8Spec EscapeSpec Escape Ope TrieM PrecSpec LoadM.

Definition utf8_text (cs : list N) : bytes := List.concat (map utf8_bytes cs).
(** [r] goes on with the character [c]. *)
Definition begins (c : N) (r : bytes) : Prop := scalar c /\ exists t, r = utf8_bytes c ++ t.
Definition next_is (b : byte) (r : bytes) : Prop := hd_error r = Some b.

(** ** Spacing: blanks, ends of lines, and comments up to the end of their line *)
Definition eol (b : byte) : bool := match b with x0a | x0d => true | _ => false end.
Definition blank (b : byte) : bool := match b with x20 | x09 => true | _ => eol b end.
Definition sharp : byte := x23.
Inductive spacing : bytes -> bytes -> Prop :=
| sp_end r : (forall b, next_is b r -> blank b = false /\ b <> sharp) -> spacing [] r
| sp_blank b w r : blank b = true -> spacing w r -> spacing (b :: w) r
| sp_comment body w r : valid_utf8 body -> forallb (fun b => negb (eol b)) body = true ->
    (forall b, next_is b (w ++ r) -> eol b = true) -> (w = [] -> r = []) ->
    spacing w r -> spacing (sharp :: body ++ w) r.

(** ** Names *)
Definition name_start (c : N) : bool :=
  ((97 <=? c) && (c <=? 122) || (65 <=? c) && (c <=? 90) || (c =? 95) || (c =? 37)
   || (128 <=? c) && (c <=? 65535) && negb (c =? 8593) && negb (c =? 8657))%N.
Definition name_rest (c : N) : bool := (name_start c || (48 <=? c) && (c <=? 57))%N.
Definition name (n : bytes) : Prop :=
  exists c cs, n = utf8_text (c :: cs) /\ Forall scalar (c :: cs) /\ name_start c = true /\ forallb name_rest cs = true.
(** No letter of a name follows. *)
Definition name_ends (r : bytes) : Prop := forall c, begins c r -> name_rest c = false.

(** ** The head of a definition: is an arrow next, perhaps after a list of parameters? *)
Definition up_arrow : bytes := [xe2; x86; x91].          (* U+2191 *)
Definition up_double : bytes := [xe2; x87; x91].         (* U+21D1 *)
Definition arrow (a : bytes) : Prop := a = [x3c; x2d] \/ a = [xe2; x86; x90].       (* <- or U+2190 *)
Inductive names : bytes -> list bytes -> bytes -> Prop :=
| nm_last n s1 s2 r : name n -> name_ends (s1 ++ x29 :: s2 ++ r) -> spacing s1 (x29 :: s2 ++ r) -> spacing s2 r ->
    names (n ++ s1 ++ x29 :: s2) [n] r
| nm_more n s1 s2 w l r : name n -> name_ends (s1 ++ x2c :: s2 ++ w ++ r) -> spacing s1 (x2c :: s2 ++ w ++ r) -> spacing s2 (w ++ r) ->
    names w l r -> names (n ++ s1 ++ x2c :: s2 ++ w) (n :: l) r.
Definition parameters (w : bytes) (l : list bytes) (r : bytes) : Prop :=
  exists s w', w = x28 :: s ++ w' /\ spacing s (w' ++ r) /\ names w' l r.
Definition arrow_next (r : bytes) : Prop :=
  (exists a t, arrow a /\ r = a ++ t) \/ (exists p l a t, parameters p l (a ++ t) /\ arrow a /\ r = p ++ a ++ t).
Definition ign_text (ig : bool) : bytes := if ig then [x7e] else [].
(** A definition up to its arrow. *)
Definition head (w : bytes) (ig : bool) (n : bytes) (ps : option (list bytes)) (r : bytes) : Prop :=
  exists p s, w = ign_text ig ++ n ++ p ++ s /\ name n /\ name_ends (p ++ s ++ r)
    /\ match ps with None => p = [] | Some l => parameters p l (s ++ r) end
    /\ spacing s r /\ exists a t, arrow a /\ r = a ++ t.

(** ** Characters of literals and classes *)
Inductive char := Letter (c : N) | Escaped (i : item).
Definition char_items (c : char) : list item := match c with Letter c => map Plain (utf8_bytes c) | Escaped i => [i] end.
Definition char_text (c : char) : bytes := List.concat (map source (char_items c)).
Definition chars_text (l : list char) : bytes := List.concat (map char_text l).
Definition chars_mean (l : list char) : bytes := List.concat (map denotes (flat_map char_items l)).
(** An octal escape of three digits begins with 0 to 3; a \u escape of six digits begins
    with 0 or 10. *)
Definition char_ok (c : char) : Prop :=
  match c with
  | Letter c => scalar c /\ c <> 92%N
  | Escaped (Plain _) => False
  | Escaped (Oct [d; _; _] as i) => wf_item i = true /\ In d [x30; x31; x32; x33]
  | Escaped (Uni [d; e; _; _; _; _] as i) => wf_item i = true /\ (d = x30 \/ d = x31 /\ e = x30)
  | Escaped i => wf_item i = true
  end.
Definition chars_ok (l : list char) : Prop := Forall char_ok l /\ separated (flat_map char_items l) = true.
(** The code point a character stands for. *)
Definition code (c : char) : N :=
  match c with
  | Letter c => c
  | Escaped (Simple e) => match assoc simple_table e with Some v => v | None => 0%N end
  | Escaped (Hex ds) | Escaped (Uni ds) => EscapeSpec.value_of hex_digits 16 ds
  | Escaped (Oct ds) => EscapeSpec.value_of oct_digits 8 ds
  | Escaped (Plain b) => bN b
  end.

(** ** Literals, dictionaries *)
Definition quote (q : byte) : Prop := q = x27 \/ q = x22.
Definition in_quotes (q : byte) (l : list char) : Prop := quote q /\ chars_ok l /\ ~ In (Letter (bN q)) l.
Definition ic_text (ic : bool) : bytes := if ic then [x69] else [].
(** A quoted text; one that is not marked [i] is not followed by the letter i. *)
Inductive quoted (ic : bool) : bytes -> bytes -> bytes -> Prop :=
| quoted_ q l s r : in_quotes q l -> (ic = false -> ~ next_is x69 (s ++ r)) -> spacing s r ->
    quoted ic (q :: chars_text l ++ q :: ic_text ic ++ s) (chars_mean l) r.
Definition bar : byte := x7c.
Inductive bars (ic : bool) : bytes -> list bytes -> bytes -> Prop :=
| br_last w m r : quoted ic w m r -> ~ next_is bar r -> bars ic w [m] r
| br_more w m s w' l r : quoted ic w m (bar :: s ++ w' ++ r) -> spacing s (w' ++ r) -> bars ic w' l r ->
    bars ic (w ++ bar :: s ++ w') (m :: l) r.

(** ** Loops and labels *)
Definition digit (b : byte) : bool := ((48 <=? bN b) && (bN b <=? 57))%N.
Inductive number : bytes -> N -> bytes -> Prop :=
| number_ ds s r : ds <> [] -> forallb digit ds = true -> (EscapeSpec.value_of dec_digits 10 ds < 2 ^ 64 - 1)%N ->
    (forall b, next_is b (s ++ r) -> digit b = false) -> spacing s r ->
    number (ds ++ s) (EscapeSpec.value_of dec_digits 10 ds) r.
Inductive bounds : bytes -> nat -> option nat -> bytes -> Prop :=
| bo_exact w n r : number w n r -> ~ next_is x2c r -> bounds w (N.to_nat n) (Some (N.to_nat n)) r
| bo_from w n s r : number w n (x2c :: s ++ r) -> spacing s r -> (forall b, next_is b r -> digit b = false) ->
    bounds (w ++ x2c :: s) (N.to_nat n) None r
| bo_to s w n r : spacing s (w ++ r) -> number w n r -> bounds (x2c :: s ++ w) 0 (Some (N.to_nat n)) r
| bo_both w n s w' m r : number w n (x2c :: s ++ w' ++ r) -> spacing s (w' ++ r) -> number w' m r ->
    bounds (w ++ x2c :: s ++ w') (N.to_nat n) (Some (N.to_nat m)) r.
(** What follows is no loop: not one of ? * +, nor { and a digit or a comma. *)
Definition no_loop (r : bytes) : Prop :=
  ~ next_is x3f r /\ ~ next_is x2a r /\ ~ next_is x2b r
  /\ forall s t b, r = x7b :: s ++ t -> spacing s t -> next_is b t -> digit b = false /\ b <> x2c.
Inductive loop : bytes -> (ope -> ope) -> bytes -> Prop :=
| lp_none r : no_loop r -> loop [] (fun o => o) r
| lp_opt s r : spacing s r -> loop (x3f :: s) (fun o => Rep o 0 (Some 1) None) r
| lp_zom s r : spacing s r -> loop (x2a :: s) (fun o => Rep o 0 None None) r
| lp_oom s r : spacing s r -> loop (x2b :: s) (fun o => Rep o 1 None None) r
| lp_rep s w mn mx s' r : spacing s (w ++ x7d :: s' ++ r) -> bounds w mn mx (x7d :: s' ++ r) -> spacing s' r ->
    loop (x7b :: s ++ w ++ x7d :: s') (fun o => Rep o mn mx None) r.
Definition recover : bytes := [x25; x72; x65; x63; x6f; x76; x65; x72].              (* %recover *)
Definition no_label (r : bytes) : Prop := ~ next_is x5e r /\ forall t, r <> up_double ++ t.
Inductive label : bytes -> (ope -> ope) -> bytes -> Prop :=
| lb_none r : no_label r -> label [] (fun o => o) r
| lb_label m s n s' r : m = [x5e] \/ m = up_double -> spacing s (n ++ s' ++ r) -> name n -> name_ends (s' ++ r) -> spacing s' r ->
    label (m ++ s ++ n ++ s') (fun o => Cho true [] [o; Rcv (Ref recover None 0 true [Ref n None 0 false []])]) r.
Inductive mark : bytes -> (ope -> ope) -> bytes -> Prop :=
| mk_none r : mark [] (fun o => o) r
| mk_and s r : spacing s r -> mark (x26 :: s) And r
| mk_not s r : spacing s r -> mark (x21 :: s) Not r.

(** ** Classes *)
Definition letters (w : bytes) : bool := forallb (fun b => (97 <=? bN b) && (bN b <=? 122))%N w.
(** The named classes (digit, space, word, alpha, ...) and their complements are the
    tables of C05. *)
Definition named (n : bytes) : option ranges := predefined_character_class (string_of_list_byte n).
Definition complement (rs : ranges) : ranges := complement_character_ranges rs.
Definition single (c : char) : Prop := char_ok c /\ scalar (code c) /\ c <> Letter 93 /\ c <> Letter 91.
Definition letter_class (e : byte) : option ranges :=
  match e with
  | x64 => named (bs "digit") | x44 => option_map complement (named (bs "digit"))
  | x73 => named (bs "space") | x53 => option_map complement (named (bs "space"))
  | x77 => named (bs "word") | x57 => option_map complement (named (bs "word"))
  | _ => None
  end.
(** A numeric escape is as long as it can be, or what follows is no digit of it. *)
Definition longest (i : item) : bool := match i with Hex [_; _] | Oct [_; _; _] | Uni [_; _; _; _; _; _] => true | _ => false end.
Definition separates (c : char) (r : bytes) : Prop := match c with Escaped i => longest i = true \/ ends_before i r = true | Letter _ => True end.
(** The inside of a class. *)
Inductive members : bytes -> ranges -> bytes -> Prop :=
| me_end r : next_is x5d r -> members [] [] r
| me_char c w rs r : single c -> separates c (w ++ r) -> (~ next_is x2d (w ++ r) \/ exists t, w ++ r = x2d :: x5d :: t) ->
    members w rs r -> members (char_text c ++ w) ((code c, code c) :: rs) r
| me_range a b w rs r : single a -> single b -> (code a <= code b)%N -> separates b (w ++ r) -> members w rs r ->
    members (char_text a ++ x2d :: char_text b ++ w) ((code a, code b) :: rs) r
| me_letter e cl w rs r : letter_class e = Some cl -> members w rs r -> members (x5c :: e :: w) (cl ++ rs) r
| me_named neg n cl w rs r : letters n = true -> named n = Some cl -> members w rs r ->
    members ([x5b; x3a] ++ (if neg : bool then [x5e] else []) ++ n ++ [x3a; x5d] ++ w) ((if neg then complement cl else cl) ++ rs) r.
Inductive class_ : bytes -> ope -> bytes -> Prop :=
| class_c (neg ic : bool) w rs s r : members w rs (x5d :: ic_text ic ++ s ++ r) -> w <> [] -> (neg = false -> ~ next_is x5e w) ->
    (ic = false -> ~ next_is x69 (s ++ r)) -> spacing s r ->
    class_ (x5b :: (if neg then [x5e] else []) ++ w ++ x5d :: ic_text ic ++ s) (Cls rs neg ic) r.

(** ** Expressions *)
Definition sequence_of (os : list ope) : ope := match os with [] => Not (Lit [] false) | [o] => o | _ => Seq None os end.
Definition choice_of (os : list ope) : ope := match os with [o] => o | _ => Cho false [] os end.
(** A reference; [%recover] marks an error recovery; [~] drops the value. *)
Definition reference (ig : bool) (n : bytes) (call : bool) (args : list ope) : ope :=
  let o := Ref n None 0 call args in
  let o := if bytes_eqb n recover then Rcv o else o in
  if ig then Ign o else o.
(** Where a sequence ends: at the end of the text, before ) > / , or {, and before the
    head of the next definition. *)
Definition sequence_ends (r : bytes) : Prop :=
  r = [] \/ (exists b, next_is b r /\ In b [x29; x3e; x2f; x2c; x7b]) \/ exists w ig n ps t, head w ig n ps t /\ r = w ++ t.

Inductive expression : bytes -> list ope -> bytes -> Prop :=
| ex_last w os r : sequence w os r -> ~ next_is x2f r -> expression w [sequence_of os] r
| ex_more w os s w' l r : sequence w os (x2f :: s ++ w' ++ r) -> spacing s (w' ++ r) -> expression w' l r ->
    expression (w ++ x2f :: s ++ w') (sequence_of os :: l) r
with sequence : bytes -> list ope -> bytes -> Prop :=
| sq_end r : sequence_ends r -> sequence [] [] r
| sq_cut s w os r : spacing s (w ++ r) -> sequence w os r -> sequence (up_arrow ++ s ++ w) (Cut :: os) r
| sq_item w o w' os r : element w o (w' ++ r) -> sequence w' os r -> sequence (w ++ w') (o :: os) r
with element : bytes -> ope -> bytes -> Prop :=
| el m fm p o l fl b fb r : mark m fm (p ++ l ++ b ++ r) -> primary p o (l ++ b ++ r) -> loop l fl (b ++ r) -> label b fb r ->
    element (m ++ p ++ l ++ b) (fm (fb (fl o))) r
with primary : bytes -> ope -> bytes -> Prop :=
| pr_ref ig n s r : name n -> name_ends (s ++ r) -> ~ next_is x28 (s ++ r) -> spacing s r -> ~ arrow_next r ->
    primary (ign_text ig ++ n ++ s) (reference ig n false []) r
| pr_call ig n s w os r : name n -> spacing s (w ++ r) -> arguments w os r -> ~ arrow_next r ->
    primary (ign_text ig ++ n ++ x28 :: s ++ w) (reference ig n true os) r
| pr_group s w l s' r : spacing s (w ++ x29 :: s' ++ r) -> expression w l (x29 :: s' ++ r) -> spacing s' r ->
    primary (x28 :: s ++ w ++ x29 :: s') (choice_of l) r
| pr_token s w l s' r : spacing s (w ++ x3e :: s' ++ r) -> expression w l (x3e :: s' ++ r) -> spacing s' r ->
    primary (x3c :: s ++ w ++ x3e :: s') (Tok (choice_of l)) r
| pr_scope s w l s' r : spacing s (w ++ x29 :: s' ++ r) -> expression w l (x29 :: s' ++ r) -> spacing s' r ->
    primary (x24 :: x28 :: s ++ w ++ x29 :: s') (Csc (choice_of l)) r
| pr_capture n s w l s' r : name n -> spacing s (w ++ x3e :: s' ++ r) -> expression w l (x3e :: s' ++ r) -> spacing s' r ->
    primary (x24 :: n ++ x3c :: s ++ w ++ x3e :: s') (Cap n (choice_of l)) r
| pr_back n s r : name n -> name_ends (s ++ r) -> ~ next_is x3c (s ++ r) -> spacing s r -> primary (x24 :: n ++ s) (Bkr n) r
| pr_literal ic w m r : quoted ic w m r -> ~ next_is bar r -> primary w (Lit m ic) r
| pr_dictionary ic w ms r : bars ic w ms r -> 2 <= List.length ms -> primary w (Dic (make_trie ms ic)) r
| pr_class w o r : class_ w o r -> primary w o r
| pr_any s r : spacing s r -> primary (x2e :: s) Dot r
with arguments : bytes -> list ope -> bytes -> Prop :=
| ar_last w l s r : expression w l (x29 :: s ++ r) -> spacing s r -> arguments (w ++ x29 :: s) [choice_of l] r
| ar_more w l s w' os r : expression w l (x2c :: s ++ w' ++ r) -> spacing s (w' ++ r) -> arguments w' os r ->
    arguments (w ++ x2c :: s ++ w') (choice_of l :: os) r.

(** ** Instructions: { precedence ... }, { error_message '...' } and so on *)
Definition gap (s r : bytes) : Prop := forallb blank s = true /\ forall b, next_is b r -> blank b = false.
Definition left_ : byte := x4c.       (* L *)
Definition right_ : byte := x52.      (* R *)
(** An operator without quotes ends before a blank, L, R or }. *)
Definition stops (b : byte) : bool := blank b || beq b left_ || beq b right_ || beq b x7d.
Inductive operator : bytes -> bytes -> bytes -> Prop :=
| op_plain w r : valid_utf8 w -> w <> [] -> forallb (fun b => negb (stops b)) w = true -> ~ next_is x27 w -> ~ next_is x22 w ->
    (forall b, next_is b r -> stops b = true) -> operator w w r
(* escapes in quoted operators stay as they are *)
| op_quoted q l r : in_quotes q l -> (forall c, In c [32; 9; 10; 13]%N -> ~ In (Letter c) l) -> operator (q :: chars_text l ++ [q]) (chars_text l) r.
(** After the blanks that follow there is no operator, and no L or R, respectively. *)
Definition no_operator (r : bytes) : Prop := forall s t b, r = s ++ t -> gap s t -> s <> [] -> next_is b t -> In b [left_; right_; x7d].
Definition no_level (r : bytes) : Prop := forall s t, r = s ++ t -> gap s t -> s <> [] -> ~ next_is left_ t /\ ~ next_is right_ t.
Inductive operators : bytes -> list bytes -> bytes -> Prop :=
| os_last s w o r : gap s (w ++ r) -> s <> [] -> operator w o r -> no_operator r -> operators (s ++ w) [o] r
| os_more s w o w' os r : gap s (w ++ w' ++ r) -> s <> [] -> operator w o (w' ++ r) -> operators w' os r -> operators (s ++ w ++ w') (o :: os) r.
Inductive levels : bytes -> table_lines -> bytes -> Prop :=
| lv_last a w os r : In a [left_; right_] -> operators w os r -> no_level r -> levels (a :: w) [(beq a left_, os)] r
| lv_more a w os s w' ls r : In a [left_; right_] -> operators w os (s ++ w' ++ r) -> gap s (w' ++ r) -> s <> [] -> levels w' ls r ->
    levels (a :: w ++ s ++ w') ((beq a left_, os) :: ls) r.
Inductive instruction : bytes -> instr -> bytes -> Prop :=
| in_precedence s w ls s' r : gap s (w ++ s' ++ r) -> s <> [] -> levels w ls (s' ++ r) -> gap s' r ->
    instruction (bs "precedence" ++ s ++ w ++ s') (IPrecedence ls) r
| in_message s w m r : gap s (w ++ r) -> s <> [] -> quoted false w m r -> instruction (bs "error_message" ++ s ++ w) (IMessage m) r
| in_no_ast s r : gap s r -> instruction (bs "no_ast_opt" ++ s) INoAstOpt r
| in_no_ws s r : gap s r -> instruction (bs "no_whitespace" ++ s) INoWhitespace r
| in_name s s' n s'' r : gap s (bs ":" ++ s' ++ n ++ s'' ++ r) -> gap s' (n ++ s'' ++ r) -> name n -> name_ends (s'' ++ r) -> spacing s'' r ->
    instruction (bs "ast_name" ++ s ++ bs ":" ++ s' ++ n ++ s'') (IAstName n) r.
Inductive instruction_list : bytes -> list instr -> bytes -> Prop :=
| il_last w i r : instruction w i r -> ~ next_is x3b r -> instruction_list w [i] r
| il_more w i s w' l r : instruction w i (x3b :: s ++ w' ++ r) -> spacing s (w' ++ r) -> instruction_list w' l r ->
    instruction_list (w ++ x3b :: s ++ w') (i :: l) r.
Inductive instructions : bytes -> list instr -> bytes -> Prop :=
| is_none r : ~ next_is x7b r -> instructions [] [] r
| is_empty s s' r : spacing s (x7d :: s' ++ r) -> spacing s' r -> instructions (x7b :: s ++ x7d :: s') [] r
| is_some s w l s' r : spacing s (w ++ x7d :: s' ++ r) -> instruction_list w l (x7d :: s' ++ r) -> spacing s' r ->
    instructions (x7b :: s ++ w ++ x7d :: s') l r.

(** ** Definitions *)
Record def := { df_ignored : bool; df_name : bytes; df_params : option (list bytes); df_body : ope; df_instrs : list instr }.
Inductive definition : bytes -> def -> bytes -> Prop :=
| definition_ h ig n ps a s w l i is r : head h ig n ps (a ++ s ++ w ++ i ++ r) -> arrow a -> spacing s (w ++ i ++ r) -> expression w l (i ++ r) ->
    instructions i is r ->
    definition (h ++ a ++ s ++ w ++ i) {| df_ignored := ig; df_name := n; df_params := ps; df_body := choice_of l; df_instrs := is |} r.
Inductive definitions : bytes -> list def -> Prop :=
| ds_last w d : definition w d [] -> definitions w [d]
| ds_more w d w' ds : definition w d w' -> definitions w' ds -> definitions (w ++ w') (d :: ds).
Definition grammar_text (w : bytes) (ds : list def) : Prop := exists s w', w = s ++ w' /\ spacing s w' /\ definitions w' ds.

(** ** Captures and back references, in the order of the text *)
Inductive event := Bound (n : bytes) | Used (n : bytes) | Open | Close.
Fixpoint events (o : ope) : list event :=
match o with
| Cap n e => events e ++ [Bound n]
| Bkr n => [Used n]
| Csc e => Open :: events e ++ [Close]
| Seq _ l | Cho _ _ l => flat_map events l
| Rep e _ _ _ | And e | Not e | Tok e | Ign e | Rcv e => events e
| Ref _ _ _ _ args => flat_map events args
| _ => []
end.
(** The names visible: one list for every open $( ... ). *)
Fixpoint unbound (evs : list event) (scopes : list (list bytes)) : list bytes :=
match evs with
| [] => []
| Bound n :: evs' => unbound evs' (match scopes with c :: cs => (n :: c) :: cs | [] => [] end)
| Used n :: evs' => (if existsb (existsb (bytes_eqb n)) scopes then [] else [n]) ++ unbound evs' scopes
| Open :: evs' => unbound evs' ([] :: scopes)
| Close :: evs' => unbound evs' (tl scopes)
end.
