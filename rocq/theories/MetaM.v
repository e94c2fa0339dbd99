(** * From grammar text to rules: the meta-grammar and its actions.
    ParserGenerator::make_grammar (peglib.h 5461-5657), setup_actions (5660-6134) and
    the first part of perform_core (6177-6285).

    Not modelled: rules given as operators (6221-6236), log messages and source
    positions (Definition::s_, line_), the lifetime of string views into the text. *)
From Verif Require Import Base BaseLemmas Utf8 Escape TrieM LineInfo Ope Ctx ErrLog Engine Top FirstSetM PackratFilter PrecSpec PrecM LoadM.

(** ** The rules, in the order of make_grammar. *)
Inductive sym :=
| SGrammar | SDefinition | SExpression | SSequence | SPrefix | SSuffixWithLabel | SSuffix | SLoop | SPrimary | SIdentifier
| SIdentCont | SIdentStart | SIdentRest | SDictionary | SDictionaryI | SLiteral | SLiteralD | SLiteralI | SLiteralID | SClass
| SClassI | SNegatedClass | SNegatedClassI | SRange | SClassEscape | SPosixClass | SChar | SRepetition | SRepetitionRange | SNumber
| SCapScope | SLEFTARROW | SSLASH | SPIPE | SAND | SNOT | SQUESTION | SSTAR | SPLUS | SOPEN
| SCLOSE | SDOT | SCUT | SLABEL | SSpacing | SComment | SSpace | SEndOfLine | SEndOfFile | SBeginTok
| SEndTok | SBeginCapScope | SEndCapScope | SBeginCap | SEndCap | SBackRef | SIGNORE | SIgnore | SParameters | SArguments
| SCOMMA | SInstruction | SInstructionItem | SInstructionItemSeparator | SSpacesZom | SSpacesOom | SBeginBracket | SEndBracket | SPrecedenceClimbing | SPrecedenceInfo
| SPrecedenceOpe | SPrecedenceAssoc | SErrorMessage | SNoAstOpt | SNoWhitespace | SAstName.
Definition syms : list sym :=
  [ SGrammar; SDefinition; SExpression; SSequence; SPrefix; SSuffixWithLabel; SSuffix; SLoop; SPrimary; SIdentifier;
    SIdentCont; SIdentStart; SIdentRest; SDictionary; SDictionaryI; SLiteral; SLiteralD; SLiteralI; SLiteralID; SClass;
    SClassI; SNegatedClass; SNegatedClassI; SRange; SClassEscape; SPosixClass; SChar; SRepetition; SRepetitionRange; SNumber;
    SCapScope; SLEFTARROW; SSLASH; SPIPE; SAND; SNOT; SQUESTION; SSTAR; SPLUS; SOPEN;
    SCLOSE; SDOT; SCUT; SLABEL; SSpacing; SComment; SSpace; SEndOfLine; SEndOfFile; SBeginTok;
    SEndTok; SBeginCapScope; SEndCapScope; SBeginCap; SEndCap; SBackRef; SIGNORE; SIgnore; SParameters; SArguments;
    SCOMMA; SInstruction; SInstructionItem; SInstructionItemSeparator; SSpacesZom; SSpacesOom; SBeginBracket; SEndBracket; SPrecedenceClimbing; SPrecedenceInfo;
    SPrecedenceOpe; SPrecedenceAssoc; SErrorMessage; SNoAstOpt; SNoWhitespace; SAstName ].
Definition sym_eq_dec (a b : sym) : {a = b} + {a <> b}. Proof. decide equality. Defined.
Definition sid (s : sym) : rid :=
  (fix at_ i l := match l with [] => i | x :: l' => if sym_eq_dec x s then i else at_ (S i) l' end) 0 syms.
Definition sym_name (s : sym) : bytes :=
  match s with
  | SGrammar => bs "Grammar" | SDefinition => bs "Definition" | SExpression => bs "Expression" | SSequence => bs "Sequence"
  | SPrefix => bs "Prefix" | SSuffixWithLabel => bs "SuffixWithLabel" | SSuffix => bs "Suffix" | SLoop => bs "Loop"
  | SPrimary => bs "Primary" | SIdentifier => bs "Identifier" | SIdentCont => bs "IdentCont" | SIdentStart => bs "IdentStart"
  | SIdentRest => bs "IdentRest" | SDictionary => bs "Dictionary" | SDictionaryI => bs "DictionaryI" | SLiteral => bs "Literal"
  | SLiteralD => bs "LiteralD" | SLiteralI => bs "LiteralI" | SLiteralID => bs "LiteralID" | SClass => bs "Class"
  | SClassI => bs "ClassI" | SNegatedClass => bs "NegatedClass" | SNegatedClassI => bs "NegatedClassI" | SRange => bs "Range"
  | SClassEscape => bs "ClassEscape" | SPosixClass => bs "PosixClass" | SChar => bs "Char" | SRepetition => bs "Repetition"
  | SRepetitionRange => bs "RepetitionRange" | SNumber => bs "Number" | SCapScope => bs "CapScope" | SLEFTARROW => bs "LEFTARROW"
  | SSLASH => bs "SLASH" | SPIPE => bs "PIPE" | SAND => bs "AND" | SNOT => bs "NOT" | SQUESTION => bs "QUESTION" | SSTAR => bs "STAR"
  | SPLUS => bs "PLUS" | SOPEN => bs "OPEN" | SCLOSE => bs "CLOSE" | SDOT => bs "DOT" | SCUT => bs "CUT" | SLABEL => bs "LABEL"
  | SSpacing => bs "Spacing" | SComment => bs "Comment" | SSpace => bs "Space" | SEndOfLine => bs "EndOfLine"
  | SEndOfFile => bs "EndOfFile" | SBeginTok => bs "BeginTok" | SEndTok => bs "EndTok" | SBeginCapScope => bs "BeginCapScope"
  | SEndCapScope => bs "EndCapScope" | SBeginCap => bs "BeginCap" | SEndCap => bs "EndCap" | SBackRef => bs "BackRef"
  | SIGNORE => bs "IGNORE" | SIgnore => bs "Ignore" | SParameters => bs "Parameters" | SArguments => bs "Arguments"
  | SCOMMA => bs "COMMA" | SInstruction => bs "Instruction" | SInstructionItem => bs "InstructionItem"
  | SInstructionItemSeparator => bs "InstructionItemSeparator" | SSpacesZom => bs "SpacesZom" | SSpacesOom => bs "SpacesOom"
  | SBeginBracket => bs "BeginBracket" | SEndBracket => bs "EndBracket" | SPrecedenceClimbing => bs "PrecedenceClimbing"
  | SPrecedenceInfo => bs "PrecedenceInfo" | SPrecedenceOpe => bs "PrecedenceOpe" | SPrecedenceAssoc => bs "PrecedenceAssoc"
  | SErrorMessage => bs "ErrorMessage" | SNoAstOpt => bs "NoAstOpt" | SNoWhitespace => bs "NoWhitespace" | SAstName => bs "AstName"
  end.

(** ** Factories, 2216-2343.  A Definition used as an operator is a WeakHolder (3125). *)
Definition nt (s : sym) : ope := Wkh (sid s).
Definition seq (l : list ope) : ope := Seq None l.
Definition cho (l : list ope) : ope := Cho false [] l.
Definition zom (e : ope) : ope := Rep e 0 None None.
Definition oom (e : ope) : ope := Rep e 1 None None.
Definition opt (e : ope) : ope := Rep e 0 (Some 1) None.
Definition rep (e : ope) (mn : nat) (mx : option nat) : ope := Rep e mn mx None.
Definition npd (e : ope) : ope := Not e.
Definition apd (e : ope) : ope := And e.
Definition tok (e : ope) : ope := Tok e.
Definition ign (e : ope) : ope := Ign e.
Definition lit (s : bytes) : ope := Lit s false.
Definition liti (s : bytes) : ope := Lit s true.
Definition dot : ope := Dot.
Definition chr (b : byte) : ope := Chr (bN b).
(** cls of a string, 1826-1846, for the ASCII strings used here. *)
Fixpoint class_of (fuel : nat) (s : list N) : ranges :=
  match fuel with
  | O => []
  | S fuel' =>
    match s with
    | [] => []
    | a :: 45%N :: b :: s' => (a, b) :: class_of fuel' s'
    | a :: s' => (a, a) :: class_of fuel' s'
    end
  end.
Definition cls (s : bytes) : ope := Cls (class_of (List.length s) (map bN s)) false false.

Definition sq : byte := x27.                             (* single quote *)
Definition dq : byte := x22.                             (* double quote *)
Definition bsl : byte := x5c.                            (* backslash *)
Definition up_arrow : bytes := [xe2; x86; x91].          (* U+2191 *)
Definition up_double : bytes := [xe2; x87; x91].         (* U+21D1 *)
Definition left_arrow : bytes := [xe2; x86; x90].        (* U+2190 *)

(** 5505-5510 and 5514-5519. *)
Definition lit_ope (close1 close2 : ope) : ope :=
  cho [ seq [cls [sq]; tok (zom (seq [npd (cls [sq]); nt SChar])); close1; nt SSpacing];
        seq [cls [dq]; tok (zom (seq [npd (cls [dq]); nt SChar])); close2; nt SSpacing] ].
Definition class_body : ope := tok (oom (seq [npd (chr x5d); nt SRange])).
Definition hex : ope := cls (bs "0-9a-fA-F").

(** make_grammar, 5461-5657. *)
Definition sym_body (s : sym) : ope :=
  match s with
  | SGrammar => seq [nt SSpacing; oom (nt SDefinition); nt SEndOfFile]
  | SDefinition => seq [nt SIgnore; nt SIdentCont; opt (nt SParameters); nt SSpacing; nt SLEFTARROW; nt SExpression; opt (nt SInstruction)]
  | SExpression => seq [nt SSequence; zom (seq [nt SSLASH; nt SSequence])]
  | SSequence => zom (cho [nt SCUT; nt SPrefix])
  | SPrefix => seq [opt (cho [nt SAND; nt SNOT]); nt SSuffixWithLabel]
  | SSuffixWithLabel => seq [nt SSuffix; opt (seq [nt SLABEL; nt SIdentifier])]
  | SSuffix => seq [nt SPrimary; opt (nt SLoop)]
  | SLoop => cho [nt SQUESTION; nt SSTAR; nt SPLUS; nt SRepetition]
  | SPrimary =>
    cho [ seq [nt SIgnore; nt SIdentCont; opt (nt SArguments); nt SSpacing; npd (seq [opt (nt SParameters); nt SLEFTARROW])];
          seq [nt SOPEN; nt SExpression; nt SCLOSE];
          seq [nt SBeginTok; nt SExpression; nt SEndTok];
          nt SCapScope;
          seq [nt SBeginCap; nt SExpression; nt SEndCap];
          nt SBackRef; nt SDictionaryI; nt SLiteralI; nt SDictionary; nt SLiteral;
          nt SNegatedClassI; nt SNegatedClass; nt SClassI; nt SClass; nt SDOT ]
  | SIdentifier => seq [nt SIdentCont; nt SSpacing]
  | SIdentCont => tok (seq [nt SIdentStart; zom (nt SIdentRest)])
  | SIdentStart => seq [npd (lit up_arrow); npd (lit up_double); cho [cls (bs "a-zA-Z_%"); Cls [(128, 65535)%N] false false]]
  | SIdentRest => cho [nt SIdentStart; cls (bs "0-9")]
  | SDictionary => seq [nt SLiteralD; oom (seq [nt SPIPE; nt SLiteralD])]
  | SDictionaryI => seq [nt SLiteralID; oom (seq [nt SPIPE; nt SLiteralID])]
  | SLiteral | SLiteralD => lit_ope (cls [sq]) (cls [dq])
  | SLiteralI | SLiteralID => lit_ope (lit [sq; x69]) (lit [dq; x69])
  | SClass => seq [chr x5b; npd (chr x5e); class_body; chr x5d; nt SSpacing]
  | SClassI => seq [chr x5b; npd (chr x5e); class_body; lit (bs "]i"); nt SSpacing]
  | SNegatedClass => seq [lit (bs "[^"); class_body; chr x5d; nt SSpacing]
  | SNegatedClassI => seq [lit (bs "[^"); class_body; lit (bs "]i"); nt SSpacing]
  | SRange => cho [seq [nt SChar; chr x2d; npd (chr x5d); nt SChar]; nt SClassEscape; nt SPosixClass; nt SChar]
  | SClassEscape => seq [chr bsl; cls (bs "dDwWsS")]
  | SPosixClass => seq [lit (bs "[:"); opt (chr x5e); oom (cls (bs "a-z")); lit (bs ":]")]
  | SChar =>
    cho [ seq [chr bsl; cls (bs "fnrtv'" ++ [dq] ++ bs "[]" ++ [bsl] ++ bs "^-")];
          seq [chr bsl; cls (bs "0-3"); cls (bs "0-7"); cls (bs "0-7")];
          seq [chr bsl; cls (bs "0-7"); opt (cls (bs "0-7"))];
          seq [lit [bsl; x78]; hex; opt hex];
          seq [lit [bsl; x75]; cho [seq [cho [seq [chr x30; hex]; lit (bs "10")]; rep hex 4 (Some 4)]; rep hex 4 (Some 5)]];
          seq [npd (chr bsl); dot] ]
  | SRepetition => seq [nt SBeginBracket; nt SRepetitionRange; nt SEndBracket]
  | SRepetitionRange => cho [ seq [nt SNumber; nt SCOMMA; nt SNumber]; seq [nt SNumber; nt SCOMMA]; nt SNumber; seq [nt SCOMMA; nt SNumber] ]
  | SNumber => seq [oom (cls (bs "0-9")); nt SSpacing]
  | SCapScope => seq [nt SBeginCapScope; nt SExpression; nt SEndCapScope]
  | SLEFTARROW => seq [cho [lit (bs "<-"); lit left_arrow]; nt SSpacing]
  | SSLASH => seq [chr x2f; nt SSpacing]
  | SPIPE => seq [chr x7c; nt SSpacing]
  | SAND => seq [chr x26; nt SSpacing]
  | SNOT => seq [chr x21; nt SSpacing]
  | SQUESTION => seq [chr x3f; nt SSpacing]
  | SSTAR => seq [chr x2a; nt SSpacing]
  | SPLUS => seq [chr x2b; nt SSpacing]
  | SOPEN => seq [chr x28; nt SSpacing]
  | SCLOSE => seq [chr x29; nt SSpacing]
  | SDOT => seq [chr x2e; nt SSpacing]
  | SCUT => seq [lit up_arrow; nt SSpacing]
  | SLABEL => seq [cho [chr x5e; lit up_double]; nt SSpacing]
  | SSpacing => zom (cho [nt SSpace; nt SComment])
  | SComment => seq [chr x23; zom (seq [npd (nt SEndOfLine); dot]); opt (nt SEndOfLine)]
  | SSpace => cho [chr x20; chr x09; nt SEndOfLine]
  | SEndOfLine => cho [lit [x0d; x0a]; chr x0a; chr x0d]
  | SEndOfFile => npd dot
  | SBeginTok => seq [chr x3c; nt SSpacing]
  | SEndTok => seq [chr x3e; nt SSpacing]
  | SBeginCapScope => seq [chr x24; chr x28; nt SSpacing]
  | SEndCapScope => seq [chr x29; nt SSpacing]
  | SBeginCap => seq [chr x24; tok (nt SIdentCont); chr x3c; nt SSpacing]
  | SEndCap => seq [chr x3e; nt SSpacing]
  | SBackRef => seq [chr x24; tok (nt SIdentCont); nt SSpacing]
  | SIGNORE => chr x7e
  | SIgnore => opt (nt SIGNORE)
  | SParameters => seq [nt SOPEN; nt SIdentifier; zom (seq [nt SCOMMA; nt SIdentifier]); nt SCLOSE]
  | SArguments => seq [nt SOPEN; nt SExpression; zom (seq [nt SCOMMA; nt SExpression]); nt SCLOSE]
  | SCOMMA => seq [chr x2c; nt SSpacing]
  | SInstruction => seq [nt SBeginBracket; opt (seq [nt SInstructionItem; zom (seq [nt SInstructionItemSeparator; nt SInstructionItem])]); nt SEndBracket]
  | SInstructionItem => cho [nt SPrecedenceClimbing; nt SErrorMessage; nt SNoAstOpt; nt SNoWhitespace; nt SAstName]
  | SInstructionItemSeparator => seq [chr x3b; nt SSpacing]
  | SSpacesZom => zom (nt SSpace)
  | SSpacesOom => oom (nt SSpace)
  | SBeginBracket => seq [chr x7b; nt SSpacing]
  | SEndBracket => seq [chr x7d; nt SSpacing]
  | SPrecedenceClimbing => seq [lit (bs "precedence"); nt SSpacesOom; nt SPrecedenceInfo; zom (seq [nt SSpacesOom; nt SPrecedenceInfo]); nt SSpacesZom]
  | SPrecedenceInfo => seq [nt SPrecedenceAssoc; oom (seq [ign (nt SSpacesOom); nt SPrecedenceOpe])]
  | SPrecedenceOpe =>
    cho [ seq [cls [sq]; tok (zom (seq [npd (cho [nt SSpace; cls [sq]]); nt SChar])); cls [sq]];
          seq [cls [dq]; tok (zom (seq [npd (cho [nt SSpace; cls [dq]]); nt SChar])); cls [dq]];
          tok (oom (seq [npd (cho [nt SPrecedenceAssoc; nt SSpace; chr x7d]); dot])) ]
  | SPrecedenceAssoc => cls (bs "LR")
  | SErrorMessage => seq [lit (bs "error_message"); nt SSpacesOom; nt SLiteralD; nt SSpacesZom]
  | SNoAstOpt => seq [lit (bs "no_ast_opt"); nt SSpacesZom]
  | SNoWhitespace => seq [lit (bs "no_whitespace"); nt SSpacesZom]
  | SAstName => seq [lit (bs "ast_name"); nt SSpacesZom; lit (bs ":"); nt SSpacesZom; nt SIdentifier; nt SSpacesZom]
  end.
(** The rules declared with [~]. *)
Definition sym_ignored (s : sym) : bool :=
  match s with
  | SSLASH | SPIPE | SOPEN | SCLOSE | SLABEL | SSpacing | SBeginTok | SEndTok | SBeginCapScope | SEndCapScope | SEndCap | SCOMMA
  | SInstructionItemSeparator | SSpacesZom | SSpacesOom | SBeginBracket | SEndBracket => true
  | _ => false
  end.
(** has_macro_ref is false once the rules have been scanned (4342-4368), which happens
    before the first parse. *)
Definition plain_rule (name : bytes) (body : ope) (ignored : bool) : rule :=
  {| r_name := name; r_body := Some body; r_ignore := ignored; r_is_macro := false; r_params := []; r_disable_action := false;
     r_lr := false; r_can_be_empty := false; r_macro_ref := false; r_error_message := []; r_no_ast_opt := false;
     r_no_whitespace := false; r_ast_name := [] |}.
Definition meta_grammar : grammar := map (fun s => plain_rule (sym_name s) (sym_body s) (sym_ignored s)) syms.

(** ** Values and data of the actions *)
Inductive loop_kind := LOpt | LZom | LOom | LRep (mn : nat) (mx : option nat).
Inductive mval :=
| VBool (b : bool) | VStr (s : bytes) | VView (s : bytes) | VOpe (o : ope) | VByte (b : byte) | VLoop (k : loop_kind)
| VRange (r : N * N) | VRanges (rs : ranges) | VNum (n : N) | VBounds (mn : nat) (mx : option nat)
| VStrs (l : list bytes) | VOpes (l : list ope) | VViews (l : list bytes) | VInstr (i : instr) | VInstrs (l : list instr).

(** Data, 5429-5445, and how an action ended the load: [Thrown] a SyntaxErrorException
    (5447), [Broken] any other exception or undefined behaviour.  Only the first is
    kept; the model goes on parsing where the code stops. *)
Inductive failure := Thrown | Broken.
Record data := {
  d_rules : list rule;                     (* grammar, in order of insertion *)
  d_start : bytes;
  d_dup_defs : list bytes;
  d_dup_instrs : list bytes;
  d_instrs : list (bytes * list instr);    (* std::map; here in order of insertion: the
                                              instructions of different rules do not interfere *)
  d_undef : list bytes;                    (* undefined_back_references *)
  d_caps : list (list bytes);              (* captures_stack, back() first *)
  d_current : list bytes;                  (* captures_in_current_definition *)
  d_packrat : bool;
  d_fail : option failure
}.
Definition with_defs (rs : list rule) (st : bytes) (dd di : list bytes) (ins : list (bytes * list instr)) (d : data) : data :=
  {| d_rules := rs; d_start := st; d_dup_defs := dd; d_dup_instrs := di; d_instrs := ins; d_undef := d_undef d; d_caps := d_caps d;
     d_current := d_current d; d_packrat := d_packrat d; d_fail := d_fail d |}.
Definition with_caps (un : list bytes) (cs : list (list bytes)) (cu : list bytes) (pk : bool) (d : data) : data :=
  {| d_rules := d_rules d; d_start := d_start d; d_dup_defs := d_dup_defs d; d_dup_instrs := d_dup_instrs d; d_instrs := d_instrs d;
     d_undef := un; d_caps := cs; d_current := cu; d_packrat := pk; d_fail := d_fail d |}.
Definition with_fail (f : failure) (d : data) : data :=
  {| d_rules := d_rules d; d_start := d_start d; d_dup_defs := d_dup_defs d; d_dup_instrs := d_dup_instrs d; d_instrs := d_instrs d;
     d_undef := d_undef d; d_caps := d_caps d; d_current := d_current d; d_packrat := d_packrat d;
     d_fail := match d_fail d with Some x => Some x | None => Some f end |}.

Definition recover_name : bytes := bs "%recover".
(** The data before the parse, with the built-in macro, 6180-6195. *)
Definition recover_rule : rule :=
  {| r_name := recover_name; r_body := Some (Ref (bs "x") None 0 false []); r_ignore := true; r_is_macro := true; r_params := [bs "x"];
     r_disable_action := false; r_lr := false; r_can_be_empty := false; r_macro_ref := true; r_error_message := [];
     r_no_ast_opt := false; r_no_whitespace := false; r_ast_name := [] |}.
Definition data0 : data :=
  {| d_rules := [recover_rule]; d_start := []; d_dup_defs := []; d_dup_instrs := []; d_instrs := []; d_undef := []; d_caps := [[]];
     d_current := []; d_packrat := true; d_fail := None |}.

(** ** Reading the semantic values: [None] is std::bad_any_cast or an index outside
    the vector. *)
Notation vals := (list (option mval)).
Definition val_at (vs : vals) (i : nat) : option mval := match nth_error vs i with Some v => v | None => None end.
Definition as_bool (v : option mval) := match v with Some (VBool b) => Some b | _ => None end.
Definition as_str (v : option mval) := match v with Some (VStr s) => Some s | _ => None end.
Definition as_view (v : option mval) := match v with Some (VView s) => Some s | _ => None end.
Definition as_ope (v : option mval) := match v with Some (VOpe o) => Some o | _ => None end.
Definition as_byte (v : option mval) := match v with Some (VByte b) => Some b | _ => None end.
Definition as_loop (v : option mval) := match v with Some (VLoop k) => Some k | _ => None end.
Definition as_num (v : option mval) := match v with Some (VNum n) => Some n | _ => None end.
Definition as_bounds (v : option mval) := match v with Some (VBounds a b) => Some (a, b) | _ => None end.
Definition as_strs (v : option mval) := match v with Some (VStrs l) => Some l | _ => None end.
Definition as_opes (v : option mval) := match v with Some (VOpes l) => Some l | _ => None end.
Definition as_views (v : option mval) := match v with Some (VViews l) => Some l | _ => None end.
Definition as_instr (v : option mval) := match v with Some (VInstr i) => Some i | _ => None end.
Definition as_instrs (v : option mval) := match v with Some (VInstrs l) => Some l | _ => None end.
(** SemanticValues::transform, 620-629. *)
Fixpoint all_as {A} (f : option mval -> option A) (vs : vals) : option (list A) :=
  match vs with [] => Some [] | v :: vs' => match f v, all_as f vs' with Some x, Some l => Some (x :: l) | _, _ => None end end.

Definition obind {A B} (m : option A) (f : A -> option B) : option B := match m with Some a => f a | None => None end.
Local Notation "'let?' x ':=' m 'in' k" := (obind m (fun x => k)) (at level 200, x pattern, m at level 100, k at level 200, right associativity).

(** ** The actions without data.  [Some v]: the value; the flag says that a
    SyntaxErrorException is thrown. *)
Inductive made := Made (v : mval) | Throws.

(** token_to_number_<size_t>, 422-436, on a token that starts with a digit:
    std::from_chars leaves 0 when the number does not fit. *)
Fixpoint digits_of (s : bytes) (acc : N) : N :=
  match s with
  | [] => acc
  | c :: s' => let n := bN c in if ((48 <=? n) && (n <=? 57))%N then digits_of s' (acc * 10 + (n - 48))%N else acc
  end.
Definition to_number (s : bytes) : N := let n := digits_of s 0%N in if (n <? 2 ^ 64)%N then n else 0%N.
(** SIZE_MAX as an upper bound is no bound (Repetition::parse_core). *)
Definition bound_of (n : N) : option nat := if (n =? 2 ^ 64 - 1)%N then None else Some (N.to_nat n).
Definition span_text (input : bytes) (sp : nat * nat) : bytes := sub input (fst sp) (snd sp).
Definition token_text (input : bytes) (vs : sv mval) : bytes := match v_toks vs with t :: _ => span_text input t | [] => span_text input (v_sv vs) end.
(** vs.tokens.front(): undefined when there is none. *)
Definition front_token (input : bytes) (vs : sv mval) : option bytes := match v_toks vs with t :: _ => Some (span_text input t) | [] => None end.
Definition resolved (s : bytes) : option bytes := match resolve_escape_sequence s with Ok r => Some r | _ => None end.
Definition code_point (s : bytes) : option N := match decode_codepoint_cp s (List.length s) with Ok cp => Some cp | _ => None end.
Definition first_byte (s : bytes) : option byte := match s with b :: _ => Some b | [] => None end.

(** 5875-5891. *)
Fixpoint collect_ranges (vs : vals) : option ranges :=
  match vs with
  | [] => Some []
  | Some (VRange r) :: vs' => let? l := collect_ranges vs' in Some (r :: l)
  | Some (VRanges rs) :: vs' => let? l := collect_ranges vs' in Some (rs ++ l)
  | _ => None
  end.
(** 5936-5954. *)
Definition class_escape (s : bytes) : option ranges :=
  let? ch := nth_error s 1 in
  let name := match ch with x64 | x44 => "digit" | x73 | x53 => "space" | _ => "word" end%string in
  let? rs := predefined_character_class name in
  Some (match ch with x44 | x53 | x57 => complement_character_ranges rs | _ => rs end).
(** 5955-5965. *)
Definition posix_class (s : bytes) : option made :=
  let? c := nth_error s 2 in
  let negated := beq c x5e in
  let k := if negated then 3 else 2 in
  if List.length s <? (if negated then 5 else 4) then None
  else
    let name := sub s k (List.length s - (if negated then 5 else 4)) in
    Some (match predefined_character_class (string_of_list_byte name) with
          | None => Throws
          | Some rs => Made (VRanges (if negated then complement_character_ranges rs else rs))
          end).
Definition dic (l : list bytes) (ic : bool) : ope := Dic (make_trie l ic).
Definition ref_ (n : bytes) (mac : bool) (args : list ope) : ope := Ref n None 0 mac args.

(** One precedence line, 6078-6091 with the tokens of 6095: its associativity is the
    first byte of its first token. *)
Definition prec_of (toks : list bytes) : option (bool * list bytes) :=
  match toks with
  | (a :: _) :: l => Some (beq a x4c, l)
  | _ => None
  end.
Fixpoint prec_all (l : list (list bytes)) : option table_lines :=
  match l with [] => Some [] | t :: l' => let? x := prec_of t in let? r := prec_all l' in Some (x :: r) end.

Definition value_of (s : sym) (input : bytes) (vs : sv mval) : option made :=
  let v := v_vals vs in
  let n := List.length v in
  let text := span_text input (v_sv vs) in
  let? x := (match s with
  | SExpression =>                                                   (* 5733-5745 *)
    let? os := all_as as_ope v in
    match os with [o] => Some (VOpe o) | _ => Some (VOpe (Cho false [] os)) end
  | SSequence =>                                                     (* 5747-5760 *)
    let? os := all_as as_ope v in
    match os with [] => Some (VOpe (npd (lit []))) | [o] => Some (VOpe o) | _ => Some (VOpe (Seq None os)) end
  | SPrefix =>                                                       (* 5762-5777 *)
    if n =? 1 then let? o := as_ope (val_at v 0) in Some (VOpe o)
    else let? t := as_byte (val_at v 0) in let? o := as_ope (val_at v 1) in Some (VOpe (if beq t x26 then And o else Not o))
  | SSuffixWithLabel =>                                              (* 5779-5792 *)
    let? o := as_ope (val_at v 0) in
    if n =? 1 then Some (VOpe o)
    else let? i := as_str (val_at v 1) in
         Some (VOpe (Cho true [] [o; Rcv (ref_ recover_name true [ref_ i false []])]))
  | SSuffix =>                                                       (* 5800-5815 *)
    let? o := as_ope (val_at v 0) in
    if n =? 1 then Some (VOpe o)
    else let? k := as_loop (val_at v 1) in
         Some (VOpe (match k with LOpt => opt o | LZom => zom o | LOom => oom o | LRep mn mx => rep o mn mx end))
  | SLoop =>                                                         (* 5817-5829 *)
    match v_ch vs with
    | 0 => Some (VLoop LOpt)
    | 1 => Some (VLoop LZom)
    | 2 => Some (VLoop LOom)
    | _ => let? (a, b) := as_bounds (val_at v 0) in Some (VLoop (LRep a b))
    end
  | SPrimary =>                                                      (* 5831-5878 *)
    match v_ch vs with
    | 0 =>
      let? ig := as_bool (val_at v 0) in
      let? i := as_str (val_at v 1) in
      let? args := (if 2 <? n then as_opes (val_at v 2) else Some []) in
      let o := ref_ i (2 <? n) args in
      let o' := if bytes_eqb i recover_name then Rcv o else o in
      Some (VOpe (if ig then Ign o' else o'))
    | 1 => let? o := as_ope (val_at v 0) in Some (VOpe o)
    | 2 => let? o := as_ope (val_at v 0) in Some (VOpe (Tok o))
    | 3 => let? o := as_ope (val_at v 0) in Some (VOpe (Csc o))
    | 4 => let? nm := as_view (val_at v 0) in let? o := as_ope (val_at v 1) in Some (VOpe (Cap nm o))
    | _ => let? o := as_ope (val_at v 0) in Some (VOpe o)
    end
  | SIdentCont => Some (VStr text)                                   (* 5880-5882 *)
  | SDictionary => let? l := all_as as_str v in Some (VOpe (dic l false))
  | SDictionaryI => let? l := all_as as_str v in Some (VOpe (dic l true))
  | SLiteral => let? t := front_token input vs in let? r := resolved t in Some (VOpe (lit r))
  | SLiteralI => let? t := front_token input vs in let? r := resolved t in Some (VOpe (liti r))
  | SLiteralD | SLiteralID => let? t := front_token input vs in let? r := resolved t in Some (VStr r)
  | SClass => let? rs := collect_ranges v in Some (VOpe (Cls rs false false))
  | SClassI => let? rs := collect_ranges v in Some (VOpe (Cls rs false true))
  | SNegatedClass => let? rs := collect_ranges v in Some (VOpe (Cls rs true false))
  | SNegatedClassI => let? rs := collect_ranges v in Some (VOpe (Cls rs true true))
  | SClassEscape => let? rs := class_escape text in Some (VRanges rs)
  | SChar => let? r := resolved text in Some (VStr r)                (* 5966-5968 *)
  | SRepetitionRange =>                                              (* 5970-5988 *)
    match v_ch vs with
    | 0 => let? a := as_num (val_at v 0) in let? b := as_num (val_at v 1) in Some (VBounds (N.to_nat a) (bound_of b))
    | 1 => let? a := as_num (val_at v 0) in Some (VBounds (N.to_nat a) None)
    | 2 => let? a := as_num (val_at v 0) in Some (VBounds (N.to_nat a) (bound_of a))
    | _ => let? a := as_num (val_at v 0) in Some (VBounds 0 (bound_of a))
    end
  | SNumber => Some (VNum (to_number (token_text input vs)))         (* 5989-5991 *)
  | SAND | SNOT | SQUESTION | SSTAR | SPLUS => let? b := first_byte text in Some (VByte b)
  | SDOT => Some (VOpe Dot)
  | SCUT => Some (VOpe Cut)
  | SBeginCap => Some (VView (token_text input vs))
  | SBackRef => Some (VOpe (Bkr (token_text input vs)))              (* 6052 *)
  | SIgnore => Some (VBool (0 <? n))
  | SParameters => let? l := all_as as_str v in Some (VStrs l)
  | SArguments => let? l := all_as as_ope v in Some (VOpes l)
  | SPrecedenceClimbing =>                                           (* 6065-6081 *)
    let? l := all_as as_views v in let? ls := prec_all l in Some (VInstr (IPrecedence ls))
  | SPrecedenceInfo => let? l := all_as as_view v in Some (VViews l)
  | SPrecedenceOpe | SPrecedenceAssoc => Some (VView (token_text input vs))
  | SErrorMessage => let? s := as_str (val_at v 0) in Some (VInstr (IMessage s))
  | SNoAstOpt => Some (VInstr INoAstOpt)
  | SNoWhitespace => Some (VInstr INoWhitespace)
  | SAstName => let? s := as_str (val_at v 0) in Some (VInstr (IAstName s))
  | SInstruction => let? l := all_as as_instr v in Some (VInstrs l)
  (* Range and PosixClass, which may throw, are below; the others have no action *)
  | _ => None
  end) in Some (Made x).

(** Range, 5905-5934. *)
Definition range_value (vs : sv mval) : option made :=
  let v := v_vals vs in
  match v_ch vs with
  | 0 => let? s1 := as_str (val_at v 0) in let? s2 := as_str (val_at v 1) in
         let? a := code_point s1 in let? b := code_point s2 in
         Some (if (b <? a)%N then Throws else Made (VRange (a, b)))
  | 1 | 2 => let? x := val_at v 0 in Some (Made x)
  | 3 => let? s := as_str (val_at v 0) in let? a := code_point s in Some (Made (VRange (a, a)))
  | _ => Some (Made (VRange (0, 0)%N))
  end.

(** ** Definition, 5661-5723. *)
Fixpoint binsert (n : bytes) (i : instr) (l : list (bytes * list instr)) : list (bytes * list instr) :=
  match l with
  | [] => [(n, [i])]
  | (m, is) :: l' => if bytes_eqb m n then (m, is ++ [i]) :: l' else (m, is) :: binsert n i l'
  end.
(** Instruction::type. *)
Definition instr_type (i : instr) : bytes :=
  match i with
  | IPrecedence _ => bs "precedence" | IMessage _ => bs "error_message" | INoAstOpt => bs "no_ast_opt"
  | INoWhitespace => bs "no_whitespace" | IAstName _ => bs "ast_name"
  end.
(** The loop 5690-5700: instructions of a type seen before are duplicates. *)
Fixpoint add_instrs (name : bytes) (types : list bytes) (l : list instr) (ins : list (bytes * list instr)) (dups : list bytes)
  : list (bytes * list instr) * list bytes :=
  match l with
  | [] => (ins, dups)
  | i :: l' => if bmem (instr_type i) types then add_instrs name types l' ins (dups ++ [instr_type i])
               else add_instrs name (instr_type i :: types) l' (binsert name i ins) dups
  end.
Definition new_rule (name : bytes) (o : ope) (ig mac : bool) (ps : list bytes) : rule :=
  {| r_name := name; r_body := Some o; r_ignore := ig; r_is_macro := mac; r_params := ps; r_disable_action := false; r_lr := false;
     r_can_be_empty := false; r_macro_ref := true; r_error_message := []; r_no_ast_opt := false; r_no_whitespace := false;
     r_ast_name := [] |}.
(** What a Definition says: ignored, name, parameters if it is a macro, expression,
    instructions. *)
Record defined := { f_ignore : bool; f_name : bytes; f_params : option (list bytes); f_ope : ope; f_instrs : list instr }.
Definition read_definition (v : vals) : option defined :=
  let? ig := as_bool (val_at v 0) in
  let? nm := as_str (val_at v 1) in
  match as_strs (val_at v 2) with
  | Some ps =>
    let? o := as_ope (val_at v 4) in
    let? is := (if List.length v =? 6 then as_instrs (val_at v 5) else Some []) in
    Some {| f_ignore := ig; f_name := nm; f_params := Some ps; f_ope := o; f_instrs := is |}
  | None =>
    let? o := as_ope (val_at v 3) in
    let? is := (if List.length v =? 5 then as_instrs (val_at v 4) else Some []) in
    Some {| f_ignore := ig; f_name := nm; f_params := None; f_ope := o; f_instrs := is |}
  end.
Definition is_some {A} (x : option A) : bool := match x with Some _ => true | None => false end.
Definition add_definition (f : defined) (d : data) : data :=
  let (ins, di) := add_instrs (f_name f) [] (f_instrs f) (d_instrs d) (d_dup_instrs d) in
  if bmem (f_name f) (map r_name (d_rules d))
  then with_defs (d_rules d) (d_start d) (d_dup_defs d ++ [f_name f]) di ins d
  else
    let r := new_rule (f_name f) (f_ope f) (f_ignore f) (is_some (f_params f)) (match f_params f with Some ps => ps | None => [] end) in
    let first := match d_start d with [] => negb (match f_name f with x25 :: _ => true | _ => false end) | _ => false end in
    with_defs (d_rules d ++ [r]) (if first then f_name f else d_start d) (d_dup_defs d) di ins d.

(** ** The effect on the data.  captures_stack.back() exists: it is pushed once at
    construction and popped only after a push. *)
Definition add_capture (nm : bytes) (d : data) : data :=         (* 5861-5866 *)
  with_caps (d_undef d) (match d_caps d with c :: cs => (nm :: c) :: cs | [] => [] end) (nm :: d_current d) (d_packrat d) d.
Definition back_reference (nm : bytes) (d : data) : data :=      (* 6017-6051 *)
  with_caps (if existsb (bmem nm) (d_caps d) then d_undef d else d_undef d ++ [nm]) (d_caps d) (d_current d)
            (d_packrat d && bmem nm (d_current d)) d.
Definition effect_of (s : sym) (input : bytes) (vs : sv mval) (d : data) : data :=
  match s with
  | SDefinition => match read_definition (v_vals vs) with Some f => add_definition f d | None => with_fail Broken d end
  | SPrimary => match v_ch vs, as_view (val_at (v_vals vs) 0) with 4, Some nm => add_capture nm d | _, _ => d end
  | SBackRef => back_reference (token_text input vs) d
  | _ => d
  end.
Definition has_action (s : sym) : bool :=
  match s with
  | SGrammar | SIdentifier | SIdentStart | SIdentRest | SRepetition | SCapScope | SLEFTARROW | SSLASH | SPIPE | SOPEN | SCLOSE | SLABEL
  | SSpacing | SComment | SSpace | SEndOfLine | SEndOfFile | SBeginTok | SEndTok | SBeginCapScope | SEndCapScope | SEndCap | SIGNORE
  | SCOMMA | SInstructionItem | SInstructionItemSeparator | SSpacesZom | SSpacesOom | SBeginBracket | SEndBracket => false
  | _ => true
  end.
Definition run_action (s : sym) (input : bytes) (vs : sv mval) (d : data) (pd : option mval) : option mval * data :=
  match s with
  | SDefinition => (None, effect_of s input vs d)
  | _ =>
    match (match s with SRange => range_value vs | SPosixClass => posix_class (span_text input (v_sv vs)) | _ => value_of s input vs end) with
    | Some (Made v) => (Some v, effect_of s input vs d)
    | Some Throws => (None, with_fail Thrown d)
    | None => (None, with_fail Broken d)
    end
  end.
Definition meta_action (r : rid) : option (bytes -> sv mval -> data -> option mval -> option mval * data) :=
  match nth_error syms r with Some s => if has_action s then Some (run_action s) else None | None => None end.
(** Enter and leave callbacks: 5725-5730, 5993-6004. *)
Definition meta_enter (r : rid) : option (bytes -> nat -> data -> data) :=
  match nth_error syms r with
  | Some SDefinition => Some (fun _ _ d => with_caps (d_undef d) (d_caps d) [] (d_packrat d) d)
  | Some SCapScope => Some (fun _ _ d => with_caps (d_undef d) ([] :: d_caps d) (d_current d) (d_packrat d) d)
  | _ => None
  end.
Definition meta_leave (r : rid) : option (bytes -> nat -> option nat -> option mval -> data -> option mval * data) :=
  match nth_error syms r with
  | Some SCapScope => Some (fun _ _ _ v d => (v, with_caps (d_undef d) (tl (d_caps d)) (d_current d) (d_packrat d) d))
  | _ => None
  end.

(** The parser of grammar texts; [g] is the meta-grammar after SetupFirstSets
    (5413-5421); [log] says whether a log is given. *)
Definition meta_parser (g : grammar) (log : bool) : pobj mval data :=
  {| p_g := g; p_start := sid SGrammar; p_ws := None; p_word := None; p_packrat := false; p_slot := fun _ => None; p_cached := 0;
     p_eoi := true; p_tracer := false; p_verbose := false; p_log := log; p_u0 := data0; p_action := meta_action; p_pred := fun _ => None;
     p_enter := meta_enter; p_leave := meta_leave; p_user := fun _ _ _ vs d => (None, vs, d) |}.

(** ** perform_core, 6177-6285: the text is parsed; then duplicates and undefined back
    references are errors.  [None]: the text is rejected. *)
Inductive read := Refused | Broke | Rules (d : data).
Definition read_text (fuel : nat) (g : grammar) (log : bool) (text : bytes) : outcome read :=
  let* r := def_parse fuel (meta_parser g log) text data0 in
  let d := rs_dt r in
  match d_fail d with
  | Some Thrown => Ok Refused
  | Some Broken => Ok Broke
  | None =>
    if negb (rs_ret r) then Ok Refused
    else match d_dup_defs d, d_dup_instrs d, d_undef d with
         | [], [], [] => Ok (Rules d)
         | _, _, _ => Ok Refused
         end
  end.

(** The rest of perform_core is [load].  [order] is the iteration order of the hash
    map of rules; [start] is the requested start rule.  A start rule that does not exist
    is an error (6270-6283); without one and without any rule not beginning with %, the
    behaviour is undefined (the model gives [None]). *)
Definition load_text (fuel : nat) keq (lrec : bool) (order : grammar -> grammar) (g : grammar) (log : bool) (start text : bytes)
  : outcome (option verdict * bool) :=
  let* r := read_text fuel g log text in
  match r with
  | Refused => Ok (Some Rejected, false)
  | Broke => UB BadIndex
  | Rules d =>
    let src := order (d_rules d) in
    if match start with [] => false | _ => negb (is_some (rule_named src start)) end then Ok (Some Rejected, false)
    else
      let instrs := flat_map (fun p => match rule_named src (fst p) with Some r => map (fun i => (r, i)) (snd p) | None => [] end) (d_instrs d) in
      Ok (load fuel keq lrec instrs (match start with [] => d_start d | _ => start end) src, d_packrat d)
  end.
