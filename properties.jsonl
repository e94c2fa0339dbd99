{"id": "C01", "title": "UTF-8 encode/decode round trip", "statement": "Encoding a Unicode scalar value with encode_codepoint and decoding the bytes again returns the same scalar value and consumes exactly the bytes that were produced, whatever bytes follow; surrogates and values above 0x10FFFF encode to zero bytes.", "quantifier": "every code point (32-bit), every byte suffix following the encoding", "why_tests_cant": "1.1 million code points times arbitrary trailing bytes; tests sample a handful", "anchors": ["peglib.h: encode_codepoint, decode_codepoint, codepoint_length"]}
{"id": "C02", "title": "UTF-8 decoding never reads past the given length and reports a length in 0..4", "statement": "For any bytes and any length l, decode_codepoint and codepoint_length read only bytes below l; a successful decode reports between 1 and 4 bytes and not more than l; a failed decode reports 0.", "quantifier": "every byte string, valid or not, and every length bound", "why_tests_cant": "memory-safety over arbitrary (also malformed) byte strings", "anchors": ["peglib.h: decode_codepoint, codepoint_length"]}
{"id": "C03", "title": "Code point counting of well-formed text", "statement": "codepoint_count of the concatenated encodings of any sequence of scalar values is the length of that sequence, and decode() of it returns the sequence; on malformed text a stray byte counts as one code point and counting terminates.", "quantifier": "every sequence of scalar values; every byte string for termination and the bound count <= bytes", "why_tests_cant": "unbounded sequences", "anchors": ["peglib.h: codepoint_count, decode, codepoint_length"]}
{"id": "C04", "title": "Escape sequences in grammar literals resolve to the denoted character", "statement": "resolve_escape_sequence is the identity on text without backslashes; the escapes \\f \\n \\r \\t \\v \\\\ \\' \\\" \\[ \\] \\^ \\- resolve to their character; a numeric escape \\x, \\u or octal resolves to the denoted code point (\\u as UTF-8) when it is not followed by one more digit of its base (digits are read greedily: \\x41 followed by B is read as \\x41B); resolving what escape_characters printed returns the original string when it has no backslash; resolving always ends.", "quantifier": "every literal text", "why_tests_cant": "unbounded strings, interaction of neighbouring escapes", "anchors": ["peglib.h: resolve_escape_sequence, escape_characters, parse_hex_number, parse_octal_number"]}
{"id": "C05", "title": "Predefined classes and complemented classes partition the code points", "statement": "For every code point up to 0x10FFFF, the complemented range list of a range list accepts it exactly when the list does not; so \\D, \\W, \\S (and a negated class) accept exactly what \\d, \\w, \\s do not.", "quantifier": "every list of ranges, every code point", "why_tests_cant": "unbounded range lists with overlap/adjacency and boundary cases at 0 and 0x10FFFF", "anchors": ["peglib.h: complement_character_ranges, predefined_character_class, CharacterClass::parse_core"]}
{"id": "C06", "title": "Dictionary matches the longest listed word", "statement": "A dictionary 'w1' | 'w2' | ... succeeds exactly when some word is a prefix of the remaining input, and then consumes the longest such word, regardless of the order the words are listed in.", "quantifier": "every word list and every input", "why_tests_cant": "every set of words with arbitrary prefix overlaps", "anchors": ["peglib.h: Trie, Dictionary::parse_core"]}
{"id": "C07", "title": "Dictionary reports which word matched", "statement": "After a dictionary match, choice() is the index of the first word in the list as written that begins with the text matched; so it is the index of the word matched whenever no word is a prefix of an earlier one (and not otherwise: with 'abc' | 'ab' the word ab is reported as 0).", "quantifier": "every word list and every input", "why_tests_cant": "depends on insertion order and prefix relations of unboundedly many words", "anchors": ["peglib.h: Trie, Dictionary::parse_core, SemanticValues::choice"]}
{"id": "C08", "title": "line_info line and column", "statement": "For a position in a source text, the reported line is one plus the number of newlines before it and the column is one plus the number of code points (error reports) resp. bytes (semantic values and AST nodes) since the last newline.", "quantifier": "every text and every position", "why_tests_cant": "unbounded texts and positions", "anchors": ["peglib.h: line_info, Context::line_info"]}
{"id": "C09", "title": "SemanticValues::line_info does not depend on the history of queries", "statement": "The line/column answered for a position is the same whatever positions were queried before it, although the implementation keeps a lazily built index.", "quantifier": "every sequence of queries", "why_tests_cant": "stateful cache; every order of queries", "anchors": ["peglib.h: Context::line_info, Context::source_line_index"]}
{"id": "C10", "title": "Tag comparison identifies rule names", "statement": "The tag of a rule name is a function of the bytes of the name, evaluated identically at compile time and run time; two names of the same length that differ in exactly one byte have distinct tags. (Distinct names can share a tag in general: aB and ba.)", "quantifier": "every pair of names", "why_tests_cant": "hash over unbounded strings", "anchors": ["peglib.h: str2tag_core, str2tag, operator\"\"_"]}
{"id": "C11", "title": "The packrat table behaves like a finite map", "statement": "After any sequence of inserts, erases and growth steps, a lookup returns exactly the value last inserted for that key and not erased since; the probe loop always terminates; the table is never full.", "quantifier": "every operation sequence, every key", "why_tests_cant": "hash table with growth and tombstone-free deletion: every history of collisions", "anchors": ["peglib.h: PackratCache"]}
{"id": "C12", "title": "Matching agrees with PEG semantics", "statement": "For every grammar built from the core PEG operators, parsing succeeds with consumed length n exactly when the textbook PEG semantics derives success with n, and fails exactly when it derives failure.", "quantifier": "every grammar, every input, every start position", "why_tests_cant": "infinite set of grammars and inputs", "anchors": ["peglib.h: Sequence, PrioritizedChoice, Repetition, AndPredicate, NotPredicate, LiteralString, CharacterClass, AnyCharacter, Holder, Reference"]}
{"id": "C13", "title": "A match stays inside the input", "statement": "Whatever the grammar and input, a successful match never extends beyond the end of the input and the parser never reads a byte outside it.", "quantifier": "every grammar and input, including malformed UTF-8 and embedded NUL", "why_tests_cant": "memory safety for all inputs", "anchors": ["peglib.h: *::parse_core, success, fail"]}
{"id": "C14", "title": "Backtracking undoes semantic values and captures", "statement": "When an alternative, a repetition iteration or a predicate is abandoned, the semantic values, tags, tokens, choice data and captures visible afterwards are exactly those before it started.", "quantifier": "every operator, every nesting, every input, every point of failure", "why_tests_cant": "every failure point inside arbitrarily nested operators", "anchors": ["peglib.h: Context::snapshot, Context::rollback, Context::push_semantic_values_scope, PrioritizedChoice, Repetition, AndPredicate, NotPredicate"]}
{"id": "C15", "title": "Predicates consume nothing and leave nothing behind", "statement": "&e and !e never consume input and never change semantic values, tokens, tags or captures, whether they succeed or fail; !e succeeds exactly when e fails and &e exactly when e succeeds.", "quantifier": "every operand and input", "why_tests_cant": "all operands including actions, captures, left recursion", "anchors": ["peglib.h: AndPredicate::parse_core, NotPredicate::parse_core"]}
{"id": "C16", "title": "First-byte filtering never changes a choice", "statement": "Skipping the alternatives whose computed first-byte set excludes the next input byte gives the same result as trying every alternative in order.", "quantifier": "every choice, every grammar, every input", "why_tests_cant": "computed static analysis; grammars and inputs are unbounded", "anchors": ["peglib.h: ComputeFirstSet, SetupFirstSets, PrioritizedChoice::parse_core"]}
{"id": "C17", "title": "The single-character repetition fast path is equivalent to the general loop", "statement": "For a repetition of a character class, wherever the byte-set scan is installed, it consumes exactly what repeated single matches would, provided the bounds are not inverted, a case-insensitive class accepts only characters in one of its ranges up to case, and the text has no overlong encodings (and, if the class contains NUL, is ASCII).", "quantifier": "every class, bounds and input", "why_tests_cant": "every byte class, every input incl. multibyte", "anchors": ["peglib.h: Repetition::parse_core, SetupFirstSets, CharacterClass"]}
{"id": "C18", "title": "Packrat memoization does not change the outcome", "statement": "Enabling packrat parsing gives the same success/failure, consumed length and semantic values as parsing without it.", "quantifier": "every grammar and input", "why_tests_cant": "memo hits depend on the whole parse history", "anchors": ["peglib.h: Context::packrat, Context::write_packrat_cache, Holder::parse_core, packrat filter"]}
{"id": "C19", "title": "Left recursion is left-associative iteration", "statement": "A directly left-recursive rule A <- A a / b matches exactly what b a* matches, growing the seed always terminates, and values nest to the left: the action is applied to the value of the shorter match and the values of the continuation.", "quantifier": "every a, b and every input", "why_tests_cant": "seed growing depth is unbounded", "anchors": ["peglib.h: Holder::parse_core"]}
{"id": "C20", "title": "Parsing terminates when repetition bodies consume and the grammar is well-founded", "statement": "If no repetition body can succeed on the empty string and no rule can reach itself without consuming, every parse terminates.", "quantifier": "every well-formed grammar, every input", "why_tests_cant": "termination is not testable", "anchors": ["peglib.h: Repetition, Holder, DetectInfiniteLoop, DetectLeftRecursion"]}
{"id": "C21", "title": "Cut commits to the current alternative", "statement": "In a grammar without error labels on choices: after a cut has been passed inside an alternative, failure of that alternative makes the whole choice fail without trying later alternatives. In any grammar a cut never affects enclosing choices.", "quantifier": "every choice, nesting and input", "why_tests_cant": "all nestings of choices and cuts", "anchors": ["peglib.h: Cut, PrioritizedChoice, Context::cut_stack"]}
{"id": "C22", "title": "Precedence climbing yields the tree dictated by the table", "statement": "A {precedence ...} rule over an operand rule and an operator rule builds the tree whose operands and operators are those matched one after the other from the start of the expression, groups higher levels tighter and same-level operators by the declared associativity, applies the rule's action at every node, and stops where no operator of the table follows; it fails if an operand is missing at the start or after an operator of the table.", "quantifier": "every operator table and every token sequence", "why_tests_cant": "unbounded expressions", "anchors": ["peglib.h: PrecedenceClimbing::parse_expression", "peglib.h: ParserGenerator apply_precedence_instruction, PrecedenceClimbing action"]}
{"id": "C23", "title": "Back references match the most recent visible capture", "statement": "$name matches exactly the text most recently captured under that name and not undone by backtracking or closed by a capture scope; captures made inside a scope disappear at its end.", "quantifier": "every capture history", "why_tests_cant": "interaction of scopes, backtracking and shadowing", "anchors": ["peglib.h: Capture, CaptureScope, BackReference::parse_core, Context::capture_entries"]}
{"id": "C24", "title": "Token text and automatic whitespace skipping", "statement": "Whitespace is skipped only after literals and token boundaries outside tokens; the token text < e > reports is exactly the substring e matched, with no trailing whitespace.", "quantifier": "every grammar with %whitespace, every input", "why_tests_cant": "all token contents and positions", "anchors": ["peglib.h: TokenBoundary::parse_core, parse_literal, skip_whitespace, Whitespace"]}
{"id": "C25", "title": "%word makes literal keywords whole words", "statement": "With %word defined, a literal that is itself a word matches only when it is not followed by more of a word.", "quantifier": "every literal, word rule and input", "why_tests_cant": "all lookaheads", "anchors": ["peglib.h: parse_literal, LiteralString::parse_core"]}
{"id": "C26", "title": "The keyword-guard fast path equals the sequence it replaces", "statement": "Where a sequence !Keyword < head tail* > is recognised and run by the combined fast path, the result is the one the ordinary evaluation of the sequence gives.", "quantifier": "every keyword set, class and input", "why_tests_cant": "every identifier/keyword prefix relation", "anchors": ["peglib.h: Sequence::parse_keyword_guarded, SetupFirstSets"]}
{"id": "C27", "title": "Repetition bounds are respected and greedy", "statement": "e{min,max}, e*, e+, e? succeed exactly when at least min iterations match and then consume the maximal number of iterations not above max.", "quantifier": "every operand, bounds, input", "why_tests_cant": "unbounded counts", "anchors": ["peglib.h: Repetition::parse_core, zom, oom, opt, rep"]}
{"id": "C28", "title": "parse() returns true only if the whole input was matched", "statement": "parser::parse returns true exactly when the start rule (after leading whitespace) matches a prefix that is the whole input, no error recovery happened, unless the end-of-input check is disabled.", "quantifier": "every grammar and input", "why_tests_cant": "all inputs", "anchors": ["peglib.h: Definition::parse_core, parser::parse_n, parser::post_process"]}
{"id": "C29", "title": "The reported error position is the farthest failure", "statement": "In a parse without error recovery the error position lies inside the input, is at or beyond every position at which a terminal failed (failures inside negative predicates count too), and is attained at one of them; during any parse it never moves backwards except when error recovery resets it.", "quantifier": "every grammar and input", "why_tests_cant": "the whole parse history determines it", "anchors": ["peglib.h: Context::set_error_pos, ErrorInfo, NotPredicate"]}
{"id": "C30", "title": "Error messages show a bounded, in-range token and substitute all placeholders", "statement": "Every report of a parse points into the input and quotes text that stands there, at most 128 bytes (on well-formed text the whole token up to 32 characters); in a custom message all %t and %c are replaced by the token and its first character whenever there is something at that position, the token contains no percent sign and the message no double percent sign.", "quantifier": "every input and message", "why_tests_cant": "unbounded inputs/messages", "anchors": ["peglib.h: ErrorInfo::heuristic_error_token, ErrorInfo::replace_all, ErrorInfo::output_log"]}
{"id": "C31", "title": "A loaded grammar has no dangling references", "statement": "load_grammar rejects every grammar which refers to an undefined rule or calls a macro with the wrong number of arguments; in an accepted grammar every reference that can be evaluated resolves to a rule or macro parameter. (Arguments written after a macro parameter are never evaluated, and are not checked.)", "quantifier": "every grammar", "why_tests_cant": "all grammars", "anchors": ["peglib.h: ReferenceChecker, LinkReferences, ParserGenerator::perform_core"]}
{"id": "C32", "title": "An accepted grammar cannot loop forever in a repetition", "statement": "If load_grammar accepts a grammar, no repetition in it can iterate forever on an operand that succeeds without consuming.", "quantifier": "every accepted grammar and input", "why_tests_cant": "halting property", "anchors": ["peglib.h: DetectInfiniteLoop, HasEmptyElement, ParserGenerator::detect_infiniteLoop"]}
{"id": "C33", "title": "Left-recursive rules are recognised", "statement": "Every rule that can call itself at the same input position is flagged as left-recursive (and so parsed by seed growing) or rejected when left recursion is disabled.", "quantifier": "every grammar", "why_tests_cant": "all call graphs through nullable prefixes", "anchors": ["peglib.h: DetectLeftRecursion, ComputeCanBeEmpty"]}
{"id": "C34", "title": "AST spans nest and follow input order", "statement": "In the AST returned by a parse, the children of every node lie, in order and without overlapping, in the node's span; the root lies in the text consumed; a token node has no children and its token text lies in its span; every node's line and column are those of its position, and its name, tag and kind are those of a rule of the grammar.", "quantifier": "every grammar, input and parser option", "why_tests_cant": "all parses", "anchors": ["peglib.h: add_ast_action, AstBase, SemanticValues::sv"]}
{"id": "C35", "title": "AST optimisation removes exactly the named single-child nodes", "statement": "optimize_ast removes exactly the single-child nodes the options name: the remaining nodes keep their order, names, tokens, lines and choices, the leaves are the same, a remaining node's span is its own or (unless no_ast_opt) that of the topmost node removed above it, nesting of spans is kept, parent links are consistent, the input tree is untouched, no removable node is left and optimizing again changes nothing.", "quantifier": "every AST and option set", "why_tests_cant": "all trees", "anchors": ["peglib.h: AstOptimizer::optimize"]}
{"id": "C36", "title": "A saved grammar blob loads back to the same grammar", "statement": "Serializing a loaded grammar (before its first parse) succeeds unless it has a capture or a custom parser, and loading the bytes yields the same rules, operators, links and settings, hence the same parse results, provided no word of a dictionary is a prefix of an earlier word of it. (Without that proviso words are lost.)", "quantifier": "every serializable grammar", "why_tests_cant": "all grammars", "anchors": ["peglib.h: GrammarBlob, parser::load_blob, parser::save_blob"]}
{"id": "C37", "title": "A malformed or truncated blob is rejected safely", "statement": "Loading arbitrary bytes ends; it never loads a truncated blob. It should either fail cleanly or yield a well-formed grammar and never read outside the buffer; in fact it does read outside the buffer, but only if the bytes contain a length field larger than what follows, crashes on null operators, and may load grammars with dangling references.", "quantifier": "every byte string", "why_tests_cant": "arbitrary untrusted bytes", "anchors": ["peglib.h: GrammarBlob::Reader, parser::load_blob"]}
{"id": "C38", "title": "Tracing and logging do not influence the parse", "statement": "For every grammar whose %whitespace rule does not itself call a macro: attaching tracers, profilers or a log callback never changes whether the input matches, what is consumed or which values are produced; tracers do not change the reports either; every trace enter event is matched by exactly one leave event, properly nested. (With a %whitespace rule that calls a macro the claim is false.)", "quantifier": "every grammar, input, and choice of enabled tracers", "why_tests_cant": "all executions", "anchors": ["peglib.h: Ope::parse, Context::trace_enter, Context::trace_leave, enable_tracing"]}
{"id": "C39", "title": "Parsing is repeatable", "statement": "Every parse of a session gives the result a fresh parser object gives: nothing in one parse (values, captures, caches, error state, rule numbering) leaks into the next, for sessions that always parse from one start rule, and for sessions that use any start rules without packrat parsing. (With packrat parsing and two start rules the claim is false: rule numbers are shared.)", "quantifier": "every grammar, every sequence of parses with any inputs", "why_tests_cant": "every history of earlier parses", "anchors": ["peglib.h: Definition::parse_core, Context::Context, PrecedenceClimbing::parse_expression"]}
{"id": "C40", "title": "Evaluation state is balanced", "statement": "After any sub-parse, successful or not, the value-scope stack, argument stack, capture-scope depth, rule stack and token/whitespace flags are what they were before it.", "quantifier": "every operator, grammar and input", "why_tests_cant": "every exit path of every operator", "anchors": ["peglib.h: Context::push, Context::pop, Context::push_args, Context::push_capture_scope, scope_exit"]}
{"id": "C41", "title": "Macros substitute their arguments", "statement": "A macro call M(a1..an) matches exactly what the macro body with the parameters replaced by the argument expressions matches.", "quantifier": "every macro body, argument list, nesting", "why_tests_cant": "all nestings of macro calls", "anchors": ["peglib.h: FindReference, Reference::parse_core, Context::push_args, Context::top_args"]}
{"id": "C42", "title": "Parent links of a parsed AST", "statement": "In the AST returned by a parse, the parent of every node is the node that lists it among its children, and the root has no parent. (False with packrat parsing, where a node can be shared with a discarded alternative; true without packrat, left recursion and precedence instructions on macros.) Memoization changes nothing but the parent links, and optimize_ast always returns a tree with right links.", "quantifier": "every grammar, input and parser option", "why_tests_cant": "depends on every history of backtracking and cache hits", "anchors": ["peglib.h: add_ast_action, AstBase::parent, Context::packrat"]}
{"id": "C43", "title": "Unreachable rules do not influence a parse", "statement": "Two parsers which agree on the start rule, on %whitespace and %word and on every rule that can be reached from them, with its callbacks, give the same result, reports, error position and value on every input, whatever the other rules are. The rules a parse scans are exactly those that can be reached.", "quantifier": "every pair of grammars that agree on reachable rules, every input", "why_tests_cant": "all grammars and inputs", "anchors": ["peglib.h: AssignIDToDefinition, Definition::initialize_definition_ids, Definition::parse_core"]}
{"id": "C44", "title": "Semantic actions cannot influence matching", "statement": "Whether an input matches, how much is consumed, whether recovery happened and what is reported does not depend on the semantic actions, enter/leave handlers and the values they produce (of any type), as long as predicates and custom parsers do not look at values; in particular the recognizer mode used when no callbacks are set accepts the same inputs.", "quantifier": "every grammar, input and every two sets of actions", "why_tests_cant": "all actions and inputs", "anchors": ["peglib.h: Holder::parse_core, Definition::parse_core (recognize_only), Context::recognize_only"]}
{"id": "C45", "title": "Parsers of accepted grammars return on every text", "statement": "If load_grammar accepts a grammar in which no rule is left-recursive and the repetitions run inside other repetitions consume, then parse() returns on every well-formed UTF-8 text.", "quantifier": "every accepted grammar, every UTF-8 text", "why_tests_cant": "halting on every grammar and text", "anchors": ["peglib.h: ParserGenerator::perform_core, DetectInfiniteLoop, DetectLeftRecursion, Definition::parse_core"]}
{"id": "C46", "title": "choice() and choice_count() name the alternative taken", "statement": "For every grammar, text and option set, each node of the AST returned by parse (and so each call of its rule's action) carries in choice_count the number of alternatives of the choice that forms the body of its rule (inside a token boundary or not) and in choice the zero-based number of the alternative that matched; both are 0 for rules whose body is not a choice. Where whitespace is skipped after the choice (token rules, dictionaries, no_whitespace rules) this holds only if %whitespace makes no choice of its own: otherwise the whitespace's choice is reported instead.", "quantifier": "all grammars, texts, options (packrat, logging, tracing, left recursion, precedence rules) and all nodes of the resulting AST", "why_tests_cant": "the numbers live in a scope that nested choices, backtracking, memo hits and whitespace parsing all write to; tests see a few interleavings", "anchors": ["peglib.h: PrioritizedChoice::parse_core", "peglib.h: Holder::parse_core (is_choice_like)", "peglib.h: TokenBoundary::parse_core", "peglib.h: Context::skip_whitespace", "peglib.h: SemanticValues::choice, choice_count"]}
{"id": "C47", "title": "A literal missing at the farthest position is listed as expected", "statement": "With a log installed, whenever a literal is tried at or beyond the farthest failure so far and the text does not continue with it, the error record moves to that position and lists the literal among the expected tokens, attributed to the outermost token rule being parsed or, if there is none, to the innermost rule; entries of earlier positions are dropped, and entries of the same position are kept while the alternatives of one choice are tried.", "quantifier": "all grammars, texts, positions, rule stacks and error records reached so far", "why_tests_cant": "the record depends on the whole history of failures and on the stack of rules", "anchors": ["peglib.h: Context::set_error_pos", "peglib.h: ErrorInfo::add", "peglib.h: parse_literal"]}
{"id": "C48", "title": "A grammar text becomes rules of the notation", "statement": "Whenever a text is accepted as a grammar, the rules obtained have distinct names, each has a body built only from operators the notation can write, with references by name; parameters occur only on macros; the start rule is the first rule whose name does not begin with %; and if a parser is then obtained from the text, every reference in it is resolved to a rule of that name and arity or to a parameter.", "quantifier": "every grammar text, every iteration order of the rule map, every option", "why_tests_cant": "Ranges over all texts; tests look at a few grammars.", "anchors": ["peglib.h: ParserGenerator::make_grammar, setup_actions, perform_core"]}
{"id": "C49", "title": "Reading a grammar text ends", "statement": "load_grammar's parse of the grammar text ends for every UTF-8 text, whether the text is a grammar or not: the library's own grammar of grammars has no left recursion and no repetition that can loop.", "quantifier": "every UTF-8 text, with and without a log callback", "why_tests_cant": "Termination on all texts cannot be observed by running some.", "anchors": ["peglib.h: ParserGenerator::make_grammar 5461-5657, ctor 5408-5422, perform_core 6196-6218"]}
{"id": "C50", "title": "A grammar text means its definitions", "statement": "A text made of definitions in the documented notation (names, macros with parameters, literals with escapes and the i suffix, dictionaries, classes, repetitions, predicates, tokens, captures, back references, labels, cuts, instructions, comments) is read as exactly those definitions: one rule per definition in the order of the text, with the operator its expression stands for, preceded by the built-in %recover macro; the start rule is the first whose name does not begin with %; instructions are attached to their rule; packrat parsing stays permitted iff every back reference follows a capture of the same name in the same definition. No text has two meanings.", "quantifier": "every text in the notation, of any length and nesting, with and without a log callback", "why_tests_cant": "Ranges over all grammar texts; a test reads a few.", "anchors": ["peglib.h: ParserGenerator::make_grammar 5461-5657, setup_actions 5660-6134, perform_core 6177-6285"]}
{"id": "C51", "title": "Inconsistent grammar texts are refused", "statement": "A text in the notation that defines a rule twice (or %recover), has a back reference to a name not captured earlier in an open scope, or gives a definition two instructions of the same kind, is refused.", "quantifier": "every text in the notation", "why_tests_cant": "Ranges over all grammar texts.", "anchors": ["peglib.h: ParserGenerator::setup_actions 5661-5723, 6017-6051, perform_core 6220-6268"]}
{"id": "C52", "title": "ast_to_s shows the AST", "statement": "ast_to_s prints one line per node, parents before children and siblings in order, indented by two blanks per level, showing the rule, the alternative, the rule merged into it and the token; so two ASTs whose tokens contain no newline print the same text only if they have the same shape, rules, alternatives and token texts.", "quantifier": "every AST (any heap of nodes) and every text it stems from", "why_tests_cant": "tests compare a few printed trees; that the text determines the tree is a statement about all pairs of trees", "anchors": ["peglib.h: ast_to_s, ast_to_s_core"]}
{"id": "C53", "title": "enable_profiling counts every use of a rule once", "statement": "Whatever the parse, the profiler installed by enable_profiling never goes wrong, prints a report exactly when the rule entered first is left, every report shows for each rule entered so far (in the order of first use) how often it has matched and failed so far, and at the end every use that was begun is counted exactly once; without %whitespace the last report is complete.", "quantifier": "every grammar, text, option and parse", "why_tests_cant": "the counters depend on the nesting of all enter and leave calls of arbitrary parses, including failing and backtracking ones", "anchors": ["peglib.h: enable_profiling, Ope::parse, Context::trace_enter, Context::trace_leave"]}
{"id": "C54", "title": "The values of a parse are the bottom-up evaluation of its parse tree", "statement": "For every input there is exactly one parse tree, built only from the alternatives that succeeded: given-up alternatives, predicates, ignored (~) rules and expressions contribute nothing, left-recursive rules lean to the left. The parser succeeds with that tree's length, every action receives the values, tags and tokens of its node's subtrees in the order of the text, the matched text and the alternative taken, and the value handed to the caller is the value of the tree of the start rule, with packrat parsing on or off.", "quantifier": "every grammar of core operators, every input, every set of actions that compute from the match", "why_tests_cant": "the scopes of values are pushed, rolled back, memoised and re-grown along unbounded executions", "anchors": ["peglib.h: SemanticValues, Context::push_semantic_values_scope, PrioritizedChoice::parse_core, Repetition::parse_core, Holder::parse_core, Holder::reduce, Definition::parse_and_get_value"]}
{"id": "C55", "title": "The AST of a parse is its parse tree", "statement": "When every rule builds AST nodes (enable_ast), the AST handed to the caller has exactly one node per node of the parse tree of the text, in the same shape and order: each node carries its rule's name (or AST name), the span, line and column of its match, the alternative taken, and either - for a token rule - the text of its first token and no children, or the nodes of its subtrees. Whitespace, predicates, given-up alternatives and ignored (~) parts leave no node.", "quantifier": "every grammar of core operators (with or without left recursion, %whitespace, %word, packrat), every input", "why_tests_cant": "nodes are built and discarded while the parser backtracks, memoises and regrows; the claim relates every input's AST to a declaratively defined tree", "anchors": ["peglib.h: add_ast_action, AstBase, parser::enable_ast, Holder::reduce, Definition::parse_and_get_value"]}
{"id": "C56", "title": "The trace printed by enable_tracing shows the calls that were made", "statement": "Whatever the parse, printing its trace never goes wrong (the stack of trace numbers is never read when empty), and the lines determine the calls: opening a call at each E line and closing the last open one at each L line gives back every operator or rule tried, where it was tried, and its outcome and length. The E lines carry the numbers 0, 1, 2, ...; each L line carries the number, indentation and operator of the E line it closes, with only deeper lines between them; the number of bars is the number of open calls; a star marks exactly the E lines whose position is before that of the preceding E line.", "quantifier": "every grammar, text, option (verbose or not) and parse", "why_tests_cant": "the layout depends on the nesting of all enter and leave calls of arbitrary parses, including failing, memoised and recovered ones", "anchors": ["peglib.h: enable_tracing", "peglib.h: Context::trace_enter, Context::trace_leave", "peglib.h: TraceOpeName", "peglib.h: Holder::trace_name"]}
{"id": "C57", "title": "A parser made from a grammar text accepts the language the text describes", "statement": "If a text written in the documented notation is accepted by load_grammar, then parse on any UTF-8 input ends, and succeeds exactly when the textbook PEG that the text's definitions describe - rules found by name, white space skipped after literals and tokens but not inside tokens, literal-only rules being tokens - matches the input, consuming the same number of bytes.", "quantifier": "every grammar text of the fragment, every UTF-8 input, every setting of actions, callbacks, packrat parsing and logging", "why_tests_cant": "it relates infinitely many grammar texts, each with infinitely many inputs, to an independent semantics; reading, linking, token wrapping, first-byte tables and matching must all be right together", "anchors": ["peglib.h: ParserGenerator::perform_core", "peglib.h: parser::load_grammar, parser::parse", "peglib.h: SetupFirstSets, LinkReferences, TokenBoundary, Whitespace"]}
{"id": "C58", "title": "A parser object is determined by its last load and what followed", "statement": "A parse gives what a newly constructed parser gives that loads the same grammar text and then receives the same settings and callbacks: earlier grammars, refused loads, earlier parses, and packrat parsing switched on between parses leave nothing behind except the left-recursion setting and the logger. After a refused load_grammar every parse returns false until a grammar is loaded. (A refused load_blob keeps the old grammar but may already have replaced the start rule's name.)", "quantifier": "every sequence of load_grammar, load_blob, enable_left_recursion, set_logger, disable_eoi_check, enable_packrat_parsing, enable_trace, set_verbose_trace, callback assignments, enable_ast and parse calls on one object; every grammar text and input", "why_tests_cant": "the state that survives (rule ids, memo tables' once-flags, settings per rule, flags of the object) depends on the whole history of calls; tests try a few short ones", "anchors": ["peglib.h: parser::load_grammar, load_blob, parse_n, enable_left_recursion, disable_eoi_check, enable_packrat_parsing, enable_trace, set_verbose_trace, enable_ast, set_logger", "peglib.h: Definition::initialize_definition_ids, initialize_packrat_filter"]}
