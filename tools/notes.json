{
 "C01": [
  "proved",
  "encode/decode round trip, RFC 3629 agreement, non-scalars"
 ],
 "C02": [
  "proved",
  "decode reads only the first l bytes, length 1..4 and <= l"
 ],
 "C03": [
  "proved",
  "codepoint_count and decode on well-formed text, totality, stray bytes"
 ],
 "C04": [
  "proved",
  "The refutations show why the condition is there: greedy digit runs (\\x41 followed by B) and overflow of a signed int on a long run."
 ],
 "C05": [
  "proved",
  "complement partitions Unicode for every sorted range list, incl. predefined classes"
 ],
 "C06": [
  "proved",
  "longest listed word, any order, with and without ignore-case"
 ],
 "C07": [
  "proved",
  "Exact characterisation of the index for every list; the naive reading (always the word matched) is refuted by C07_dictionary_choice_refuted."
 ],
 "C08": [
  "proved",
  "line = 1 + newlines, column in code points (free function) or bytes (Context)"
 ],
 "C09": [
  "proved",
  "any history of queries"
 ],
 "C10": [
  "proved",
  "Distinctness of arbitrary names is refuted (aB / ba collide); one-byte differences are told apart for names of any length."
 ],
 "C11": [
  "proved",
  "refinement of the open addressing table to a finite map over any history"
 ],
 "C13": [
  "proved",
  "every grammar, operator, option set, input; assumption: a user-supplied parser (usr) stays in the text it is given, packrat slots numbered below their count"
 ],
 "C14": [
  "proved",
  "choice and repetition, values/tags/tokens/choice data/captures; hypotheses: no precedence-climbing operator inside macros (peglib itself breaks there), custom parsers only append values"
 ],
 "C15": [
  "proved",
  "both predicates, same hypotheses as C14"
 ],
 "C21": [
  "proved",
  "Error labels (e^label) share the cut frame of the enclosing choice, a defect; hence the proviso of the first part."
 ],
 "C23": [
  "proved",
  "captures, capture scopes, back references, most recent entry"
 ],
 "C24": [
  "proved",
  "token text and skipping position for every operand"
 ],
 "C25": [
  "proved",
  "literals and dictionaries with %word"
 ],
 "C27": [
  "proved",
  "general loop, all bounds; the byte-set fast path is C17"
 ],
 "C28": [
  "proved",
  "operational characterisation of true"
 ],
 "C29": [
  "proved",
  "For traced parses directly, for untraced ones through the traced run of the same parse (C38). With error recovery the position is reset, hence the proviso."
 ],
 "C38": [
  "proved",
  "every trace setting gives the same view, logging the same match; nesting proved for every parse; refuted when %whitespace calls a macro (rule_stack.back() on an empty stack)"
 ],
 "C40": [
  "proved",
  "every operator"
 ],
 "C12": [
  "partial",
  "engine result = textbook PEG result, both directions, for core operators incl. dictionaries, macros, direct left recursion (read as iteration), automatic whitespace, token boundaries, predicates, %word (the boundary after a literal is read as !word); grammar without attached first sets/guards/spans (those are C16/C17/C26), no semantic predicates, every rule used in one whitespace mode"
 ],
 "C20": [
  "partial",
  "termination proved for well-founded core grammars (direct left recursion and %word allowed) on well-formed UTF-8; refuted on malformed text ([^a]* loops on byte 0x80)"
 ],
 "C18": [
  "partial",
  "success, length and values agree with and without packrat for every core grammar (with or without %word) with pure actions in which each rule is used in one whitespace mode, on every input whose meaning is defined (in particular well-founded grammars); refuted when a rule is used both inside and outside a token; also for the memo slots the library itself assigns, over any session of parses from one start rule (C18_enable_packrat_parsing_partial)"
 ],
 "C19": [
  "partial",
  "same success and length as b a* for every core grammar (with or without %word); growth terminates; trees and values nest to the left; indirect left recursion and recursion not first in its alternative are not covered"
 ],
 "C41": [
  "partial",
  "inlining any macro calls keeps success and length, for grammars in which a macro call inside an argument does not mention enclosing parameters; refuted without that condition (parse never returns)"
 ],
 "C16": [
  "partial",
  "whole-parser equivalence for core operators, no empty recursion, no empty-token beginnings under %whitespace, regular case ranges, no %word; refuted outside these conditions"
 ],
 "C17": [
  "proved",
  "Each proviso has a counterexample in the model: overlong text, [A-z]i, {3,2}."
 ],
 "C26": [
  "partial",
  "whole-parser equivalence when no keyword is a proper prefix of an identifier of the text, tail*, no %word; refuted for iffy"
 ],
 "C30": [
  "proved",
  "The provisos are needed: at the end of the text nothing is replaced, a percent sign in the text is taken for a placeholder, %c of an escaped character is the backslash (three refutations)."
 ],
 "C35": [
  "proved",
  "AstOptimizer::optimize on a heap of shared nodes with parent links, every tree and option set. Memory is never freed in the model, so weak parent links do not expire."
 ],
 "C34": [
  "proved",
  "AST actions on every rule (enable_ast with no user actions); values that are not nodes (the code throws bad_any_cast, so returns no AST) are left out by the model."
 ],
 "C42": [
  "proved",
  "Refuted with packrat parsing (C42_parent_links_refuted): nodes from the memo table are shared with discarded alternatives. Proved: without packrat parsing and left-recursive rules the links are right, nodes are fresh and not shared (C42_parent_links); with memoization the shared nodes still form the tree of C34 (C42_same_tree, grammars without recovery operators), and after optimize_ast the links are right in every case (C42_after_optimize)."
 ],
 "C36": [
  "proved",
  "All grammars as load_grammar leaves them, i.e. with resolved references, first sets computed (the same hash order for both loads), sizes below 2^32. The Grammar hash map is represented by its definitions in name order. C36_dictionary_refuted shows the proviso on dictionaries is needed."
 ],
 "C37": [
  "proved",
  "As restated: termination and the exact cause of out-of-bounds reads for all byte strings, truncation for all grammars; the stronger wish is refuted by three concrete blobs. Stack overflow by deep nesting and memory exhaustion are not modelled."
 ],
 "C39": [
  "proved",
  "one start rule: always; any start rules: without packrat parsing; refuted with packrat and two start rules; for core grammars with packrat as well, the marks left by earlier parses never change the outcome (C39_marks_do_not_matter)"
 ],
 "C43": [
  "proved",
  "rules named only in messages (labels, first rules) are assumed reachable"
 ],
 "C44": [
  "proved",
  "incl. recognizer mode against the ordinary mode; a {precedence} rule must have an action in both or in neither"
 ],
 "C22": [
  "partial",
  "Proved for a precedence rule used as start rule of a parser whose other rules are in the core fragment (GrammarCond.v), operators not memoised and not ignored: the tree is placed, grouped by the table (uniquely), evaluated bottom-up, and followed by no operator of the table; failure is characterised. Missing: precedence rules used below other rules (only the refinement to the reference semantics covers them), %word, captures. Refuted: with packrat parsing a memoised operator is not recognised; an ignored operator rule reads an empty vector."
 ],
 "C31": [
  "proved",
  "Grammars as parsed from text (the parse of the text is C48); what stands in parentheses after a macro parameter is never evaluated and not checked (C31_parameter_arguments_refuted)"
 ],
 "C32": [
  "partial",
  "Proved (static check against the textbook PEG): in an accepted grammar of ordinary operators (no macro calls - a macro may be defined, as the built-in %recover always is - back references, custom parsers, precedence, recovery, cut) every unbounded repetition reached from the start rule, %whitespace or %word and not itself run inside another unbounded repetition has an operand that cannot match the empty text. Missing, because false of the code: repetitions inside the operand of another one (C32_nested_loop_refuted: (''* 'a')* is accepted and never returns) and rules run inside a repetition of which they are part (C32_self_loop_refuted). C45 combines this with termination of whole parses."
 ],
 "C33": [
  "partial",
  "Proved for grammars of ordinary operators whose choices are regular (if an alternative may be empty, so may the last one) and where what is repeated at least once consumes: any rule that can call itself before consuming, in the textbook sense or by inspection of the operators, is marked left-recursive, and left recursion is enabled. Missing, because false of the code: irregular choices and counted repetitions of possibly empty operands (C33_undetected_refuted); macros."
 ],
 "C45": [
  "partial",
  "Termination on every UTF-8 text, without and (under C16's conditions) with first-byte tables, for accepted grammars of ordinary operators without precedence instructions whose left recursion, if any, is direct (A <- A a1 / ... / b1 / ..., with ai that consume and no other way round before consuming), with regular alternatives, in which the repetitions that can be run inside another one consume (not checked by load_grammar: C32). Missing: rules that call macros, indirect left recursion and the other operators outside the core fragment. The same for the parser the library really runs: with the tables and with the has_macro_ref marks a session leaves in the rules (C45_marked_tables_terminate_partial)."
 ],
 "C46": [
  "proved",
  "Stated for the AST nodes of any parse with AST actions, with the exact condition under which whitespace may interfere; the interference itself is proved as C46_token_choice_refuted."
 ],
 "C47": [
  "proved",
  "Per literal attempt at any reachable or unreachable engine state; case-sensitive literals, untraced runs (C38 transfers tracing)."
 ],
 "C48": [
  "proved",
  "All texts, all annotations SetupFirstSets can compute for the meta-grammar. Rules given as operators by the caller are not modelled."
 ],
 "C49": [
  "proved",
  "UTF-8 texts; the parse of the text. The checks after it are total functions of the model with fuel (C45 covers the parsers obtained)."
 ],
 "C50": [
  "proved",
  "For texts that follow NotationSpec.v. Texts outside the specification (numbers that overflow size_t, escapes the greedy resolution reads differently, ranges written backwards) are not covered (C50_other_texts_refuted shows four on which reader and documentation differ); whether every accepted text follows the specification is not proved."
 ],
 "C51": [
  "proved",
  "For texts that follow NotationSpec.v."
 ],
 "C52": [
  "proved",
  "for trees of any size; refuted for tokens containing a newline (C52_newline_refuted); the optional callback is modelled but the theorems are about printing without it"
 ],
 "C53": [
  "proved",
  "the numbers of every report; the clock, percentages and layout are not modelled"
 ],
 "C54": [
  "partial",
  "core operators (no cut, back-reference, precedence, recovery or custom parser), actions independent of the user data, no predicates; recognise-only parsers have no values; the whitespace-mode condition of core_parser is needed with packrat (C18)"
 ],
 "C55": [
  "partial",
  "core operators (no cut, back-reference, precedence, recovery or custom parser); every rule has the AST action and no other callbacks or predicates; AST before optimisation (optimize_ast is C35)"
 ],
 "C56": [
  "proved",
  "any grammar and any parse; the choice, token and match shown at the end of a leave line are not modelled (parameter)"
 ],
 "C57": [
  "partial",
  "From text to language: a text in the documented notation with consistent definitions from which load_grammar makes a parser; for every UTF-8 input the textbook PEG written directly from the definitions (TextPeg.v) has exactly one result, every parse ends and gives it, and consumes as much. Missing: texts whose rules call macros, back references, recovery, cut, case-insensitive classes, precedence and %word; directly left-recursive rules are read as iterations, indirect left recursion is missing; the conditions of C16 and C45 on first-byte sets and repetitions apply. The same for the parser with the has_macro_ref marks a session leaves (C57_grammar_text_as_parsed_partial)."
 ],
 "C58": [
  "proved",
  "The class parser as a state machine over histories of its methods (ObjM.v), on top of the modelled reader, loader, blob reader and engine. C58_history: the reply of any parse is that of a fresh parser described by the verdict of the last load_grammar and the calls since (ObjSpec.v); C58_parse_leaves_nothing: a parse can be left out of any history with loads and blobs; C58_load_starts_afresh; C58_refused_load. C58_refused_blob_refuted: load_blob refusing a truncated blob keeps the old grammar with a new start name, and the next parse dereferences null. Not modelled: parses and settings through parser[\"X\"] (C39 has parses from several rules), rules given as combinators, what load_grammar itself logs."
 ]
}