{
 "claims": [
  {
   "property": "C01",
   "status": "proved",
   "theorems": [
    "C01_encode_decode_roundtrip",
    "C01_encode_is_rfc3629",
    "C01_encode_nonscalar_empty",
    "C01_encode_injective"
   ],
   "note": "encode/decode round trip, RFC 3629 agreement, non-scalars"
  },
  {
   "property": "C02",
   "status": "proved",
   "theorems": [
    "C02_decode_in_bounds"
   ],
   "note": "decode reads only the first l bytes, length 1..4 and <= l"
  },
  {
   "property": "C03",
   "status": "proved",
   "theorems": [
    "C03_count_of_encoded_text",
    "C03_count_total",
    "C03_stray_byte_counts_one"
   ],
   "note": "codepoint_count and decode on well-formed text, totality, stray bytes"
  },
  {
   "property": "C04",
   "status": "proved",
   "theorems": [
    "C04_escapes_denote",
    "C04_escapes_denote_refuted",
    "C04_no_undefined_behaviour_refuted",
    "C04_print_then_resolve",
    "C04_resolving_terminates"
   ],
   "note": "The refutations show why the condition is there: greedy digit runs (\\x41 followed by B) and overflow of a signed int on a long run."
  },
  {
   "property": "C05",
   "status": "proved",
   "theorems": [
    "C05_complement_partitions",
    "C05_complement_in_unicode",
    "C05_predefined_classes",
    "C05_predefined_classes_accept"
   ],
   "note": "complement partitions Unicode for every sorted range list, incl. predefined classes"
  },
  {
   "property": "C06",
   "status": "proved",
   "theorems": [
    "C06_dictionary_longest"
   ],
   "note": "longest listed word, any order, with and without ignore-case"
  },
  {
   "property": "C07",
   "status": "proved",
   "theorems": [
    "C07_first_word_with_that_beginning",
    "C07_dictionary_choice",
    "C07_dictionary_choice_refuted"
   ],
   "note": "Exact characterisation of the index for every list; the naive reading (always the word matched) is refuted by C07_dictionary_choice_refuted."
  },
  {
   "property": "C08",
   "status": "proved",
   "theorems": [
    "C08_line_info",
    "C08_line_info_valid_text",
    "C08_current_line_exists_unique"
   ],
   "note": "line = 1 + newlines, column in code points (free function) or bytes (Context)"
  },
  {
   "property": "C09",
   "status": "proved",
   "theorems": [
    "C09_line_info_history"
   ],
   "note": "any history of queries"
  },
  {
   "property": "C10",
   "status": "proved",
   "theorems": [
    "C10_one_byte_apart",
    "C10_tags_distinct_refuted"
   ],
   "note": "Distinctness of arbitrary names is refuted (aB / ba collide); one-byte differences are told apart for names of any length."
  },
  {
   "property": "C11",
   "status": "proved",
   "theorems": [
    "C11_cache_is_a_map"
   ],
   "note": "refinement of the open addressing table to a finite map over any history"
  },
  {
   "property": "C12",
   "status": "partial",
   "theorems": [
    "C12_dictionary_is_a_choice_partial",
    "C12_matching_is_peg_partial",
    "C12_every_result_is_peg_partial",
    "C12_matching_with_word_partial",
    "C12_every_result_with_word_partial",
    "C12_peg_is_deterministic_partial"
   ],
   "note": "engine result = textbook PEG result, both directions, for core operators incl. dictionaries, macros, direct left recursion (read as iteration), automatic whitespace, token boundaries, predicates, %word (the boundary after a literal is read as !word); grammar without attached first sets/guards/spans (those are C16/C17/C26), no semantic predicates, every rule used in one whitespace mode"
  },
  {
   "property": "C13",
   "status": "proved",
   "theorems": [
    "C13_match_stays_inside_the_input",
    "C13_every_expression"
   ],
   "note": "every grammar, operator, option set, input; assumption: a user-supplied parser (usr) stays in the text it is given, packrat slots numbered below their count"
  },
  {
   "property": "C14",
   "status": "proved",
   "theorems": [
    "C14_choice_backtracks",
    "C14_repetition_backtracks"
   ],
   "note": "choice and repetition, values/tags/tokens/choice data/captures; hypotheses: no precedence-climbing operator inside macros (peglib itself breaks there), custom parsers only append values"
  },
  {
   "property": "C15",
   "status": "proved",
   "theorems": [
    "C15_and_predicate",
    "C15_not_predicate"
   ],
   "note": "both predicates, same hypotheses as C14"
  },
  {
   "property": "C16",
   "status": "partial",
   "theorems": [
    "C16_first_sets_do_not_change_the_outcome_partial",
    "C16_empty_recursion_refuted",
    "C16_empty_token_refuted"
   ],
   "note": "whole-parser equivalence for core operators, no empty recursion, no empty-token beginnings under %whitespace, regular case ranges, no %word; refuted outside these conditions"
  },
  {
   "property": "C17",
   "status": "proved",
   "theorems": [
    "C17_scan_is_the_loop",
    "C17_overlong_refuted",
    "C17_ignore_case_range_refuted",
    "C17_inverted_bounds_refuted"
   ],
   "note": "Each proviso has a counterexample in the model: overlong text, [A-z]i, {3,2}."
  },
  {
   "property": "C18",
   "status": "partial",
   "theorems": [
    "C18_packrat_slots_are_distinct_partial",
    "C18_packrat_does_not_change_the_outcome_partial",
    "C18_well_founded_grammars_partial",
    "C18_two_modes_refuted",
    "C18_enable_packrat_parsing_partial"
   ],
   "note": "success, length and values agree with and without packrat for every core grammar (with or without %word) with pure actions in which each rule is used in one whitespace mode, on every input whose meaning is defined (in particular well-founded grammars); refuted when a rule is used both inside and outside a token; also for the memo slots the library itself assigns, over any session of parses from one start rule (C18_enable_packrat_parsing_partial)"
  },
  {
   "property": "C19",
   "status": "partial",
   "theorems": [
    "C19_left_recursion_is_iteration_partial",
    "C19_growth_terminates_partial",
    "C19_textbook_reading_partial",
    "C19_trees_nest_to_the_left_partial",
    "C19_values_nest_to_the_left_partial"
   ],
   "note": "same success and length as b a* for every core grammar (with or without %word); growth terminates; trees and values nest to the left; indirect left recursion and recursion not first in its alternative are not covered"
  },
  {
   "property": "C20",
   "status": "partial",
   "theorems": [
    "C20_parsing_terminates_partial",
    "C20_parsing_with_word_terminates_partial",
    "C20_malformed_text_refuted"
   ],
   "note": "termination proved for well-founded core grammars (direct left recursion and %word allowed) on well-formed UTF-8; refuted on malformed text ([^a]* loops on byte 0x80)"
  },
  {
   "property": "C21",
   "status": "proved",
   "theorems": [
    "C21_cut_commits",
    "C21_cut_is_local"
   ],
   "note": "Error labels (e^label) share the cut frame of the enclosing choice, a defect; hence the proviso of the first part."
  },
  {
   "property": "C22",
   "status": "partial",
   "theorems": [
    "C22_expression_grouped_by_table_partial",
    "C22_grouping_unique_partial",
    "C22_level_is_line_partial",
    "C22_instruction_accepted_partial",
    "C22_instruction_only_partial",
    "C22_dangling_operator_refuted",
    "C22_memoised_operator_refuted",
    "C22_ignored_operator_refuted"
   ],
   "note": "Proved for a precedence rule used as start rule of a parser whose other rules are in the core fragment (GrammarCond.v), operators not memoised and not ignored: the tree is placed, grouped by the table (uniquely), evaluated bottom-up, and followed by no operator of the table; failure is characterised. Missing: precedence rules used below other rules (only the refinement to the reference semantics covers them), %word, captures. Refuted: with packrat parsing a memoised operator is not recognised; an ignored operator rule reads an empty vector."
  },
  {
   "property": "C23",
   "status": "proved",
   "theorems": [
    "C23_capture",
    "C23_capture_scope",
    "C23_back_reference",
    "C23_most_recent"
   ],
   "note": "captures, capture scopes, back references, most recent entry"
  },
  {
   "property": "C24",
   "status": "proved",
   "theorems": [
    "C24_token"
   ],
   "note": "token text and skipping position for every operand"
  },
  {
   "property": "C25",
   "status": "proved",
   "theorems": [
    "C25_literal",
    "C25_word_exclusive",
    "C25_dictionary"
   ],
   "note": "literals and dictionaries with %word"
  },
  {
   "property": "C26",
   "status": "partial",
   "theorems": [
    "C26_keyword_guard_does_not_change_the_outcome_partial",
    "C26_keyword_prefix_refuted"
   ],
   "note": "whole-parser equivalence when no keyword is a proper prefix of an identifier of the text, tail*, no %word; refuted for iffy"
  },
  {
   "property": "C27",
   "status": "proved",
   "theorems": [
    "C27_repetition"
   ],
   "note": "general loop, all bounds; the byte-set fast path is C17"
  },
  {
   "property": "C28",
   "status": "proved",
   "theorems": [
    "C28_whole_input"
   ],
   "note": "operational characterisation of true"
  },
  {
   "property": "C29",
   "status": "proved",
   "theorems": [
    "C29_farthest_failure",
    "C29_never_moves_back",
    "C29_untraced_farthest_failure"
   ],
   "note": "For traced parses directly, for untraced ones through the traced run of the same parse (C38). With error recovery the position is reset, hence the proviso."
  },
  {
   "property": "C30",
   "status": "proved",
   "theorems": [
    "C30_reports_point_into_the_text",
    "C30_token_is_whole_up_to_32_characters",
    "C30_placeholders_are_replaced",
    "C30_end_of_text_refuted",
    "C30_percent_in_text_refuted",
    "C30_escaped_character_refuted"
   ],
   "note": "The provisos are needed: at the end of the text nothing is replaced, a percent sign in the text is taken for a placeholder, %c of an escaped character is the backslash (three refutations)."
  },
  {
   "property": "C31",
   "status": "proved",
   "theorems": [
    "C31_references_resolve",
    "C31_dangling_rejected",
    "C31_parameter_arguments_refuted"
   ],
   "note": "Grammars as parsed from text (the parse of the text is C48); what stands in parentheses after a macro parameter is never evaluated and not checked (C31_parameter_arguments_refuted)"
  },
  {
   "property": "C32",
   "status": "partial",
   "theorems": [
    "C32_repetitions_consume_partial",
    "C32_nested_loop_refuted",
    "C32_self_loop_refuted"
   ],
   "note": "Proved (static check against the textbook PEG): in an accepted grammar of ordinary operators (no macro calls - a macro may be defined, as the built-in %recover always is - back references, custom parsers, precedence, recovery, cut) every unbounded repetition reached from the start rule, %whitespace or %word and not itself run inside another unbounded repetition has an operand that cannot match the empty text. Missing, because false of the code: repetitions inside the operand of another one (C32_nested_loop_refuted: (''* 'a')* is accepted and never returns) and rules run inside a repetition of which they are part (C32_self_loop_refuted). C45 combines this with termination of whole parses."
  },
  {
   "property": "C33",
   "status": "partial",
   "theorems": [
    "C33_left_recursion_is_recognised_partial",
    "C33_static_left_recursion_is_recognised_partial",
    "C33_undetected_refuted"
   ],
   "note": "Proved for grammars of ordinary operators whose choices are regular (if an alternative may be empty, so may the last one) and where what is repeated at least once consumes: any rule that can call itself before consuming, in the textbook sense or by inspection of the operators, is marked left-recursive, and left recursion is enabled. Missing, because false of the code: irregular choices and counted repetitions of possibly empty operands (C33_undetected_refuted); macros."
  },
  {
   "property": "C34",
   "status": "proved",
   "theorems": [
    "C34_ast"
   ],
   "note": "AST actions on every rule (enable_ast with no user actions); values that are not nodes (the code throws bad_any_cast, so returns no AST) are left out by the model."
  },
  {
   "property": "C35",
   "status": "proved",
   "theorems": [
    "C35_optimize",
    "C35_kept_are_not_removable",
    "C35_idempotent"
   ],
   "note": "AstOptimizer::optimize on a heap of shared nodes with parent links, every tree and option set. Memory is never freed in the model, so weak parent links do not expire."
  },
  {
   "property": "C36",
   "status": "proved",
   "theorems": [
    "C36_round_trip",
    "C36_serializable",
    "C36_dictionary_refuted"
   ],
   "note": "All grammars as load_grammar leaves them, i.e. with resolved references, first sets computed (the same hash order for both loads), sizes below 2^32. The Grammar hash map is represented by its definitions in name order. C36_dictionary_refuted shows the proviso on dictionaries is needed."
  },
  {
   "property": "C37",
   "status": "proved",
   "theorems": [
    "C37_read",
    "C37_truncated",
    "C37_out_of_bounds_refuted",
    "C37_null_refuted",
    "C37_well_formed_refuted"
   ],
   "note": "As restated: termination and the exact cause of out-of-bounds reads for all byte strings, truncation for all grammars; the stronger wish is refuted by three concrete blobs. Stack overflow by deep nesting and memory exhaustion are not modelled."
  },
  {
   "property": "C38",
   "status": "proved",
   "theorems": [
    "C38_trace_is_nested",
    "C38_tracing_changes_nothing",
    "C38_logging_changes_nothing",
    "C38_marks_hold",
    "C38_tracing_refuted"
   ],
   "note": "every trace setting gives the same view, logging the same match; nesting proved for every parse; refuted when %whitespace calls a macro (rule_stack.back() on an empty stack)"
  },
  {
   "property": "C39",
   "status": "proved",
   "theorems": [
    "C39_same_start_rule",
    "C39_any_start_rule",
    "C39_packrat_two_start_rules_refuted",
    "C39_marks_do_not_matter"
   ],
   "note": "one start rule: always; any start rules: without packrat parsing; refuted with packrat and two start rules; for core grammars with packrat as well, the marks left by earlier parses never change the outcome (C39_marks_do_not_matter)"
  },
  {
   "property": "C40",
   "status": "proved",
   "theorems": [
    "C40_state_is_balanced"
   ],
   "note": "every operator"
  },
  {
   "property": "C41",
   "status": "partial",
   "theorems": [
    "C41_macro_call_is_its_body_partial",
    "C41_nested_call_in_argument_refuted"
   ],
   "note": "inlining any macro calls keeps success and length, for grammars in which a macro call inside an argument does not mention enclosing parameters; refuted without that condition (parse never returns)"
  },
  {
   "property": "C42",
   "status": "proved",
   "theorems": [
    "C42_parent_links_refuted",
    "C42_same_tree",
    "C42_parent_links",
    "C42_after_optimize"
   ],
   "note": "Refuted with packrat parsing (C42_parent_links_refuted): nodes from the memo table are shared with discarded alternatives. Proved: without packrat parsing and left-recursive rules the links are right, nodes are fresh and not shared (C42_parent_links); with memoization the shared nodes still form the tree of C34 (C42_same_tree, grammars without recovery operators), and after optimize_ast the links are right in every case (C42_after_optimize)."
  },
  {
   "property": "C43",
   "status": "proved",
   "theorems": [
    "C43_unreachable_rules_are_irrelevant",
    "C43_scan_is_reachability"
   ],
   "note": "rules named only in messages (labels, first rules) are assumed reachable"
  },
  {
   "property": "C44",
   "status": "proved",
   "theorems": [
    "C44_actions_do_not_influence_matching"
   ],
   "note": "incl. recognizer mode against the ordinary mode; a {precedence} rule must have an action in both or in neither"
  },
  {
   "property": "C45",
   "status": "partial",
   "theorems": [
    "C45_marked_tables_terminate_partial",
    "C45_accepted_grammars_terminate_partial",
    "C45_tables_terminate_partial"
   ],
   "note": "Termination on every UTF-8 text, without and (under C16's conditions) with first-byte tables, for accepted grammars of ordinary operators without precedence instructions whose left recursion, if any, is direct (A <- A a1 / ... / b1 / ..., with ai that consume and no other way round before consuming), with regular alternatives, in which the repetitions that can be run inside another one consume (not checked by load_grammar: C32). Missing: rules that call macros, indirect left recursion and the other operators outside the core fragment. The same for the parser the library really runs: with the tables and with the has_macro_ref marks a session leaves in the rules (C45_marked_tables_terminate_partial)."
  },
  {
   "property": "C46",
   "status": "proved",
   "theorems": [
    "C46_choice",
    "C46_taken",
    "C46_token_choice_refuted"
   ],
   "note": "Stated for the AST nodes of any parse with AST actions, with the exact condition under which whitespace may interfere; the interference itself is proved as C46_token_choice_refuted."
  },
  {
   "property": "C47",
   "status": "proved",
   "theorems": [
    "C47_expected_literal"
   ],
   "note": "Per literal attempt at any reachable or unreachable engine state; case-sensitive literals, untraced runs (C38 transfers tracing)."
  },
  {
   "property": "C48",
   "status": "proved",
   "theorems": [
    "C48_text_gives_rules",
    "C48_loaded_text_resolved"
   ],
   "note": "All texts, all annotations SetupFirstSets can compute for the meta-grammar. Rules given as operators by the caller are not modelled."
  },
  {
   "property": "C49",
   "status": "proved",
   "theorems": [
    "C49_reading_ends"
   ],
   "note": "UTF-8 texts; the parse of the text. The checks after it are total functions of the model with fuel (C45 covers the parsers obtained)."
  },
  {
   "property": "C50",
   "status": "proved",
   "theorems": [
    "C50_text_means_its_definitions",
    "C50_one_meaning",
    "C50_other_texts_refuted"
   ],
   "note": "For texts that follow NotationSpec.v. Texts outside the specification (numbers that overflow size_t, escapes the greedy resolution reads differently, ranges written backwards) are not covered (C50_other_texts_refuted shows four on which reader and documentation differ); whether every accepted text follows the specification is not proved."
  },
  {
   "property": "C51",
   "status": "proved",
   "theorems": [
    "C51_inconsistent_text_refused"
   ],
   "note": "For texts that follow NotationSpec.v."
  },
  {
   "property": "C52",
   "status": "proved",
   "theorems": [
    "C52_one_line_per_node",
    "C52_text_determines_ast",
    "C52_newline_refuted"
   ],
   "note": "for trees of any size; refuted for tokens containing a newline (C52_newline_refuted); the optional callback is modelled but the theorems are about printing without it"
  },
  {
   "property": "C53",
   "status": "proved",
   "theorems": [
    "C53_reports_count_uses",
    "C53_uses_are_balanced",
    "C53_last_report_is_complete"
   ],
   "note": "the numbers of every report; the clock, percentages and layout are not modelled"
  },
  {
   "property": "C54",
   "status": "partial",
   "theorems": [
    "C54_values_are_evaluated_trees_partial",
    "C54_exactly_one_tree_partial",
    "C54_trees_are_unambiguous_partial",
    "C54_value_of_the_parse_partial",
    "C54_first_sets_partial",
    "C54_accepted_grammars_partial"
   ],
   "note": "core operators (no cut, back-reference, precedence, recovery or custom parser), actions independent of the user data, no predicates; recognise-only parsers have no values; the whitespace-mode condition of core_parser is needed with packrat (C18)"
  },
  {
   "property": "C55",
   "status": "partial",
   "theorems": [
    "C55_ast_is_the_parse_tree_partial",
    "C55_asts_of_the_parse_partial"
   ],
   "note": "core operators (no cut, back-reference, precedence, recovery or custom parser); every rule has the AST action and no other callbacks or predicates; AST before optimisation (optimize_ast is C35)"
  },
  {
   "property": "C56",
   "status": "proved",
   "theorems": [
    "C56_trace_can_be_read_back",
    "C56_lines_show_the_nesting",
    "C56_star_marks_backtracking"
   ],
   "note": "any grammar and any parse; the choice, token and match shown at the end of a leave line are not modelled (parameter)"
  },
  {
   "property": "C57",
   "status": "partial",
   "theorems": [
    "C57_grammar_text_as_parsed_partial",
    "C57_grammar_text_language_partial"
   ],
   "note": "From text to language: a text in the documented notation with consistent definitions from which load_grammar makes a parser; for every UTF-8 input the textbook PEG written directly from the definitions (TextPeg.v) has exactly one result, every parse ends and gives it, and consumes as much. Missing: texts whose rules call macros, back references, recovery, cut, case-insensitive classes, precedence and %word; directly left-recursive rules are read as iterations, indirect left recursion is missing; the conditions of C16 and C45 on first-byte sets and repetitions apply. The same for the parser with the has_macro_ref marks a session leaves (C57_grammar_text_as_parsed_partial)."
  },
  {
   "property": "C58",
   "status": "proved",
   "theorems": [
    "C58_history",
    "C58_parse_leaves_nothing",
    "C58_load_starts_afresh",
    "C58_refused_load",
    "C58_refused_blob_refuted"
   ],
   "note": "The class parser as a state machine over histories of its methods (ObjM.v), on top of the modelled reader, loader, blob reader and engine. C58_history: the reply of any parse is that of a fresh parser described by the verdict of the last load_grammar and the calls since (ObjSpec.v); C58_parse_leaves_nothing: a parse can be left out of any history with loads and blobs; C58_load_starts_afresh; C58_refused_load. C58_refused_blob_refuted: load_blob refusing a truncated blob keeps the old grammar with a new start name, and the next parse dereferences null. Not modelled: parses and settings through parser[\"X\"] (C39 has parses from several rules), rules given as combinators, what load_grammar itself logs."
  }
 ]
}