# Formal model of cpp-peglib in Rocq/Coq

Source modelled: `/repo/peglib.h` (single header, 7219 lines) at the pinned commit.
Properties: `properties.jsonl` (C01, C02, ...). Status and theorem names: `MANIFEST.json`.

## Trusted base

* The kernel of Coq 8.16.1.
* `Print Assumptions` follows every property theorem in the `Prop*.v` files. The answer is
  "Closed under the global context" for each of them. No axiom is declared in the
  development; there is no functor, module type, `Admitted`, or disabled check.
* The checker reports the axiom-like fields of the module type `Coq.ssr.ssrunder.Under_rel`
  (`Under_rel`, `Under_relE`, `Over_rel`, `over_rel`, `over_rel_done`, `under_rel_done`,
  `Under_rel_from_rel`) because the standard library's ssreflect support file is loaded
  by `Coq.micromega`/`ZifyN`; they are sealed definitions of the standard library and no
  theorem here uses them.
* The correspondence between the C++ text and the definitions of the model, which is by
  reading: every definition cites the lines it models and says where it simplifies.
* Semantics given to C++: `char` buffers are byte lists; a read outside the buffer, a null
  dereference, `std::bad_any_cast` and so on are explicit failure outcomes (never a
  normal-looking value); `size_t` counters are unbounded `nat` except where overflow
  matters (`str2tag`, blob sizes, `token_to_number_`, class bounds).

## What is modelled (file, lines of peglib.h)

| Coq file | code |
|---|---|
| Utf8.v | 91-218 UTF-8 |
| Escape.v | 228-444 escapes, predefined classes, complement, to_lower |
| TrieM.v | 449-518 Trie (incl. the id bug) |
| LineInfo.v | 530-572 line_info, str2tag; 1399-1429 cached line index |
| Ctx.v, ErrLog.v | 575-676 SemanticValues, 815-880 and 3510-3598 ErrorInfo, 1002-1437 Context, 3755-3790 placeholders |
| PackratCacheM.v, PackratFilter.v | 905-1000 open-addressing table, 4753-4917 which rules are memoised |
| Ope.v, Engine.v | 1440-2213, 3446-3503, 3600-4313: every `parse_core`, incl. cut, captures, recovery, macros, left recursion, packrat, precedence climbing, tracing |
| FirstSetM.v, FirstSetup.v | 1556-1572, 1905-1921, 2948-3064, 4583-4748: first sets, byte-set spans, keyword guards |
| Top.v, SessionM.v | 3106-3440 Definition::parse_core, ids, once flags; repeated parses; 6790-7058 parser::parse_n |
| ObjM.v | 6790-7058 class parser: histories of its methods on one object |
| LoadM.v, PrecM.v | 2526-2900, 4393-4581, 4919-4960, 6136-6471: left-recursion, infinite-loop, empty-element detection, reference checks, linking, precedence instruction, perform_core after reading |
| MetaM.v | 5429-6134, 6177-6285: the meta-grammar, its actions, reading a grammar text |
| AstM.v | 6480-6658 AST nodes (heap, shared), optimizer, add_ast_action |
| AstText.v | 6547-6578 ast_to_s |
| ProfileM.v | 7124-7216 enable_profiling: counters and reports (not the clock) |
| BlobM.v | 4967-5366, 6843-6863 saved grammars |

## What is not modelled

* C++ object lifetimes and `std::string_view` lifetimes, `std::any` beyond a value type,
  allocation failure, stack exhaustion, exceptions thrown by user callbacks, threads.
* The layout of profiles (7163-7205); the end of the leave lines of enable_tracing (7098-7111). Message *texts* of grammar errors (load log).
* `combine` of grammars given as operators by the caller (`Rules`, 6221-6236) and the
  operator-overloading DSL, except as operators.
* Left-recursive macros (seeds per instantiation, 3929 and 4066-4083): the model stops there with an exception.
* Hash-map iteration order is a parameter (`order`, a permutation).
* parse functions are total functions with fuel; every theorem is for all fuels, and
  termination theorems (C20, C45, C49) show that some fuel suffices.

## Layout (rocq/theories)

* Model files contain only definitions; each cites the lines of `peglib.h` it models.
* `*Spec.v` are the small specifications: `Utf8Spec`, `EscapeSpec`, `RangeSpec`, `TrieSpec`,
  `LineSpec`, `PegSpec` (textbook PEG), `EngineSpec`, `EventSpec`, `FirstSpec`, `KeywordSpec`,
  `ReportSpec`, `AstSpec`, `BlobSpec`, `IndepSpec`, `LrSpec`, `MacroSpec`, `PrecSpec`, `LoadSpec`, `NotationSpec`, `ReadSpec`, `AstTextSpec`, `ProfileSpec`, `TraceSpec`, `TreeSpec` (parse trees and their values).
* `Prop*.v` hold the property theorems, each closed by a lemma and followed by
  `Print Assumptions`, plus examples (`Cxx_meets...`) that the hypotheses are met.
* Everything else is proof support.

## Is the model the code? Checked against the project's conformance suite

The C++ code cannot be run here, but the project ships expected outcomes: `/repo/spec/tests`
(279 groups of grammar text, inputs, expected match, error reports, trees, values and
enter/leave traces) with its driver `/repo/harness/cpp/harness.cc`. `Conform.v` is that driver
on the model, and `Conform_*.v` (generated by `tools/mkconform.py`) run it: the model agrees on
all 752 cases of 273 groups, from grammar text to printed tree. These files are tests of the
model, not proofs. Left out (`tools/conform_left_out.json`): the 6 groups about left-recursive
macros, which the model does not cover.

## Central method

`RefSem.v` gives a reference semantics: what an expression means, with no memo table,
re-entry guard, first-byte filter, byte-set span, trace or error record. `Refine*.v` prove
that the engine computes it (forward simulation with invariants over the memo table, the
left-recursion table and the frames of macro arguments); `RefMono`, `RefExt`, `RefStrip`
say on what the reference semantics does not depend. `PegDen/PegRef/PegEngine` connect it
to the textbook PEG (`DicDen.v` reads a dictionary as the choice of its words, longest
first; `PegWord.v` adds the word boundary after literals and dictionary words, so that the
theorems cover %word). `Sim.v` is a two-run simulation used for independence properties.
`Run.v` threads the user data through a run (used for the parser of grammar texts).

## Per property plan

| id | what is modelled | how proved |
|----|------------------|-----------|
| C01-C03 | utf8 functions over byte lists | bit-field lemmas + induction |
| C04 | resolve_escape_sequence, escape_characters | induction on the text, fuel = length |
| C05 | complement_character_ranges | invariant of the sweep over sorted ranges |
| C06-C07 | Trie insertion and match | invariant relating trie map to word list; C07 refuted for a word that is a prefix of an earlier one |
| C08-C09 | line_info (free, Context with lazily built index) | induction; cache invariant |
| C10 | str2tag | refuted by collision; determinism |
| C11 | PackratCache open addressing table | refinement to a finite map, invariant on probe chains |
| C12, C20 | engine against the textbook PEG; partial: operators outside the core fragment | refinement to RefSem, then derivations of PegSpec both ways; well-founded measure |
| C13-C15, C21, C23-C25, C27, C28, C40 | the parsing engine, every operator | fuel induction, state-frame invariants |
| C16 | SetupFirstSets | soundness of first sets, then refinement; refuted for named cases |
| C17, C26 | ISpan fast path, keyword guard | loop equivalence |
| C18 | packrat memo | simulation for rules free of context; refutation with whitespace context |
| C19 | left recursion seed growing | equality of the reference meanings with b a*; partial: values |
| C22 | PrecedenceClimbing | tree relation, uniqueness of grouping; partial: rules below other rules |
| C29-C30, C47 | ErrorInfo, set_error_pos, output_log | monotone invariants, traces |
| C31-C33, C45 | visitors at load time | structural induction; refutations where detection has gaps; PEG well-formedness |
| C34-C35, C46 | AST building, optimizer | heap invariants, tree induction |
| C42 | AST actions on a heap of nodes (AstM.v, AstSetup.v) | two-run simulation against plain trees (AstShared.v), ownership invariant of values (Own.v, no packrat), Kripke invariant of values, memo and seed tables (Good.v, packrat); exact parent links refuted with packrat |
| C36-C37 | GrammarBlob writer/reader | codec round trip; refutation for truncated strings |
| C38, C39, C43, C44 | trace hooks, sessions, actions | two-run simulation; marks left by earlier parses: equality of the reference semantics under re-marking (RefMark.v, MarkTop.v) |
| C41 | Reference to macros | inlining keeps the reference meaning; refuted with dynamic scoping |
| C48-C49 | the meta-grammar and its actions | invariant of user data; PEG well-formedness of the meta-grammar |
| C50-C51 | the meta-grammar, its actions and callbacks, read as a relation on runs | NotationSpec.v states the notation as judgements on texts; induction on the judgements shows every run reads the text as its meaning |
| C52 | ast_to_s | reading the text back, by induction on the tree |
| C54 | the engine through its reference semantics; parse trees as inductive relations (TreeSpec.v) | the reference run yields a tree derivation and the tree's values (induction on depth, seed growth as iteration); uniqueness by induction on derivations |
| C55 | add_ast_action (AstM.v) as the action of every rule; AST of a parse tree defined by recursion on the tree (PropTreeAst.v) | C54 instantiated with AST actions; evaluation = ast_of by induction on the tree |
| C56 | enable_tracing's printer driven by the tracer events (TraceM.v): numbers, indentation, names, positions, star; the end of leave lines is a parameter | blocks of lines by induction over the nesting of events (C38); reading back, numbering, levels, closing lines by induction over blocks |
| C57 | composition of the reader (MetaM.v), the loader (LoadM.v), the first-byte pass and the engine; the textbook PEG of the definitions of a text (TextPeg.v) is the independent specification | renaming of nonterminals (rules by name) between the grammar of the parser and that of the text; directly left-recursive rules are read as iterations (LrWf.v: the iterated grammar is well-formed); C50 for the text, C45 and C16 for the parser, C12 for the language; with the marks of a session: MarkTop.v |
| C58 | the object of class parser (ObjM.v): grammar with settings, callbacks and what parses left (SessionM.v) per rule, start name, flags; every method a step with a reply; load_text, load_blob and parser_parse inside | simulation of two objects that differ only in what parses left (three possible states of ids and packrat filter, prepare maps them to the same parser); the state after a load is a function of the verdict, two flags and the calls since; refutation for refused blobs by computation |
| C53 | the profiler as a function of the calls to the tracers | invariant over prefixes of the trace; nesting of traces (C38) |

Mutation tests: `seeded/LOG.jsonl` (one line per wrong program tried).
