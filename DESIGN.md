# Formal model of partial-pretty-printer in Rocq (Coq 8.16.1)

Sources modelled: `/repo/src` (read as text; nothing was built or run).  All Coq files are in
`rocq/theories`; the logical name is `Verif`.

## Trusted base

* Coq 8.16.1's kernel, including its conversion by `vm_compute` (used for concrete examples and
  for closed numeric facts).
* Axioms: none.  `Print Assumptions` answers "Closed under the global context" for every theorem
  listed in MANIFEST.json.  No standard-library axiom is used (vcheck lists seven parameters of the
  module types of `Coq.ssr.ssrunder`, which come with the standard library's `ssreflect`; no theorem
  here depends on them).  There is no Admitted, no Axiom/Parameter, no section-less Variable, no
  functor or module type, no plugin, no flag that weakens the kernel.
* The reading of the Rust sources: that the definitions of the *model* files below say what the Rust
  code does.  Every definition cites the file and lines it models.
* The *specification* files (`Spec*.v`) and the statements in `Properties*.v`: that they say what the
  English of properties.jsonl says.

## Files

Model (function by function, with citations):

| file | Rust | content |
|------|------|---------|
| Base.v | - | result monad (`Ok`/`Fail`), u16 arithmetic with an overflow-checks switch, fuelled `loop` |
| Machine.v | - | the same for the pane code: u16/usize/isize/u64 operations that can panic |
| Notation.v | notation.rs, notation_constructors.rs | Notation, CheckPos, normalize_child_index, the operators `+ \| ^ >>` |
| Valid.v | valid_notation.rs | `validate`: all the checks, with their order and the first error |
| PrettyDoc.v | pretty_doc.rs, infra.rs | the trait as a Class (abstract document, id, style, label, condition, error types; methods that may fail or panic); character widths |
| Consolidated.v | consolidated_notation.rs | DelayedConsolidatedNotation, ConsolidatedNotation, eval, JoinPos, Textual, split_at |
| Printer.v | pretty_print.rs | Chunk, Block, Printer, fits, choose, expand_first/last, seek_*, print_*, pretty_print, the two iterators, Line, FocusedLine, to_string, pretty_print_to_string |
| Iter.v | pretty_print.rs | the two iterators again, with the printer that is left after a call that returned an error |
| Oracle.v | oracle.rs | oracular_pretty_print (Layout, pp, and their helpers) |
| Divvy.v | pane/divvy.rs | Divvier, divvy, proportionally_divide |
| F32.v | (f32 arithmetic) | the f32 operations used by the panes, by the standard library's SpecFloat |
| Pane.v | pane/display_pane.rs, pane_notation.rs, printing_options.rs, pretty_window.rs, geometry.rs | display_pane, display_pane_rec, PrintedDoc, display_line, the window as a list of recorded operations with arbitrary results; rectangles |
| PlainText.v | pane/plain_text.rs | PlainText as a window: print_char, set_focus, to_string |
| BasicStyle.v | doc_examples/style.rs | BasicStyle, Color, combine, StyleLabel |
| TreeDoc.v | doc_examples/tree.rs | Tree, ids, comments, separators, its PrettyDoc instance, the trait's default methods |
| Json.v | doc_examples/json.rs | the JSON notations and constructors |
| JsonProgram.v | examples/json.rs | the JSON reformatter: from the parsed file to the string it writes |

Specifications (small, written independently of the model's helpers):

| file | content |
|------|---------|
| SpecLayout.v | `shape` (a finite notation tree), `event` traces, `layout` (strict left-to-right rendering), `lines_of` |
| SpecDoc.v, SpecElab.v | rose trees `rdoc`; `rep r doc`: the methods of `doc` present the rose tree `r`; `doc_shape`: the notation tree of a document, with Fold as a left fold, styles and indentation as explicit contexts |
| SpecPrint.v, SpecProps.v | `printed`, `print_fails`, `displayed`, `linear`, `unique_ids`, ...: the observable results of a run |
| SpecFocus.v | where Start/End/Mark/Text focus lies in a trace |
| SpecLine.v, SpecWide.v | the choice rule (`lays`), EndOfLine, widths, single-line first options |
| SpecSpine.v, SpecShown.v | which contents are displayed; styles and indentation of a piece of text |
| SpecRewrite.v | notation equivalences and contexts |
| SpecValid.v | declarative flaws of a notation |
| SpecMask.v | documents that differ only in parts that are not looked at |
| SpecSim.v | documents of two types whose methods give corresponding answers |
| SpecOpenWork.v | the size of the open part of a document |
| SpecStack.v | documents that are printed one leaf per line |
| Cost.v | the number of loop iterations of every function of Printer.v (src/pretty_print.rs) |
| Calls.v | the number of calls of `eval` and of PrettyDoc methods (src/consolidated_notation.rs, src/pretty_print.rs) |
| Generative.v | tests/standard/generative_testing.rs and the generator of tests/standard/oracle_tests.rs (test infrastructure) |
| Harness.v | tests/standard/pretty_testing.rs (SimpleDoc, all_paths, print_above_and_below, assert_pp, assert_pp_seek, assert_pp_focus, assert_pp_region and what they call; positions in strings count characters, not bytes) and the test of tests/standard/oracle_tests.rs |
| SpecGenerative.v | what a generator can generate; sizes of notations and trees |
| SpecPage.v | documents shown in full, one below the other; text filled up with spaces |
| SpecOrigin.v, SpecOriginPane.v | where printed strings, styles and drawn characters come from |
| SpecOrder.v | the place of a focus, and the order of places |
| SpecPick.v | all the layouts of a document, their order; notations whose first options are single lines |
| SpecVisible.v | documents that agree on what can be visible |
| SpecCalls.v | how deep the notations of a document are nested |
| SpecWork.v | the size of a document as the work is measured |
| SpecOracle.v | which documents the oracle handles |
| SpecDivvy.v, SpecPane.v, SpecPane2.v, SpecPlain.v | fair division; cells, rectangles, meaning of pane notations; what a grid of characters renders to |
| SpecIter.v | calling `next` until it returns None, whatever it returns |
| SpecLike.v | documents that are the same up to styles, labels and ids |
| SpecNest.v | a node with another notation; printing a whole document |
| SpecOnce.v | notations that show everything exactly once |
| SpecOpen.v, SpecOpenWork.v | documents of which only some nodes are there (open), the rest being anything |
| SpecFirst.v, SpecHarness.v | the first display of a node; the text of a part of a layout |
| SpecScroll.v, SpecSimPane.v | what a pane shows of a document, row by row; windows and contents that answer the same |
| Threads.v, SpecThreads.v | threads that make, send and receive trees (src/doc_examples/tree.rs: the thread-local id counter) |
| SpecResize.v | the documented requirement on choices |
| SpecTree.v, SpecJson.v | histories of tree constructions; the textual content of JSON values |
| SpecProgram.v | RFC 8259 (JSON texts, with escapes); a terminal that understands ECMA-48 color sequences |

Proofs: `P*.v` (lemmas) and `Properties*.v` (the theorems `Cnn_*`, one file per group, with their
concrete cases in `Properties*Ex.v`: every theorem has a `Cnn_case`/`Cnn_run` whose document is
non-trivial).  `Examples.v` runs the model on the examples of the crate's documentation.
`TestSuite.v`, `TestSuite1.v`, `TestSuite2.v` and `TestSuite3.v` run the crate's own unit tests on the model: every `#[test]`
in the repository except `time_json` (ignored, it measures time), `oracle_tests` (C72: proved to pass) and let_list.rs (not
compiled: mod.rs does not name it).  They are inputs and expected outputs copied from the repository, evaluated by `vm_compute`
(including the document of 1.3 million nodes of json.rs): evidence that the model is the code, not part of any proof.

## How the printer is verified

1. *Printer over a notation tree.*  `eval` turns a delayed notation into a node whose children are
   delayed notations: a lazily unfolded finite tree.  A relation says that a delayed notation unfolds
   to a given `shape`.  `layout` is a structural recursion over the shape that renders it strictly
   left to right and produces a trace of events (text, newline, end of line, entering/leaving child i
   of a node, focus mark).  Every printer operation is shown to preserve the trace of the whole
   printer state (PRefine, PPrint, PSeek, PSeek2), so wherever the focus is, the concatenation of
   what is printed above, at and below it is the trace (PTop, PFinal).
2. *eval against a declarative elaboration.*  `rep` relates a document to a finite rose tree;
   `doc_shape` elaborates rose trees.  `eval` is proved to unfold to it (PEval, PElab, PTree).
3. Everything else about printing (choices, widths, styles, focus, Flat, Fold, errors, algebra) is
   proved about `layout`/`doc_shape` and transported along 1 and 2.

Loops: each Rust loop is `loop fuel body state`; `OutOfFuel` is a distinct failure.  Results are
stated as "for all sufficiently large fuel the result is r" (`ev f r`), which includes termination
and determinism; C09 shows that some result always exists.

Overflow: u16 additions go through `add16`, which with overflow checks on (debug builds) panics and
otherwise wraps, as Rust does.  `str_width` truncates to u16 (`as Width`).  Theorems quantify over
both settings (`env`), unless they say "checked" or "release".

## Per property: model, theorems and method

`M:` model files used, `T:` main theorems, `H:` method.  A statement that is false of the code in
some corner has a theorem `*_refuted` with a witness; properties.jsonl states the qualified property.

| id | how it is modelled and proved |
|----|-------------------------------|
| C01 | M: Printer. T: C01_partial_printing_agrees, C01_same_lines, C01_layout_is_printed, C01_printed_has_layout, C01_text_focus. H: refinement 1+2 |
| C02 | T: C02_text_focus. H: as C01 with a split text event; needs additive widths of the text (hypothesis `splittable`) |
| C03-C05 | T: C03_start_focus, C04_end_focus, C05_mark_focus, C05_missing_mark. H: position in the trace; needs unique ids and every child displayed at most once (`linear`) |
| C06 | T: C06_accepted_iff_displayed and both directions |
| C07 | T: C07_first_text_from_start says exactly where Text focus goes; C07_refuted: it may be the text of another node (seek_text never compares ids) |
| C08 | M: Oracle, Printer. T: C08_oracle_agrees(_checked), C08_oracle_returns; C08_zero_width_refuted (the oracle does not take a text of width 0 for a text after an EndOfLine) |
| C09 | T: C09_printing_terminates, C09_to_string_terminates, for every finite document, valid or not, whatever its methods return. H: measure on trees |
| C10, C11 | T: C10_only_these_failures, C10_no_overflow_no_panic(_text), C10_to_string_no_panic, C10_release_never_panics; C11_methods_used_as_documented. H: no panic leaf in the elaborated shape of a validated document; methods panic when misused in the model |
| C12, C13 | T: C12_choice_rule, C12_rule_determines_layout, C12_rule_is_printed, C13_first_option_line_fits, C12_text_focus, C13_text_focus. H: `lays` (relational rule) against `layout` |
| C14 | T: C14_* (four, C14_text_focus for focuses in texts). H: invariant of `layout` |
| C15-C19 | T: C15_*, C16_*, C17_*, C18_*, C19_*. H: `doc_shape` against direct definitions over notations and trees |
| C20 | T: C20_*. H: failures of a run are failures reported by a method, or mismatches, in a displayed part |
| C21-C23 | M: Valid. T: C21_*, C22_*, C23_*. H: induction on notations against declarative flaws |
| C24, C25 | T: C24_*, C25_* |
| C26 | T: C26_notation_algebra, C26_same_focus. H: equal traces, closed under contexts and documents |
| C27 | T: C27_one_line, under the documented Choice requirement |
| C28-C30 | M: Divvy. T: C28_*, C29_*, C30_*; C30_zero_weight_refuted, C30_overflow_refuted. H: arithmetic on lists |
| C31-C33 | M: Pane. T: C31_*, C32_*, C33_*; C31_widest_window_refuted (a window of width 65535: the column overflows), C33_every_cell_refuted (a Fixed pane smaller than the window, a missing document, or no subpanes leave cells unwritten). H: induction on pane notations over recorded window operations |
| C34-C36 | T: C34_*, C35_*, C36_*; C34_huge_pane_refuted (more than 2^24 rows). H: f32 reasoning (PF32), the printed lines of C01 |
| C37 | T: C37_*; C37_vert_refuted |
| C38 | M: PlainText. T: C38_*; C38_nul_refuted. H: invariant over operation sequences |
| C39 | M: TreeDoc. T: C39_*; C39_stale_separator_refuted |
| C40, C41 | M: Json, BasicStyle. T: C40_*, C41_*; C40_misplaced_comment_refuted, C41_constant_style_refuted, C41_comment_words_refuted |
| C42 | T: C42_unprinted_parts_do_not_matter. H: simulation between a document and one with other parts masked (PMask) |
| C43 | T: C43_exhausted_up, C43_exhausted_down |
| C44, C45 | T: C44_*, C45_*. H: a declarative meaning of pane notations, and the causes of each error |
| C46 | M: PrettyDoc, TreeDoc. T: C46_* |
| C47 | T: C47_no_line_too_wide, C47_prints, C47_text_focus, C47_json, C47_json_too_wide. H: invariant "laid out so far + second options of the rest fits" over `lays` |
| C48 | M: Iter. T: C48_draining_ends, C48_only_these_failures, C48_*_until_error, C48_none_is_final. H: the blocks left in a printer have a finite total size, which every call of `next` decreases |
| C49 | T: C49_same_lines, C49_same_focus, C49_same_text_focus, C49_same_success, C49_alike_both_ways. H: a relational induction over `elab` (PRel.elab_rel), then over the layout; the focus points of two alike layouts coincide |
| C50 | T: C50_above, C50_child_alone, C50_column. H: the lookahead stops at a newline, so the layout before it does not depend on what follows |
| C51 | T: C51_block_of_parts, C51_parts_of_block, C51_shift_operator. H: adding an outermost prefix to every newline of a tree (PNest.shift) shifts all positions, so that all decisions are the same |
| C52 | T: C52_every_node, C52_only_nodes, C52_every_text, C52_json, C52_json_text. Spec (SpecOnce): `note_views`, all the ways a notation can be displayed and what each shows of the node; `all_once`. H: what a layout visits is a permutation of all the nodes and texts of the tree (POnce), so the layout is linear and displays every path; then C06 and C02. The JSON notations show their children in order, by induction on Fold. C52_hidden_child: an example that leaves a child out |
| C53 | T: C53_same_lines, C53_same_focus, C53_same_openings, C53_json_obeys, C53_json. Spec (SpecResize): `displays` (all ways of picking options), `no_longer`, `obedient` (the documented requirement, for every width, line and continuation); `same_openings`, a syntactic criterion. H: induction over the rule of C12 (PResize): where a first option was taken at w, what is actually displayed fits in w', so by the requirement the second options the printer looks at do too. What is printed depends on the layout and focus only (PResize2). Example C53_needs_requirement. |
| C54 | T: C54_rule_respects_ends, C54_prints, C54_always_prints; C54_possible_refuted. H: induction over the rule of C12: what is displayed so far, followed by the second options of the rest, has no text after an EndOfLine. |
| C55 | T: C55_printed, C55_fails, C55_to_string, C55_oracle, C55_panes, C55_trees. H: `checked a b` (equal, or `a` is an overflow panic) is a congruence for bind, loops and the window monad; every function of the model, run in both builds, is related (POverflow, POverflow2). No hypotheses about documents. |
| C56 | T: C56_prints, C56_prints_checked, C56_terminal, C56_layout, C56_reads, C56_distinct, C56_one_line; C56_escape_refuted, C56_same_text_refuted. H: the program's documents are made by the json_* constructors, so C40 gives their lines; a terminal (specified from ECMA-48) undoes the color sequences; the tokens of C40, spaced, are a text of the RFC 8259 grammar; that grammar is unambiguous (induction over the derivation). |
| C57 | T: C57_window_at_start, C57_window_at_end, C57_partial_layout_sound, C57_partial_layout_complete, C57_known_lines_are_the_lines, C57_list_at_start, C57_list_at_end, C57_window_at_mark, C57_window_in_text, C57_known_lines_at_mark, C57_known_lines_in_text, C57_list_at_mark, C57_list_in_text. H: `peek` (SpecPeek.v) lays out a notation tree with holes; every tree of an open document is related to the delayed notations of the real one by `pden`, which says nothing about holes (PPeek7); the printer's stacks, its seek along the path and its two line loops follow `peek` as long as no hole is reached (PPeek1–8); closing nodes only adds gaps (PPeek9); vertical lists by computing `peek` of a Fold (PPeek11–12). Marks and text positions: the search walks the blocks, and each step of it is known because the first stop lies before the first gap (PPeek13–14); a text must be as wide as its halves. Closed nodes must answer notation, node_style and condition, because the printer asks every child of an expanded node (C57_needs_notation). |
| C58 | T: C58_window_work, C58_to_string_work, C58_window_quadratic, C58_to_string_quadratic, C58_finite_work, C58_json_quadratic (Ex: C58_nested_choices, C58_needs_once). H: Cost.v gives every loop of Printer.v a cost function that follows it line by line; SpecWork.v defines the size of a document. Amortized analysis (PCost1–4): every part of the notation that is still to be printed weighs at most three, every unprinted block one or two, and each unit of weight pays K = O(S) steps; one iteration of any outer loop uses up a unit of weight and its inner work (`fits`, scanning for a relevant chunk) is at most linear in the weight. What is counted are iterations, not the time of one: an iteration evaluates at most three notations, and evaluating one walks through its Flat/Indent/Style/Check prefix (see C61). |
| C59 | T: C59_same_window, C59_same_string, C59_same_work, C59_same_string_work, C59_string_iff, C59_ids_are_opaque, C59_styles_are_opaque, C59_same_print, C59_root_style, C59_root_style_print (the layout does not depend on the root style at all) (Ex: C59_case_alike, C59_case: a tree of nodes and a table of nodes with other types of ids, styles, labels and errors). H: lockstep simulation between two instances of the model with unrelated types (PSim for the results, PSimCost for the step counts); the correspondence is a record of relations (SpecSim.v). |
| C60 | T: C60_window_at_start, C60_window_at_end, C60_window_at_mark, C60_window_in_text, C60_stack_window, C60_stack_lines, C60_flat_list_lower (Ex: C60_case_bin for every height, C60_case_flat, C60_case_window). H: the document is related, by the simulation of C59, to one whose nodes are tagged by what is open and whose closed nodes refuse to be displayed (PTag); its notation tree is as large as the open part (PShut, PTag2), so C58's bound applies to it; a window that is determined by the open part never meets a refusal, so the two take the same steps. For stacked trees (SpecStack.v) PStack–PStack3 choose what to open around a leaf and count it. The lower bound (PVertical) follows the loops of `expand_focusing_first_block` and `expand_focusing_last_block`, which always empty their stack. Finding: README's "~50 units of work" does not hold for long flat lists. |
| C61 | T: C61_calls_per_iteration, C61_eval_depth, C61_eval_calls, C61_window_calls, C61_to_string_calls, C61_skipped_children_lower (Ex: C61_case_depth and C61_case_skipped for every length). H: Calls.v counts the calls of `eval` and of the PrettyDoc methods, following Consolidated.v and Printer.v line by line; `eval_calls_eqn` (PCalls3) shows that it satisfies the equations of the recursive Rust function, in which every recursive call is in tail position, so that the number of calls is the depth of the recursion. A generic invariant (PCalls1) carries any bound on single evaluations to the printer; PCalls2 shows the bound for valid notations (no nested folds; Left only in join), with the nesting defined in SpecCalls.v. Finding: `eval` recurses once per child for a fold that skips children. |
| C62 | T: C62_document_pane, C62_needs_visible_lines, C62_succeeds, C62_only_visible_matters, C62_indistinguishable, C62_open_document, C62_open_document_at_end, C62_open_document_at_mark, C62_open_document_in_text (Ex: a list with a broken first and last item, alone and in a tree of panes). H: the meaning of a document pane (`content_of`, SpecPane) asks only for `printed_part`: the window of `ku` lines above and `kd` below the focused line; C34, C37, C38 and C44 are corollaries. The two loops of `PrintedDoc::new` agree with `window` because an exhausted iterator stays exhausted (C43). C62_only_visible_matters: induction on panes over `pane_shows`, which depends on documents only through `printed_part`. |
| C63 | T: C63_all_values, C63_stays_ended, C63_random_value, C63_random_any, C63_notations, C63_trees, C63_up_to, C63_up_to_refuted. H: a generator is the tree of its picks (the trait requires it to be a function of them); the stack of `GenAll` is a path in that tree; invariant: the values still to come are the leaves from that path on. The size of a notation (`made_of`) and of a tree (`nodes`) are defined independently. |
| C64 | T: C64_comes_first, C64_first_fitting, C64_layouts_ordered, C64_order, C64_tidy, C64_json, C64_json_first_fitting, C64_text_focus, C64_fits_if_possible_refuted. H: [picks] (SpecPick.v) enumerates the layouts by lists of decisions; by induction on the rule derivation of C12, a layout that takes a first option where the printed one does not would, by the requirement, show that the option with all later second options fits. C64_tidy: a condition on how notations are written that makes first options single lines. |
| C65 | T: C65_all_lines, C65_unbounded_height, C65_same_as_string, C65_last_row_refuted (Ex: C65_case_string, C65_case_stack, C65_run_stack, C65_case_last_row). H: the Dynamic sizes (C37) are the numbers of lines as long as the window has rows left, `f32` row 0 is exact, the lines are placed by C35/C43's plain-text rows, and the joined lines are those of C24. |
| C66 | T: C66_printed, C66_lines, C66_characters, C66_to_string, C66_window, C66_window_characters (Ex: C66_case_printed, C66_case_lines (broken nodes, calls after the error), C66_case_window, C66_case_window_drawn, C66_case_infinite, C66_case_infinite_lines). H: an invariant of every chunk, block and printer (all pending notations are parts of notations of reachable nodes, all pending texts and indentations are from the document) kept by every step, also by the steps before an error; for windows an invariant of the calls recorded so far. |
| C67 | T: C67_order (the order of places is a partial order), C67_nested, C67_apart, C67_mark, C67_mark_apart, C67_text, C67_text_order (Ex: list_start … top_end compute eleven places of one document, C67_*_case apply each theorem to them). H: by C02-C05 every focus divides the one layout (trace of events) of the document at a position where the open nodes are known; in a linear well-nested trace every node is entered once, so prefixes are ordered as stated (POrder), and splitting the lines of a trace is monotone in prefixes. |
| C68 | T: C68_first_display_unique, C68_first_display_displayed, C68_start, C68_end, C68_accepted_iff, C68_rejected, C68_child_first, C68_mark, C68_text, C68_displayed_once (Ex: a document that shows "<kiwi>" twice; C06_needs_linear: a displayed node whose path is rejected). Spec (SpecFirst): `first_display`, from the open nodes of the trace. H: the seeks of C02-C07 again without linearity (PFirst, PFirst2): between the start of a node and the chunk found, all events are of the node or of descendants of it, and none enters the child sought; well-nestedness turns this into `first_display` (PFirst3). |
| C69 | M: Show (new): `Display` of the error enums, `Pos`, `Size`; std's decimal formatting. T: C69_decimal, C69_names_numbers, C69_printing_errors_distinct, C69_pane_errors_distinct, C69_notation_errors_distinct, C69_single_line, C69_notation_single_line, C69_reported_index, C69_wrong_index_refuted, C69_positions. Spec (SpecShow): `numeral`, `single_line`, `says`. H: numerals consist of digits, so the end of a number in a message is determined; case analysis on pairs of errors. Finding: the two messages about an index inside of Count.one format the constant 0. |
| C70 | M: Show: `Display` of Notation, ConsolidatedNotation and DelayedConsolidatedNotation; labels and conditions by an arbitrary Debug. T: C70_text_determines, C70_quotes_refuted, C70_same_text_same_lines, C70_evaluated_same_text, C70_evaluated_text. Spec: `regrouped` (congruence generated by associativity of + and by dropping labels of indentations), `no_quotes`, `is_name`. H: strong induction on size (PShow2): the first part of a concatenation is determined by what may follow it; then C26 for the printed lines. |
| C71 | T: C71_nested, C71_apart, C71_mark_after_start, C71_mark_before_end, C71_mark_apart, C71_text_after_start, C71_text_before_end, C71_text_order; example C71_needs_mark. Spec: `not_after`, `spot` (SpecOrder), `first_display` (SpecFirst). H: C68 for the places; every place within a first display is inside the node (PFirst4: fd_inside), so first displays of different children are apart. |
| C72 | T: C72_test_passes, C72_expected_passes, C72_unexpected_fails, C72_passing_means, C72_generated_passes, C72_oracle_tests; examples C72_fails, C72_case_loop. Spec: `made_of` (SpecGenerative), `all_once` (SpecOnce), `matched` (SpecSpine), `join_lines`. H: C08 (the oracle returns), C24, C52 (every node can be focused), C22 (the notations are printed), C63 (what is generated); widths of the lines by induction on the layout (PHarness2); that the recursion depth of the generator does not matter (PHarness3: geq). |
| C73 | T: C73_focus, C73_region, C73_region_rows, C73_region_small, C73_seek, C73_seek_invalid; examples C73_case_focus, C73_case_region, C73_case_seek, C73_case_lines. Spec: `trace_text` (SpecHarness: the text of a part of a layout), `first_display` (SpecFirst), `join_lines`, `compares` (passes if equal, PAssert if not). H: C68 (what is printed for the start and the end of a node); the two insertions do not disturb each other because the closing parenthesis, which is further back, comes first; an iterator's `take` is a prefix of what it gives |
| C74 | T: C74_same_lines, C74_same_success, C74_same_focus, C74_edit_text, C74_edit_text_focus, C74_renamed, C74_renamed_focus; examples C74_case_edit, C74_case_renamed, C74_needs_width. Spec: `doc_like` with a relation of texts, `same_cells`, `put_text` (SpecLike). H: the relational induction of C49, over any relation of texts that implies the same width; positions in a text by the uniqueness of the first text after the start of a node (C07) |
| C75 | T: C75_one_picture, C75_pane_shows_page, C75_scroll, C75_same_line, C75_same_text, C75_taller; examples C75_case, C75_run, C75_case_text. Spec: `page_line`, `row_picture`, `top_line` (SpecScroll); `shown_in`, `report` (beside the theorems). H: C34 for the rows, C01/C02 (by `first_lab_spec`, so nodes may be displayed several times) for the lines; a row's calls are determined by its characters and the width (C35). |
| C76 | T: C76_same_display (any windows), C76_same_calls (recording windows), C76_styles_are_opaque, C76_styles_never_move, C76_ids_are_opaque, C76_labels_are_opaque; examples C76_case, C76_case_run, C76_case_styles, C76_case_never_move, C76_case_labels. Spec: `window_likeness`, `windows_alike`, `pane_like`, `contents_like`, `ran_alike` (SpecSimPane), `likeness`, `behaves_like` (SpecSim), `restyle`, `relabel`, `recolour` (beside the theorems). H: lockstep simulation of `display_pane_rec` (PSimPane) on top of that of the printer (C59, PSim); arithmetic on sizes does not look at error types (`agree`). |
| C77 | T: C77_schedule, C77_next_id, C77_own_trees, C77_collisions; examples C77_schedule_case, C77_schedule_run, C77_next_id_case, C77_own_trees_case, C77_collisions_case, C77_mixed_refuted (documents of nodes of several threads), C77_not_mixed. Model: `run_schedule` (Threads): every thread has its own counter, stack of trees and inbox. Spec: `program_of`, `nodes_made`, `thread_ids`, `made_more_than` (SpecThreads). H: induction on the schedule; an operation changes nothing of another thread but its inbox (`step_at`); per operation, the ids afterwards are a permutation of those before, plus a new one, minus those lost and sent (`op_effect`). |
| C78 | T: C78_one_cut, C78_cut_in_a_text, C78_same_text, C78_only_the_focus_fails; for every focus: C25_text_focus_widths, C10_any_focus_no_panic, C22_any_focus; examples C78_shown, C78_one_cut_case, C78_cut_in_a_text_case, C78_same_text_case, C78_only_the_focus_fails_case, C78_sequences_refuted (texts whose width is not the sum of the widths of the parts: the focus changes the layout). H: the lines of the two halves (`first_lab_spec`) joined at the text event that is cut; `layout_origins` for the node and style. |
| C79 | T: C79_at_most, C79_text_focus, C79_json; C79_wider_no_more_lines_refuted; examples C79_text_case, C79_json_case. H: induction on the shape over `rend`: a first option that is a single line contributes no newline, every other part at most those of its second options (`rend_free`, `rend_count`). |

## Modelled with simplifications

* `usize` is 64-bit; `isize` child indices are `Z` (a normalized index is a `nat`).
* Strings are lists of character codes; widths of characters and strings are arbitrary functions
  (`unicode_width` is a parameter of the model), truncated to u16 as the code does.
* PrettyDoc methods are pure functions of the document (the trait takes `self` by value and the
  documents are `Copy`); a method may return an error or panic.
* f32 operations by SpecFloat (binary32, round to nearest even); `x.round() as u32` is one step.
* A JSON number is the string it prints as (`to_string` of f64 is not modelled).
* termion's color sequences are taken from its documentation (the crate is not in the sandbox).
* `PrettyWindow` methods return arbitrary results, and their calls are recorded in order.
* notation_constructors.rs: the functions are the constructors themselves; the macros are not needed.
* The state of the iterators after they have returned an error is not modelled by Printer.v; it is by Iter.v (C48).

## Not modelled

UTF-8 encoding, the tables of `unicode_width`, derived Debug formatting (except for `CheckPos`, C70), serde,
memory use (in particular the recursion when a long chain of `Rc<IndentNode>` is dropped) and time (loop iterations and calls
are counted, C58, C60, C61; the `span!` profiling calls are ignored), the parts of `examples/json.rs`
that are not printing (the command line, serde_json's parser, the timing; `as_f64`, which rounds large
integers, is part of the parsing) and the bodies of the tests (the exhaustive generator, the oracle test and the test helpers are modelled, C63, C72 and C73; what the other
tests assert is checked on the model, TestSuite1.v to TestSuite3.v).

## Observations about the code (not bugs of the model)

* `str_width` truncates modulo 65536; unicode-width is not additive for every string. With the focus inside of an
  emoji sequence (FocusTarget::Text), choices after it on the same line see the sum of the widths of the two parts, so
  moving the focus can change the layout (C78_sequences_refuted).
* display_line counts zero-width characters as one column; set_focus may be called with a column
  outside of the pane.
* A focus_height outside of 0..=1 (or NaN) makes an assertion panic.
* `Tree` is Clone, so ids can be duplicated; ids restart when the counter is reset.
* A child inside the `join` of a Fold keeps a stale join position (harmless).
* Fold on a text node reports NumChildrenChanged.
* validate accepts an EndOfLine followed by a Child, which can fail when printed.

## Testing the theorems

`seeded/LOG.jsonl` has one line per wrong program tried (an edit of one model definition in a scratch
copy, full rebuild): the first lemmas that fail, and the `Cnn` theorems that can no longer be built.
`tools/manifest.py` regenerates MANIFEST.json from the names of the theorems.
