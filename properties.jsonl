{"id": "C01", "title": "Partial printing agrees with full printing", "statement": "Whatever node and focus target (Start, End or Mark) the caller asks pretty_print to focus on, if the call succeeds then the lines from the upward iterator (reversed), the focused line (left segments followed by right segments), and the lines from the downward iterator form exactly the same list of lines, segment by segment (text, width and style), as printing the document focused at the start of the root.", "quantifier": "every finite document, every notation, every width, every path, Start/End/Mark targets, every root style", "why_tests_cant": "The printer resolves choices outward from the focus, in a different order for every focus position; agreement is a confluence statement over all documents and all focus positions.", "anchors": ["src/pretty_print.rs: pretty_print, Printer::seek, print_next_line, print_prev_line, expand_focusing_first_block, expand_focusing_last_block, choose, fits"]}
{"id": "C02", "title": "Text focus does not change the text and splits at the n-th character", "statement": "With FocusTarget::Text(n) on a node that displays its text, the printed lines have the same strings as the full print, and the focused line is split so that the left part ends with exactly the first min(n, length) characters of that node's text. (This needs column widths to be additive when the text is split, which unicode-width does not guarantee for every string.)", "quantifier": "every document, width, path to a node displaying its Text, every n; widths additive over string splitting", "why_tests_cant": "Splitting a text changes the segment structure and the recorded widths; showing no later choice is affected needs all documents and all split positions.", "anchors": ["src/pretty_print.rs: Printer::seek_text", "src/consolidated_notation.rs: Textual::split_at"]}
{"id": "C03", "title": "Start focus is exactly before the node", "statement": "If pretty_print(path, Start) succeeds, everything printed before the focus (all upward lines and the left segments) is exactly what the layout prints before the node at path, and everything after the focus is exactly what the layout prints from the start of that node on.", "quantifier": "every document with unique node ids, every width, every path", "why_tests_cant": "Depends on how seeking interleaves with choice resolution for every document shape and depth.", "anchors": ["src/pretty_print.rs: Printer::seek, seek_child, seek_start"]}
{"id": "C04", "title": "End focus is exactly after the node", "statement": "If pretty_print(path, End) succeeds, everything before the focus is exactly the layout up to the end of the node at path and everything after the focus is exactly the layout following it.", "quantifier": "every document with unique node ids, every width, every path", "why_tests_cant": "As for Start; the end of a node can be many lines away and is found by a different traversal.", "anchors": ["src/pretty_print.rs: Printer::seek_end, expand_focusing_last_block"]}
{"id": "C05", "title": "Mark focus is at the node's first FocusMark", "statement": "If the chosen layout displays a FocusMark belonging to the notation of the node at path (not of one of its children), pretty_print(path, Mark) succeeds and the focus is exactly at the first such mark; if the layout displays none, it fails with MissingFocusMark. If the node itself is not displayed it fails with InvalidPath.", "quantifier": "every document with unique node ids, every width, every path", "why_tests_cant": "Which marks are displayed depends on the choices the layout makes, for every document and width.", "anchors": ["src/pretty_print.rs: Printer::seek_mark"]}
{"id": "C06", "title": "A path is accepted exactly when its node is displayed", "statement": "Seeking to a path succeeds when the chosen layout displays the node at that path (each node displayed at most once), and otherwise fails with InvalidPath carrying the first child index that is not displayed.", "quantifier": "every document with unique node ids, every width, every path, including paths to undisplayed children and out-of-range indices", "why_tests_cant": "Requires relating a search with block skipping to the set of nodes displayed by the final layout, over all documents.", "anchors": ["src/pretty_print.rs: Printer::seek_child"]}
{"id": "C07", "title": "Text focus goes to the first node text displayed from the start of the node", "statement": "FocusTarget::Text(n) focuses in the first node text displayed at or after the start of the node at path, and fails with MissingText if there is none; so it is in the requested node itself whenever that node displays its text. (The documentation promises more, that it fails when that node displays no text; this is false of the code.)", "quantifier": "every document and path", "why_tests_cant": "Only documents in which another node's text follows the target expose the difference.", "anchors": ["src/pretty_print.rs: Printer::seek_text, FocusTarget::Text, PrintingError::MissingText"]}
{"id": "C08", "title": "The fast printer agrees with the oracle", "statement": "When the reference algorithm oracular_pretty_print returns a string, pretty_print_to_string returns the same string. (For validated documents that display no text of width zero, with additive string widths; with zero-width texts the two may disagree, which is proved too.)", "quantifier": "every document that either has no text of width zero or no EndOfLine, every width below the oracle's limit (with zero-width texts after EndOfLine the two disagree)", "why_tests_cant": "The repository tests this on generated notations of size < 6 and a few thousand random ones; the claim is about all documents and widths.", "anchors": ["src/oracle.rs: oracular_pretty_print, pp, first_line_len", "src/pretty_print.rs: pretty_print_to_string, fits"]}
{"id": "C09", "title": "Printing always terminates", "statement": "pretty_print returns, and every next() on its iterators returns, and the iterators are finite.", "quantifier": "every finite document, notation, width, path, target", "why_tests_cant": "Termination of nested loops over lazily expanded notations is a statement about all inputs.", "anchors": ["src/pretty_print.rs: all loops", "src/consolidated_notation.rs: eval"]}
{"id": "C10", "title": "Validated notations never make the printer panic", "statement": "If every notation in the document passed validate(), the node methods do not panic when used as documented, and no line's width overflows u16, then no call of pretty_print, pretty_print_to_string or next() panics.", "quantifier": "every document, width, path, target", "why_tests_cant": "Panics guard 'impossible' states; showing they are impossible needs an invariant over all reachable states.", "anchors": ["src/pretty_print.rs: panic!/unwrap/assert sites", "src/consolidated_notation.rs: eval", "src/valid_notation.rs: validate"]}
{"id": "C11", "title": "Document methods are only called as documented", "statement": "The printer calls unwrap_text only on nodes whose num_children is None, unwrap_child(i) only when num_children is Some(n) with i < n, unwrap_last_child only when n > 0, and unwrap_prev_sibling(parent, i) only on the child of index i+1 of parent; so methods that panic outside this contract never panic.", "quantifier": "every document, notation, width, path, target", "why_tests_cant": "A contract on every call in every execution.", "anchors": ["src/pretty_doc.rs: PrettyDoc", "src/consolidated_notation.rs: eval"]}
{"id": "C12", "title": "Choices follow the documented rule", "statement": "A Choice displays its first option exactly when it is inside a Flat, or when the first line of that option, followed by what follows it on the line with every later choice taking its second option, neither makes the current line exceed the width nor puts a Text or Literal after an EndOfLine; otherwise it displays its second option.", "quantifier": "every document, width and choice in it", "why_tests_cant": "The rule quantifies over everything that may follow the choice on the line.", "anchors": ["src/notation.rs: Notation::Choice", "src/pretty_print.rs: choose, fits", "src/consolidated_notation.rs: eval"]}
{"id": "C13", "title": "A line that took a first option fits", "statement": "If, in a printed document, some Choice on a line was resolved to its first option because it fit, then the line that contains the end of the text before that choice does not exceed the requested width: a line wider than the limit contains no Choice resolved to its first option.", "quantifier": "every document and width, no requirement on how choices are written", "why_tests_cant": "Needs an invariant relating the look-ahead estimate to every later decision on the line.", "anchors": ["src/pretty_print.rs: choose, fits"]}
{"id": "C14", "title": "No text is ever printed after an EndOfLine", "statement": "In a successfully printed document no Text or Literal is displayed between an EndOfLine and the next Newline; if the layout would do so, printing fails with TextAfterEndOfLine.", "quantifier": "every document, width, path, target", "why_tests_cant": "EndOfLine and the offending text may be arbitrarily far apart and in different nodes.", "anchors": ["src/pretty_print.rs: Block::push_text", "src/notation.rs: Notation::EndOfLine"]}
{"id": "C15", "title": "Indentation prefixes every line, outermost first", "statement": "After every Newline the printed line starts with the indentation strings of exactly the enclosing Indent notations (across node boundaries), outermost first, each with its own style, and indentation is never applied to the first line of the indented notation.", "quantifier": "every document, nesting depth and width", "why_tests_cant": "Indentation is threaded through lazily evaluated notations and node boundaries.", "anchors": ["src/consolidated_notation.rs: IndentNode, eval (Indent, Newline)", "src/pretty_print.rs: Block::new"]}
{"id": "C16", "title": "Styles are combined from the outside in", "statement": "The style of every printed segment is the root style combined (Style::combine(outer, inner)) successively with the node style of every enclosing node and every enclosing Style label looked up in the node whose notation contains it, from outermost to innermost.", "quantifier": "every document, every style algebra (no associativity assumed)", "why_tests_cant": "Order and completeness of the combination over all nestings.", "anchors": ["src/consolidated_notation.rs: eval (Style, Child, Right, Indent), with_optional_style"]}
{"id": "C17", "title": "Fold is a left fold over the children", "statement": "Fold{first, join} on a node with children c0..cn displays join with Left replaced by the fold of c0..c(n-1) and Right by cn, down to first for one child, and nothing for zero children; CheckPos::LeftChild/RightChild inspect the two adjacent children.", "quantifier": "every number of children, every first and join notation", "why_tests_cant": "Folds are evaluated lazily from the right with mutable position state; agreement with a left fold is an induction on the number of children.", "anchors": ["src/consolidated_notation.rs: eval (Fold, Left, Right, Check), JoinPos"]}
{"id": "C18", "title": "Flat removes every choice", "statement": "Inside Flat, including inside child nodes, every Choice displays its first option regardless of width.", "quantifier": "every notation inside a Flat, all depths", "why_tests_cant": "The flat flag must survive every notation constructor and node boundary.", "anchors": ["src/consolidated_notation.rs: eval (Flat, Choice)"]}
{"id": "C19", "title": "Child indices, Count and Check select as documented", "statement": "Child(i) displays child i for 0 <= i < n and child n+i for -n <= i < 0 and fails with ChildIndexOutOfBounds otherwise; Count selects zero/one/many by the number of children; Check selects by the condition of the inspected node.", "quantifier": "every index, number of children and condition", "why_tests_cant": "All integers and child counts.", "anchors": ["src/notation.rs: normalize_child_index", "src/consolidated_notation.rs: eval (Child, Count, Check)"]}
{"id": "C20", "title": "Errors of document methods surface and only when needed", "statement": "If laying out the document requires a method result that is an error, printing fails rather than printing something else; conversely, if no method call needed by the layout fails, printing does not report a PrettyDoc error.", "quantifier": "every document with methods failing anywhere", "why_tests_cant": "Errors may sit in any node or branch, needed only under some widths.", "anchors": ["src/consolidated_notation.rs: eval", "src/pretty_print.rs: Chunk::new, choose, fits"]}
{"id": "C21", "title": "validate() accepts exactly the flawless notations", "statement": "validate() succeeds exactly when: Left, Right, CheckPos::LeftChild and CheckPos::RightChild occur only inside Fold.join, Folds and Counts are not nested, Text occurs in no Count or Fold, Child / CheckPos::Child occur in no Count.zero and only with index 0 or -1 in Count.one, no way of resolving choices puts Text or Literal after a possible EndOfLine, and no FocusMark certainly follows another; otherwise it reports one of these flaws that the notation really has.", "quantifier": "every notation", "why_tests_cant": "Structural induction over all notations.", "anchors": ["src/valid_notation.rs: validate, validate_rec"]}
{"id": "C22", "title": "A validated childless notation never prints text after EndOfLine", "statement": "If validate() succeeds on a notation that contains no Child and no Fold, then printing a document with that notation never fails with TextAfterEndOfLine, at any width.", "quantifier": "every such notation that matches its node (no mismatch error), every width, every focus and every outcome of conditions", "why_tests_cant": "validate() approximates all choice resolutions statically; soundness is over all of them.", "anchors": ["src/valid_notation.rs: validate_rec, History"]}
{"id": "C23", "title": "validate() rejects FocusMarks only when a duplicate is certain", "statement": "validate() fails with MultipleFocusMarks only if, for every way of resolving choices and checks that reaches the offending mark, an earlier mark of the same notation has been displayed.", "quantifier": "every notation and every resolution of its choices", "why_tests_cant": "Quantifies over all resolutions.", "anchors": ["src/valid_notation.rs: validate_rec, History::mark"]}
{"id": "C24", "title": "pretty_print_to_string is the newline-joined full print", "statement": "pretty_print_to_string returns the lines of the document joined by single newline characters with no trailing newline, and equals the join of the lines printed around any focus.", "quantifier": "every document, width and focus", "why_tests_cant": "All documents and foci.", "anchors": ["src/pretty_print.rs: pretty_print_to_string"]}
{"id": "C25", "title": "Recorded widths are the widths of the printed strings", "statement": "Every printed segment's width is the column width of its string, and Line::width / FocusedLine widths are the sums over the segments (as long as no string or line is wider than a u16 can hold).", "quantifier": "every document and line", "why_tests_cant": "All strings and segment counts; fails silently only beyond 65535 columns.", "anchors": ["src/consolidated_notation.rs: Segment, Textual", "src/pretty_print.rs: Line::width, FocusedLine", "src/geometry.rs: str_width"]}
{"id": "C26", "title": "Notation algebra", "statement": "Replacing, anywhere in a document's notations, x+(y+z) by (x+y)+z, Empty+x or x+Empty by x, Flat(Flat x) by Flat x, Flat(x+y) by Flat x + Flat y, Flat(x|y) by Flat x, Indent over + by its distribution, never changes what is printed.", "quantifier": "all notations, all documents whose notations match their nodes (no runtime mismatch errors), all widths", "why_tests_cant": "Equational laws over all contexts.", "anchors": ["outdated-proofs/proofs_tree.md", "src/notation.rs: Add/BitOr/BitXor/Shr", "src/consolidated_notation.rs: eval"]}
{"id": "C27", "title": "A document that fits on one line is printed on one line", "statement": "If for every choice the second option's first line is never longer than the first option's, and the layout taking every first option has no newline, is no wider than the width and has no text after EndOfLine, then that is what is printed.", "quantifier": "every such document and width", "why_tests_cant": "All documents obeying the documented Choice requirement.", "anchors": ["src/notation.rs: Notation::Choice", "src/pretty_print.rs: choose, fits"]}
{"id": "C28", "title": "Pane space is never over-allocated", "statement": "The sizes handed to the subpanes of a Horz or Vert sum to at most the available size, and to exactly the available size when some subpane is Proportional with positive weight.", "quantifier": "every available size, every list of pane sizes with positive total weight, every dynamic size list that fits", "why_tests_cant": "All sizes and weights; rounding.", "anchors": ["src/pane/divvy.rs: Divvier"]}
{"id": "C29", "title": "Fixed panes are served first, in order", "statement": "A Fixed(k) subpane receives k if that much is left after the earlier Fixed subpanes, and otherwise everything that is left; no other kind of pane reduces it.", "quantifier": "every available size and list of pane sizes", "why_tests_cant": "All lists.", "anchors": ["src/pane/divvy.rs: allocate_fixed"]}
{"id": "C30", "title": "Proportional panes are divided fairly", "statement": "Each Proportional pane receives the floor or the ceiling of its exact share of the space left by Fixed and Dynamic panes; extra cells go to the panes with the largest fractional parts, ties to the leftmost; a pane with larger weight never receives less than one with smaller weight. (At least one weight must be positive and the products must fit in a usize; otherwise the division panics or loses cells, which is proved too.)", "quantifier": "every available size and list of weights", "why_tests_cant": "All sizes and weights; rounding and tie-breaking.", "anchors": ["src/pane/divvy.rs: allocate_proportional"]}
{"id": "C31", "title": "Displaying panes never writes outside a pane's rectangle", "statement": "Every display_char call made by display_pane is inside the window, a full-width character includes both of its columns, and the cells written for a subpane lie within the rectangle allocated to it. (In windows of width 65535, the largest, this is false of the code, which is proved too.)", "quantifier": "every pane notation, window size (up to the u16 limit), document contents and characters", "why_tests_cant": "All layouts, nested panes and characters.", "anchors": ["src/pane/display_pane.rs: display_pane_rec, display_line, display_blank_line", "src/pane/pretty_window.rs"]}
{"id": "C32", "title": "No cell is written twice", "statement": "During display_pane no character cell is written more than once.", "quantifier": "every pane notation, window and document", "why_tests_cant": "Non-overlap of all nested rectangles and of all characters in them.", "anchors": ["src/pane/display_pane.rs: display_pane_rec", "src/pane/pretty_window.rs"]}
{"id": "C33", "title": "Every cell is written", "statement": "During a successful display_pane every character cell of the window is written (at least once). (For pane notations that fill their space: every Horz/Vert has a Proportional subpane with positive weight and every label has a document; false otherwise, which is proved too.)", "quantifier": "every pane notation, window and document; holds when every Horz/Vert is filled and every label resolves", "why_tests_cant": "Coverage over all nested layouts; the documentation claims it unconditionally.", "anchors": ["src/pane/display_pane.rs: display_pane_rec", "src/pane/pretty_window.rs: 'Every character cell will be written to exactly once'"]}
{"id": "C34", "title": "A document pane shows the lines around the focus at the requested height", "statement": "In a Doc pane of height h the focused line is shown on row round((h-1)*focus_height), rows above show the preceding document lines in order without gaps, rows below the following ones, and rows with no document line are blank. (For panes of at most 2^24 rows; above that the f32 computation may give a row outside of the pane, which is proved too.)", "quantifier": "every document, pane size, focus and focus height", "why_tests_cant": "All combinations of focus position, document length and pane height.", "anchors": ["src/pane/display_pane.rs: PrintedDoc::new, PrintedDoc::display", "src/pane/printing_options.rs: choose_focus_line_row"]}
{"id": "C35", "title": "Lines are truncated at the pane edge without splitting characters", "statement": "A displayed line shows the longest prefix of its characters that fits in the pane's columns, each in its segment's style, a full-width character never being cut in half, and the remaining columns are blanks in the pane's style.", "quantifier": "every line and rectangle", "why_tests_cant": "All lines, widths and mixes of full-width characters.", "anchors": ["src/pane/display_pane.rs: display_line"]}
{"id": "C36", "title": "The reported focus point is the position of the focus", "statement": "When set_focus is requested, the window's set_focus is called exactly once for that document with the row of the focused line and the column after the left segments, in window coordinates.", "quantifier": "every document, pane rectangle and option", "why_tests_cant": "All positions.", "anchors": ["src/pane/display_pane.rs: PrintedDoc::new, PrintedDoc::display"]}
{"id": "C37", "title": "Dynamic panes get what they need, earlier ones first", "statement": "A Dynamic subpane receives exactly the width/height of its printed content, limited by what Fixed panes and earlier Dynamic panes left; the assertion guarding the allocation never fails. (In a Vert, the lines of a Dynamic document that does not fill the available height may be cut off if its focus is not at the top; proved too.)", "quantifier": "every list of subpanes and documents", "why_tests_cant": "All lists and document sizes.", "anchors": ["src/pane/display_pane.rs: display_pane_rec (Horz, Vert)", "src/pane/divvy.rs: allocate_dynamic"]}
{"id": "C38", "title": "PlainText renders exactly the characters written", "statement": "After any sequence of non-overlapping display_char calls, the PlainText string has on each row the characters written there at their columns, with gaps as spaces and nothing for the second half of a full-width character. (The character U+0000, which PlainText uses as a sentinel, is not rendered; proved too.)", "quantifier": "every sequence of writes", "why_tests_cant": "All sequences of writes in any order.", "anchors": ["src/pane/plain_text.rs: PlainText"]}
{"id": "C39", "title": "Trees get unique ids and correct separators", "statement": "Nodes created by Tree::new_text / new_branch have pairwise distinct ids, and after new_branch a child needs a separator iff it is not a comment and some later child is not a comment. (Ids are distinct until the counter is reset or overflows; a child that already needed a separator still does when it is attached to another parent; both proved.)", "quantifier": "every construction sequence and child list", "why_tests_cant": "All construction histories.", "anchors": ["src/doc_examples/tree.rs: next_id, Tree::new_branch"]}
{"id": "C40", "title": "Every JSON document prints, with its content unchanged by layout", "statement": "Every document built with the json_* constructors (comments only as array/object entries or roots) prints successfully at every width (if no line is wider than 65535 columns, in builds with overflow checks); an array or object is on one line exactly if it has no comments and fits; and for comment-free documents the printed text consists of the same tokens at every width, with only layout whitespace between them.", "quantifier": "every JSON value and width", "why_tests_cant": "All JSON values and widths.", "anchors": ["src/doc_examples/json.rs"]}
{"id": "C41", "title": "BasicStyle combination and labels", "statement": "BasicStyle::combine is associative, keeps the inner color and is bold iff one of the two is; a label denotes the color it names, after an optional bold_ prefix, and any other label the default style. JSON strings are magenta, numbers blue and comments yellow, but null/true/false are not green (their label green_bold is unknown) and the words of a comment are not yellow (the node style wins).", "quantifier": "all styles, all labels used", "why_tests_cant": "Algebraic law over all styles.", "anchors": ["src/doc_examples/style.rs: BasicStyle, From<&str>", "src/doc_examples/json.rs: CONSTANT_STYLE"]}
{"id": "C42", "title": "Errors elsewhere do not disturb the lines asked for", "statement": "Printing the focused line and the next k lines yields the same lines whatever the document contains further below, as long as the printed part of the notation tree is unchanged; in particular a failing method in an unprinted part does not make them fail.", "quantifier": "every document, focus and k", "why_tests_cant": "A locality property over all documents.", "anchors": ["src/pretty_print.rs: Printer (lazy iterators)"]}
{"id": "C43", "title": "Exhausted iterators stay exhausted", "statement": "Once an upward or downward iterator returns None, every later call returns None.", "quantifier": "every document and number of calls", "why_tests_cant": "All call histories.", "anchors": ["src/pretty_print.rs: UpwardPrinter, DownwardPrinter"]}
{"id": "C44", "title": "Pane notations mean what they say", "statement": "display_pane displays a well-made pane notation whose documents print (and whose sizes do not overflow) without error or panic, and what it displays is the compositional meaning of the notation: Fill repeats its character, Style combines the style, Doc shows its document, Horz and Vert show each subpane in its own slice.", "quantifier": "every pane notation, window size, style and set of documents", "why_tests_cant": "Pane notations nest without bound and combine with arbitrary documents and window sizes; a test fixes one notation, one window and one set of documents.", "anchors": ["src/pane/display_pane.rs: display_pane, display_pane_rec", "src/pane/pane_notation.rs: PaneNotation"]}
{"id": "C45", "title": "Pane errors have exactly the documented causes", "statement": "display_pane returns InvalidUseOfDynamic only if some Dynamic pane is not a (styled) Doc, and such a Horz/Vert always fails and displays nothing; it returns a window error only if a method of the window returned it, and a printing error only if printing one of the pane's documents failed with it.", "quantifier": "every pane notation, window (including failing ones), style and set of documents", "why_tests_cant": "The claim is about every way the call can fail, at every point of an unbounded traversal and for every behaviour of the window.", "anchors": ["src/pane/display_pane.rs: PaneError, extract_doc, display_pane_rec"]}
{"id": "C46", "title": "Default methods and Tree honor the PrettyDoc contract", "statement": "A document type that uses the default unwrap_last_child and unwrap_prev_sibling reaches the same child whichever method is used, so implementing the required methods consistently is enough; and every Tree behaves as its contents say (no method panics when used as documented), with the first style override of a label winning over the label's own style.", "quantifier": "every document type with the default methods, every tree, label and list of overrides", "why_tests_cant": "All trees and all ways of navigating them.", "anchors": ["src/pretty_doc.rs: unwrap_last_child, unwrap_prev_sibling", "src/doc_examples/tree.rs: impl PrettyDoc for &Tree"]}
{"id": "C47", "title": "No line is too wide unless the second options are", "statement": "Call the layout in which every choice (outside of Flat) takes its second option the broken-up layout. If the first option of every such choice contains no newline, and no line of the broken-up layout is wider than the printing width, then no line that pretty_print returns is wider than the printing width, at any focus; and printing from the start succeeds unless the rule for choices puts text after an EndOfLine. (Without the condition on first options this is false: only the first line of a first option is checked.)", "quantifier": "all validated documents whose notations match their nodes, widths below 65536, root styles, paths and Start/End/Mark focus targets", "why_tests_cant": "Whether some choice lets a line grow too wide depends on all combinations of earlier choices, the rest of the line and the width; tests only sample them.", "anchors": ["src/pretty_print.rs: Printer::choose, Printer::fits", "src/notation.rs: Notation::Choice"]}
{"id": "C48", "title": "The iterators survive errors", "statement": "A caller may go on calling next() on the iterators returned by pretty_print after it has returned an error. For a finite document, next() returns None after finitely many calls (or panics), whatever errors came before; after None it keeps returning None; and for a well-behaved validated document every error, before or after the first one, is TextAfterEndOfLine or a mismatch between a notation and its document, and only the overflow of a width, where overflows are checked, panics (in particular nothing left over by an error makes the printer panic). What is returned before the first error is exactly what collecting the iterator sees.", "quantifier": "all documents with finitely many nodes, widths, paths, focus targets, root styles, both iterators, and any number of calls of next after any errors", "why_tests_cant": "What is left in the printer after an error depends on how far it had unfolded the document when it failed; tests stop at the first error.", "anchors": ["src/pretty_print.rs: UpwardPrinter::next, DownwardPrinter::next, Printer::print_next_line, Printer::print_prev_line, Printer::expand_focusing_first_block, Printer::expand_focusing_last_block"]}
{"id": "C49", "title": "Styles, labels and ids never affect the layout", "statement": "Two documents that differ only in styles (of nodes, or standing behind labels), in the style labels used and in ids are printed alike: if one can be printed at some width then so can the other, as the same number of lines, with the same strings of the same widths in the same places. A focus (Start, End or Mark of a path, or a position in a text) divides the lines at the same place, when ids are unique and no node is displayed twice. More generally, if corresponding styles are related by any relation that combining preserves, then so are the styles of corresponding segments of the output.", "quantifier": "all pairs of well-behaved validated documents that differ only in styles, labels and ids, all widths, paths, root styles, and relations between styles that style combination preserves", "why_tests_cant": "It relates the output for all pairs of documents; a layout decision that looked at a style or an id would only show on the documents where it matters.", "anchors": ["src/consolidated_notation.rs: DelayedConsolidatedNotation::eval, Textual, IndentNode", "src/pretty_print.rs: Printer::fits, Printer::print_next_line", "src/pretty_doc.rs: Style, PrettyDoc::lookup_style, PrettyDoc::id"]}
{"id": "C50", "title": "Parts above each other are laid out independently", "statement": "What `x ^ y` prints is what `x` prints followed by what `y` prints, each as if it were the whole notation of the node, and it can be printed exactly when both can. A node whose notation is one child prints exactly the lines the child prints alone when the parent's style is passed as root style. A node whose notation is Fold{first: Child(0), join: Left ^ Right} prints the lines of its children one after the other, each laid out as if printed alone.", "quantifier": "all notations x and y, nodes, numbers of children, widths and root styles, for well-behaved validated documents", "why_tests_cant": "Layout decisions look ahead over the rest of the line, with the rest of the document in the printer's state; independence of the parts is a statement about all of them.", "anchors": ["src/notation.rs: BitXor for Notation, Notation::Fold, Notation::Child", "src/pretty_print.rs: Printer::fits, Printer::print_next_line", "src/consolidated_notation.rs: DelayedConsolidatedNotation::eval"]}
{"id": "C51", "title": "An indented block is its content in the remaining width", "statement": "What `a + Indent(prefix, label, Newline + x)` prints (`k >> x` being the case of k spaces) is what `a` prints, followed by what `x` prints alone in the width that the prefix leaves, with the prefix (in its style) put before each of these lines; it can be printed exactly when the parts can. (For a prefix no wider than the width, and lines no wider than a u16 can hold.)", "quantifier": "all notations a and x, prefixes, labels, nodes, widths at least as wide as the prefix, and root styles, for well-behaved validated documents", "why_tests_cant": "It says that indentation commutes with every layout decision inside x, at every depth and width.", "anchors": ["src/notation.rs: Notation::Indent, Shr<Notation> for usize", "src/consolidated_notation.rs: IndentNode, DelayedConsolidatedNotation::eval", "src/pretty_print.rs: Printer::fits, Block::new, Printer::print_next_line"]}
{"id": "C52", "title": "If notations show everything exactly once, then every node can be focused", "statement": "Take a document in which every notation, whichever options of its choices and checks are taken, shows each child of its node (or the text, for a text node) exactly once. Whenever such a document can be printed at a width, `pretty_print` at that width accepts the path of every node of the document, with `FocusTarget::Start` and `End`, printing the same lines; it accepts no other path; and `FocusTarget::Text(n)` in a text node puts the focus after the first n characters of its text. JSON documents of the doc_examples are such documents: all their nodes can be focused at every width.", "quantifier": "all well-behaved validated documents with distinct ids whose notations show everything once, all widths, root styles, paths and text positions; all JSON documents", "why_tests_cant": "It relates every layout decision at every width to the set of all paths of every tree.", "anchors": ["src/pretty_print.rs: pretty_print, Printer::seek, seek_text, seek_end", "src/doc_examples/json.rs: JSON_*_NOTATION", "src/notation.rs: Notation"]}
{"id": "C53", "title": "A smaller width changes nothing as long as the lines still fit", "statement": "Suppose every choice of a document obeys the documented requirement (if its first option fits on the current line then its second option does too). If all lines printed by `pretty_print` at width w are at most w' wide, with w' <= w, then printing at width w' gives the very same lines, with the focus in the same place. JSON documents of doc_examples obey the requirement. Without the requirement this is false.", "quantifier": "all well-behaved validated documents whose choices obey the requirement, all pairs of widths, root styles, paths and focus targets; all JSON documents", "why_tests_cant": "It compares the layouts at any two widths of any document; a test compares two.", "anchors": ["src/pretty_print.rs: fits, Printer::choose", "src/notation.rs: Notation::Choice (documented requirement)", "src/doc_examples/json.rs"]}
{"id": "C54", "title": "EndOfLine is respected whenever the second options respect it", "statement": "If the first options of choices (outside Flat) are single lines, and no text comes after an EndOfLine on the same line when every choice takes its second option, then printing never fails with TextAfterEndOfLine, at any width; if moreover the lines of the second options fit in the width, then printing succeeds with no line too wide. (The documentation says printing fails only if it is not possible to avoid text after EndOfLine; that is refuted: the printer does not backtrack.)", "quantifier": "all well-behaved validated documents whose notations match their nodes, all widths and root styles", "why_tests_cant": "It says that no sequence of choices, at any width, leads to the error.", "anchors": ["src/notation.rs: Notation::EndOfLine", "src/pretty_print.rs: fits, Printer::choose, Block::push_text", "src/consolidated_notation.rs: PrintingError::TextAfterEndOfLine"]}
{"id": "C55", "title": "Overflow checks only add panics", "statement": "Compiled with overflow checks (debug), pretty_print and its iterators, pretty_print_to_string, the oracle, display_pane and the Tree constructors return exactly what they return without them (release) and do exactly the same to the window, or panic with an arithmetic overflow: the checks never change a result.", "quantifier": "every document (validated or not, with methods that behave in any way), path, target, width, pane notation and window", "why_tests_cant": "Tests run in one build on a few inputs; this compares the two builds on all inputs.", "anchors": ["src/pretty_print.rs: Block::push_text, Block::new", "src/pane/display_pane.rs: display_pane", "src/pane/divvy.rs: Divvier", "src/oracle.rs: oracular_pretty_print", "src/doc_examples/tree.rs: next_id"]}
{"id": "C56", "title": "The JSON reformatter's output can be read back", "statement": "The program examples/json.rs prints every parsed JSON value at every width (a build with overflow checks prints the same or panics at an overflow). A terminal shows it as one of the ways to write the value, in the colors of its parts, followed by an empty line, on one line if it fits, and the terminal's color is reset afterwards. If no string needs escapes, the text shown is a JSON text (RFC 8259) whose value is the one that was printed, so no two different values are shown alike. Refuted for other strings: characters are written unescaped, so a string with a quote is shown as something that is not JSON, and two different values can be shown alike.", "quantifier": "every JSON value (any nesting, any strings), every width, both builds", "why_tests_cant": "Values, widths and strings are unbounded; reading back needs that the grammar is unambiguous.", "anchors": ["examples/json.rs: json_to_doc, pretty_print_json, lines_to_string, main", "src/doc_examples/json.rs"]}
{"id": "C57", "title": "Peephole laziness: only the shown part of a document has to be there", "statement": "To print k lines above and m lines below a focused node, only the parts of the document that determine these lines are needed. Let any set of nodes be closed: they promise nothing except that their notation, node_style and condition methods return (they, or anything below them, may fail, be inconsistent, or be endless). Lay out the open part, leaving gaps where a closed node makes the layout unknown and going on after the gap at the next newline of the open part. If the focused node can be found in this partial layout and the requested lines around it have no gaps, then pretty_print with these requests succeeds and gives exactly these lines, which are consecutive lines of the full layout of every document with these open nodes. The same for a focus mark and for a position in a text, when the first such mark or text of the focused node is found before any gap. In particular, in a vertical list only the items that are shown must be well-behaved.", "quantifier": "every partly known document, set of closed nodes, width, focus path, focus target (start, end, mark, text position) and numbers of lines above and below", "why_tests_cant": "The closed parts range over all behaviours, including infinite documents and failing methods; so do the notations around them.", "anchors": ["src/pretty_print.rs: pretty_print, Printer::seek, seek_child, seek_mark, seek_text, expand_focusing_first_block, expand_focusing_last_block, print_next_line, print_prev_line, choose, fits", "src/consolidated_notation.rs: DelayedConsolidatedNotation, eval", "src/lib.rs: crate documentation (partial printing)"]}
{"id": "C58", "title": "The work of printing is at most quadratic in the size of the document", "statement": "Printing a window of a document (any number of lines above and below the focus), or the whole document to a string, takes at most 36*(S+2)^2 iterations of the printer's loops, where S is the number of parts of the document's unfolded notation, counting only one of the two options of each Choice. The bound holds at every width, for every path (also paths that do not exist), every focus target, every number of lines, and also when printing stops with an error. If no node displays the same child twice, S is at most the sum of the sizes of the nodes' notations, so nested Choices do not make the work exponential; for JSON, S is at most 23 times the number of nodes. Every finite document has a bound that is independent of width, path, target and number of lines.", "quantifier": "every document, width, focus path, focus target, numbers of lines above and below, and every prefix of the execution", "why_tests_cant": "A test measures one document at one width; the worst case ranges over all combinations of nested choices, positions of newlines, widths and foci.", "anchors": ["src/pretty_print.rs: fits, choose, expand_focusing_first_block, expand_focusing_last_block, print_next_line, print_prev_line, seek, seek_child, seek_end, seek_mark, seek_text, pretty_print, pretty_print_to_string", "src/lib.rs: crate documentation"]}
{"id": "C59", "title": "Only the answers of a document's methods matter, not its representation", "statement": "Take two documents, possibly of different types that implement PrettyDoc with different types of ids, styles, labels, conditions and errors, such that corresponding nodes give corresponding answers when the printer asks them the same question. Then printing any window of them, or printing them to a string, gives the same text with corresponding styles, or corresponding errors, in the same number of steps. In particular renaming ids (keeping equal ids equal and different ids different) changes nothing, and translating styles by a function that respects combining translates the styles of the output and changes nothing else: styles never influence the layout. If some method of the first document refuses to answer, then either that refusal is what is returned, or the output is still that of the second document.", "quantifier": "every pair of implementations of PrettyDoc, every correspondence between their values, every document, width, path, focus target and number of lines", "why_tests_cant": "It compares every pair of implementations, related by any correspondence; tests have a few concrete implementations.", "anchors": ["src/pretty_doc.rs: PrettyDoc, Style", "src/pretty_print.rs: pretty_print, pretty_print_to_string, PrettyPrintError", "src/consolidated_notation.rs: DelayedConsolidatedNotation::eval"]}
{"id": "C60", "title": "Printing a few lines of a large document costs work for what is near, not for what is far", "statement": "If the lines that are asked for are determined by some of the nodes of a document (as in C57), then printing them takes at most quadratically many steps in the size of those nodes (their notations' parts, with one for each unexplored child), whatever the rest of the document contains, and however large or broken it is. In particular, in a document that shows one leaf per line and stacks the children of every node, a leaf with ku lines above it and kd lines below it is printed in work polynomial in ku + kd, the branching and the height of the tree, not the number of lines: polylogarithmic for balanced trees. But the children of a single list are all gone through to show any one of them: a window of a flat list of N lines takes at least 4N - 3 steps, so the claim of the README (50 lines of 100,000 in ~50 units of work) fails for long flat lists.", "quantifier": "every document, path, width, style and number of lines; every height, branching and number of lines of a stacked tree; every length of a list", "why_tests_cant": "It bounds the work over all documents, including all contents of the parts that are never looked at; a benchmark measures a few documents.", "anchors": ["README.md: Peephole-efficient", "src/lib.rs: Peephole-efficient", "src/pretty_print.rs: pretty_print, Printer::seek_child, Printer::expand_focusing_first_block, Printer::expand_focusing_last_block"]}
{"id": "C61", "title": "Evaluating notations takes a bounded number of calls and a bounded stack", "statement": "Evaluating a notation recurses at most 2H calls deep, where H is how many notations are nested in each other (concatenations apart) in the deepest notation of the document, however large the document is and whatever its conditions say, provided that no fold's join can stand for its left side alone; each recursive call makes at most four calls of PrettyDoc methods. So printing makes a bounded number of calls per iteration of its loops (C58), and at most quadratically many calls of PrettyDoc methods in the size of a document that displays no child twice, at every width and with every focus. A fold whose join is the bare left side for some children (to skip them) recurses once per skipped child instead: on a list of N skipped children the recursion is at least 2N - 2 deep.", "quantifier": "every document, width, path, focus target, style and number of lines; every notation that is evaluated on the way", "why_tests_cant": "It bounds the stack and the calls for all documents and notations; a test measures a few. The recursion in the source has no explicit bound.", "anchors": ["src/consolidated_notation.rs: DelayedConsolidatedNotation::eval", "src/pretty_print.rs: Printer, Chunk::new, fits", "src/pretty_doc.rs: PrettyDoc"]}
{"id": "C62", "title": "A pane needs only the lines that it shows", "statement": "A pane that shows a document asks for the focused line, for as many lines above it as there are rows above it in the pane, and for as many below it as there are rows below. If those can be printed, the pane shows them, even if asking for other lines would fail, panic or never end; if printing them fails, the pane fails with that error before it displays anything. So a whole tree of panes is displayed without error if the lines that can be visible in the window can be printed, and it is displayed exactly alike if its documents are exchanged for others that differ only in what is not visible. A document of which only some nodes can be asked (C57) is shown if the visible lines can be known from these nodes.", "quantifier": "every pane notation, window size, document (including infinite and partly broken ones), option, style and rectangle", "why_tests_cant": "It is about all documents that differ out of view, including infinite ones and ones that fail; a test can only exhibit some.", "anchors": ["src/pane/display_pane.rs: display_pane, PrintedDoc::new", "src/pretty_print.rs: pretty_print"]}
{"id": "C63", "title": "The exhaustive test generator is exhaustive", "statement": "For every generator that does not panic and always has something to pick from, the iterator of generate_all_of_size returns exactly one value for each possible sequence of picks, in dictionary order, then ends and stays ended; random generation returns one of these values, and each of them can come up. For the notations of the oracle test it returns every notation of the given size exactly once, and for the trees of its own test every tree with the given number of nodes exactly once. generate_all_up_to_size returns those of all smaller sizes, but (unlike its documentation says) none of the given size itself.", "quantifier": "every generator, every size, every sequence of picks or random numbers", "why_tests_cant": "A test of the generator counts the values for one generator and one size (14 trees of size 5).", "anchors": ["tests/standard/generative_testing.rs: GenAll, generate_all_of_size, generate_all_up_to_size, GenRandom, TreeGenerator", "tests/standard/oracle_tests.rs: NotationGen"]}
{"id": "C64", "title": "The layout that is picked comes first among all layouts that fit", "statement": "A document has one layout for every way of taking the first or the second option of each choice (outside Flat). If every choice obeys the documented requirement (if its first option fits on the current line then so does its second), the printed layout comes before every other layout whose lines all fit in the width and have no text after an EndOfLine: at the first choice where they differ, the printed one takes the first option. If moreover first options are single lines and the layout with all second options fits, then the printed layout fits: it is the first layout that fits. This holds for all JSON documents. (It is not true that some layout that fits is printed whenever there is one: the printer does not look beyond the line; proved by a counterexample.)", "quantifier": "all well-behaved validated documents whose choices obey the requirement, all their layouts (exponentially many), widths, root styles, paths and Start/End/Mark targets; all JSON documents", "why_tests_cant": "The comparison is with every one of the exponentially many layouts, of every document at every width.", "anchors": ["README.md", "src/notation.rs: Notation::Choice", "src/pretty_print.rs: choose, fits", "src/doc_examples/json.rs"]}
{"id": "C65", "title": "PlainText of unbounded height holds the whole document", "statement": "A Vert of documents with Dynamic sizes that ask for their focused line to be on the first row (focus height 0) shows them in full, one below the other, if the window has enough rows: each shows its lines from the focused one on, and each focus that is to be marked is reported where it is. In particular PlainText::new_unbounded_height(w) shows all of it, however long; and for one document focused at its start, none of whose lines is wider than w, its text is exactly the lines that pretty_print_to_string(doc, w) prints, filled up to w columns with spaces. (But a focus height of 1 overflows in a window of unbounded height: it asks for a row that does not exist, and the display panics at an overflow; proved.)", "quantifier": "all documents that print without error (any number of them, any length), in any styles, all widths, all character-width functions, all focus positions", "why_tests_cant": "Depends on the number and length of the lines of arbitrarily many arbitrary documents, on character widths and on f32 arithmetic at the limits of u32.", "anchors": ["src/pane/plain_text.rs: PlainText::new_unbounded_height", "src/pane/display_pane.rs: display_pane_rec, PrintedDoc::new", "src/pane/divvy.rs: Divvier", "src/pane/printing_options.rs: PrintingOptions::choose_focus_line_row", "src/pretty_print.rs: pretty_print_to_string"]}
{"id": "C66", "title": "Everything that is printed comes from the document", "statement": "Every segment that is printed - on the focused line, and on every line that the two iterators ever return, also from calls after an error - is a literal or an indentation of the notation of some node, or the text of a node without children (or, with a focus inside of a text, the part of such a text before or after that position); its width is the width of its string, and its style is a combination, from the outside in, of the root style, the styles of nodes and the styles of labels. So any property of characters that all literals, indentations and texts have (such as: no control characters, ASCII only) is one that all printed characters have, and pretty_print_to_string adds only newlines. Likewise every character a pane writes to a window, also if the display then fails, is a character of a Fill pane, a character of a segment printed from a document of a Doc pane in the style of that pane, or a space; and a focus is reported only by a document whose options ask for it.", "quantifier": "all documents whatever: failing, panicking, with inconsistent methods, infinite, with notations that were never validated; all widths, paths, targets, root styles; all sequences of calls, in both directions; all panes and windows", "why_tests_cant": "Unbounded documents and sequences of calls, every way of failing, every combination of notations; tests can only show that particular characters are not printed for particular documents.", "anchors": ["src/pretty_print.rs: pretty_print, pretty_print_to_string, Printer::print_next_line, Printer::print_prev_line, Block::push_text, Block::print, fits", "src/consolidated_notation.rs: DelayedConsolidatedNotation::eval, Textual::split_at, IndentNode", "src/pane/display_pane.rs: display_pane, PrintedDoc::display, display_line, display_blank_line"]}
{"id": "C67", "title": "The focuses of a document are ordered like its nodes", "statement": "Print one document at one width with different paths and focus targets, and call the number of lines above the focus together with the text to the left of it on its line the place of the focus. Then places are consistently ordered: a node's Start is not after its End; the Start and End of every descendant lie between the Start and End of the node; two nodes neither of which is below the other have ranges that do not overlap (one ends not after the other starts); a node's Mark lies in its range and not strictly inside the range of any of its children; every Text position of a text node lies in its range, and Text(n) is not after Text(m) if n <= m. In particular, if one place is on the same line as a later place, then its left text is a prefix of the later one's left text.", "quantifier": "all documents with valid notations, unique ids and no node displayed twice; all widths and root styles; all pairs of paths and targets accepted by pretty_print; for texts: whose widths are additive", "why_tests_cant": "Relates the results of several runs of the printer, for unboundedly many documents, widths and pairs of nodes; tests compare particular runs with particular expected output.", "anchors": ["src/pretty_print.rs: pretty_print, Printer::seek, Printer::seek_start, Printer::seek_end, Printer::seek_mark, Printer::seek_text, FocusedLine::to_left_string"]}
{"id": "C68", "title": "When nodes are displayed several times, the focus goes to the first display", "statement": "A notation may display a child several times. The first display of the root is the whole layout; the first display of child i of a node is the part of the first display of that node from the first time it enters its child i until that child is left. Then (whether or not nodes are displayed once): FocusTarget::Start puts the focus at the start of the first display of the node at the path, and End at its end; a path is accepted exactly if every step leads to a child shown by the first display of the node before it, and otherwise the error is InvalidPath with the first step that does not; Mark goes to the next mark of that node counted from the start of its first display (MissingFocusMark if there is none from there on); Text goes to the first text of any node displayed from there on (MissingText if none). A node that is displayed, but not by the first display of its parent, is rejected.", "quantifier": "all documents with valid notations and unique ids, however often they display their children; all widths, root styles, paths and focus targets; for texts: whose widths are additive", "why_tests_cant": "Quantifies over unbounded documents that repeat nodes and over paths; the two displays of a node can be laid out differently, depending on widths.", "anchors": ["src/pretty_print.rs: pretty_print, Printer::seek, Printer::seek_child, Printer::seek_start, Printer::seek_end, Printer::seek_mark, Printer::seek_text, PrintingError::InvalidPath"]}
{"id": "C69", "title": "Error messages identify the error", "statement": "The message of every PrintingError and PaneError is a single line; different errors have different messages (provided the document's and window's own errors have distinct messages); messages about a path or child index and a number of children contain these numbers in decimal. Messages of NotationErrors are single lines and identify the flaw. Pos and Size are shown as row:col and height:width and can be told apart. The message of NotationError::CountOneChildIndex (and CountOneCheckPosChildIndex) should name the offending index; it does not: it always says index 0, and no flaw that validate() reports is ever about index 0 (refuted).", "quantifier": "all errors, indices, lengths, positions and sizes; all notations given to validate; all Display implementations of the document's and window's errors", "why_tests_cant": "Quantifies over all errors and numbers and pairs of them.", "anchors": ["src/consolidated_notation.rs: PrintingError", "src/valid_notation.rs: NotationError, CountOneChildIndex, CountOneCheckPosChildIndex, validate", "src/pane/display_pane.rs: PaneError", "src/geometry.rs: Pos, Size"]}
{"id": "C70", "title": "The text of a notation identifies the notation", "statement": "The Display text of two notations is the same exactly if they differ only in how + is grouped and in the style labels of indentations, provided that literals and indentations contain no single quote and that labels and conditions are shown (Debug) as distinct names; with quotes in literals the text is ambiguous. So two documents that differ only in notations with the same text (with unlabelled indentations) are printed as the same lines. Evaluating a notation that has a counterpart among the consolidated notations (Empty, Newline, EndOfLine, FocusMark, Literal, Concat, an undecided Choice, Child(i) with i >= 0) does not change its text; Text is shown as TEXT before and as the quoted text after.", "quantifier": "all pairs of notations of any size, all labels and conditions, all documents", "why_tests_cant": "Unambiguity quantifies over all pairs of notations.", "anchors": ["src/notation.rs: impl fmt::Display for Notation, CheckPos", "src/consolidated_notation.rs: impl fmt::Display for ConsolidatedNotation, DelayedConsolidatedNotation", "src/valid_notation.rs: impl fmt::Display for ValidNotation"]}
{"id": "C71", "title": "Focuses are ordered like the first displays of their nodes", "statement": "Also in documents that display a node several times, focus places are ordered like the tree (this is C67 without its assumption): the range of a node, from its Start focus to its End focus, contains the ranges of its descendants; ranges of nodes that are not below each other are apart; the Mark focus of a node is not before its Start, not inside the range of a child, and, if its first display has a mark of its own, not after its End (otherwise it can be); the same for Text focuses: not before Start, not after End if the first display has a text, and in the order of their character positions.", "quantifier": "all documents with valid notations and unique ids, however often they display their children; all widths, root styles, paths and pairs of focuses; for texts: whose widths are additive", "why_tests_cant": "Quantifies over pairs of focuses of unbounded documents that repeat nodes.", "anchors": ["src/pretty_print.rs: pretty_print, Printer::seek, Printer::seek_child, Printer::seek_start, Printer::seek_end, Printer::seek_mark, Printer::seek_text"]}
{"id": "C72", "title": "The repository's oracle test cannot fail, at any size", "statement": "The test helper assert_pp (compare pretty_print_to_string, and the lines printed with every node in focus at its start and at its end, with the oracle and with the expected lines) passes for every printable document whose notations show each child or text exactly once and match their nodes, with distinct ids, additive widths and nothing so wide that it overflows, if and only if the expected lines are right; and whenever it passes, for whatever document, all these outputs are the same text. So the repository's exhaustive and randomised test oracle_tests (every generated notation that validate accepts, at widths 1 to 8) passes whatever the maximal size (up to 9000) and the random numbers, and counts exactly the accepted and the rejected notations.", "quantifier": "all documents, widths below the oracle's limit of 10000 and expected lines; all generated notations of sizes up to 9000, all sequences of random numbers", "why_tests_cant": "It is a statement about the test: that no larger size, other seed or other document would make it fail.", "anchors": ["tests/standard/pretty_testing.rs: assert_pp_impl, assert_pp, assert_pp_without_expectation, all_paths, print_above_and_below, concat_lines, SimpleDoc", "tests/standard/oracle_tests.rs: oracle_tests, NotationGen", "src/oracle.rs: oracular_pretty_print", "src/pretty_print.rs: pretty_print, pretty_print_to_string"]}
{"id": "C73", "title": "The test helpers for focuses check what they say", "statement": "When the document prints, assert_pp_focus passes exactly when the expected lines are the printed text with '|' at the focus; assert_pp_seek passes exactly when they are the whole text with the first display of the node at the path in parentheses, and panics for a path through a displayed node to a child that it does not show; assert_pp_region with at least two rows passes exactly when they are the focused line with up to rows/2 lines above it and up to rows/2 - 1 below it, never more than rows lines; with fewer than two rows it panics with overflow checks, and without them it takes every line below.", "quantifier": "all printable documents, widths, paths, focus targets, row counts and expected lines; for assert_pp_seek, all documents with a layout and all first displays of nodes in it", "why_tests_cant": "These are the tests: one that passed for a wrong focus would hide the bug it is there to find.", "anchors": ["tests/standard/pretty_testing.rs: assert_pp_seek, assert_pp_focus, assert_pp_region, print_region, print_above_and_below, concat_lines", "src/pretty_print.rs: pretty_print, Line, FocusedLine"]}
{"id": "C74", "title": "Of the texts, only their widths matter for the layout", "statement": "Two documents that differ only in their texts (of nodes, literals, indentation prefixes), where corresponding texts are as long and corresponding pieces as wide, are laid out alike: if one can be printed then so can the other, as the same number of lines with the same number of pieces of the same widths in the same styles, and every focus (also in the middle of a text) is at the same place. In particular, replacing the text of one node by such a text changes nothing in the output but pieces of that text; and replacing characters everywhere by others of the same width replaces them in the output and changes nothing else.", "quantifier": "all pairs of such well-behaved validated documents, all widths, paths, targets and root styles", "why_tests_cant": "It relates the output of all pairs of documents; a layout decision that looked at the characters of a text would only show on the texts where it matters.", "anchors": ["src/pretty_print.rs: fits, Printer::print_next_line, Printer::print_prev_line, seek_text, Block::push_text", "src/consolidated_notation.rs: Textual, DelayedConsolidatedNotation::eval", "src/geometry.rs: str_width"]}
{"id": "C75", "title": "Scrolling only moves the picture", "statement": "A pane that shows a document shows, on each row, one line of the whole document as printed at that width (blank rows above the first and below the last line); the focus decides only which line is on which row. So a line that is visible in two panes of the same width (with whatever focuses, heights and positions in the window) looks the same in both, column by column, character by character, style by style; moving the focus within its line (in particular the cursor within a text) changes nothing but the reported focus; and if the focused line is wanted at the top, making the pane higher keeps the rows it has.", "quantifier": "all well-behaved validated documents with distinct ids, all focus paths and targets (for Text targets: additive widths), styles, focus heights, panes and windows for which the document prints", "why_tests_cant": "It relates all pairs of focuses and panes of all documents; a line that is laid out differently when it is above, below or at the focus would show only at the right scroll position.", "anchors": ["src/pane/display_pane.rs: display_pane_rec, PrintedDoc, display_line", "src/pane/printing_options.rs: PrintingOptions", "src/pretty_print.rs: pretty_print"]}
{"id": "C76", "title": "Panes depend only on the answers of documents and windows", "statement": "Displaying a pane notation depends only on what the methods of its documents and of its window answer. Two pane notations of the same shape, with corresponding styles and labels that stand for documents (of any two types) whose methods give corresponding answers, displayed in windows (of any two types) that answer alike, drive the two windows alike and end in the same result: the same characters at the same positions in corresponding styles, the same focus, corresponding errors at the same call, or the same panic. In particular: translating all styles (of documents, pane notation and root) translates the styles of what is displayed and changes nothing else; no style has any influence on which characters appear where; renaming ids or labels changes nothing.", "quantifier": "all pairs of document types, window types (also those that fail), pane notations, contents and root styles", "why_tests_cant": "It relates all pairs of implementations of the PrettyDoc and PrettyWindow traits; a display that looked at a style, label or id where it should not would only show with particular ones.", "anchors": ["src/pane/display_pane.rs: display_pane, display_pane_rec, PrintedDoc, display_line, display_blank_line", "src/pane/pretty_window.rs: PrettyWindow", "src/pane/pane_notation.rs: PaneNotation, DocLabel", "src/pretty_doc.rs: PrettyDoc, Style"]}
{"id": "C77", "title": "The schedule of threads does not matter for trees", "statement": "Trees can be made by several threads at the same time. If no tree is sent from one thread to another, then how the threads are scheduled has no influence: each thread ends up with the same trees, with the same ids, in every interleaving of the same programs. Whatever the other threads do and send, the id of the next node that a thread makes is the number of nodes it has made since it started (if it does not reset its counter), and all the nodes of a thread that receives nothing (and clones nothing and does not reset the counter) have different ids, so that its documents can be focused. If trees are sent, at most as many nodes have the same id as there are threads that have made enough nodes; a document that combines nodes of two threads may then have two nodes with the same id, and its focus may go to the wrong node (shown by an example).", "quantifier": "all numbers of threads, all programs of the threads (Tree::new_text, new_branch, into_comment, with_style, with_style_override, clone, drop, taking apart, reset_id, sending and receiving trees) and all schedules of their operations", "why_tests_cant": "A test runs one schedule; there are exponentially many interleavings and the tests of the crate run in parallel and expect certain ids.", "anchors": ["src/doc_examples/tree.rs: ID_COUNTER, next_id, Tree::new_text, Tree::new_branch, Tree::reset_id"]}
{"id": "C78", "title": "A focus in a text only cuts one segment in two", "statement": "If a document is printed with the focus in a text (FocusTarget::Text(n), at any path, also when nodes are displayed several times), then the lines are exactly those of the document printed with its focus at the start, with the same segments, except that one segment - the text of some node, with the style it is given there - is cut after its n-th character: its first part (with its own width and the style of the segment) ends the left half of the focused line, the rest starts the right half. In particular the text of the document does not depend on whether the focus is in a text. A document that can be printed from its start fails with another focus only because of that focus (InvalidPath with an index of the path, MissingFocusMark or MissingText); so with overflow checks no focus makes it panic if its lines are narrower than 65536. This requires that the width of each text is the sum of the widths of its parts; unicode-width does not guarantee that for sequences (an emoji with zero-width joiners): when the focus is inside of such a sequence, the lines after it can be laid out differently than without the focus (shown by an example).", "quantifier": "all documents with valid notations and unique ids whose texts have additive widths, all widths, styles, paths and character positions", "why_tests_cant": "Tests compare the text of a few documents; the split has to be right for every position of every text, for any choices after it that depend on the widths of the two parts.", "anchors": ["src/pretty_print.rs: seek_text, pretty_print", "src/consolidated_notation.rs: Textual::split_at", "src/geometry.rs: str_width"]}
{"id": "C79", "title": "Never more lines than fully broken up", "statement": "If the first options of a document's choices are single lines, as the documentation asks for (notation.rs:79-80), then whatever the width, the style and the focus (also in a text), no more lines are printed than there are when every choice takes its second option; for a JSON document: when all its arrays, objects and comments are broken up. (A wider window can still need more lines than a narrower one, even if every choice obeys the documented requirement: refuted by an example.)", "quantifier": "all documents with valid notations whose first options are single lines, all widths, styles, paths and focus targets", "why_tests_cant": "Tests print a few documents at a few widths; the bound must hold for every way in which the choices of a document can turn out.", "anchors": ["src/pretty_print.rs: pretty_print, fits", "src/notation.rs: Notation::Choice", "src/doc_examples/json.rs"]}
