{
"C07": {
"note": "The documented property is false of the code: seek_text never compares node ids. C07_refuted exhibits a document on which Text focus lands in another node's text. C07_first_text_from_start states exactly where the focus goes instead."
},
"C02": {
"note": "Needs widths to be additive when the text is split: unicode-width is not always additive."
},
"C26": {
"note": "For documents whose notations match their nodes; C26_unmatched_differs shows why."
},
"C54": {
"note": "The documentation's wording (fails only if avoiding text after EndOfLine is impossible) is refuted: C54_possible_refuted."
},
"C56": {
"note": "Reading back is proved for values whose strings need no escapes; for other strings it is refuted (C56_escape_refuted, C56_same_text_refuted): the code writes strings unescaped."
},
"C60": {
"note": "The README's claim for a document of any shape is refuted by the lower bound C60_flat_list_lower; the upper bounds hold for the open part, and for stacked trees."
},
"C69": {
"note": "The part about NotationError indices is refuted (C69_wrong_index_refuted): the messages always say index 0, which is never the reported index (C69_reported_index)."
},
"C70": {
"note": "Needs quote-free literals: C70_quotes_refuted shows that the text is ambiguous otherwise."
},
"C75": {
"note": "Documents that print completely (C62 covers panes of documents that print only in part); panes of at most 2^24 rows, as in C34."
},
"C76": {
"note": "Proved for every amount of fuel, so also for runs that end in an error or a panic; if a method of the first document refuses to answer (lk_off), nothing is claimed. The DocLabel, D and PrettyWindow types are arbitrary types of the model, so Debug output of labels is not covered."
},
"C77": {
"note": "Operations of a thread are atomic (the counter is thread-local and trees are owned, so nothing is shared); sending and receiving stand for any way to move a tree to another thread. That ids are unique in a document made by several threads is refuted (C77_mixed_refuted); the comment in tree.rs only claims uniqueness within a thread."
},
"C78": {
"note": "For texts with additive widths (`splittable`, as in C02). Without this it is refuted (C78_sequences_refuted: a joined emoji, with the widths of unicode-width 0.1.13 and later)."
}
}