(** Vocabulary for C66: where the strings and the styles of printed segments come
    from.  Nothing is assumed about the document: its methods may fail, panic, or
    be inconsistent, and it may be infinite. *)
From Verif Require Export SpecDoc Printer.

Set Implicit Arguments.

(** The notation [a] is [n] or a part of it. *)
Inductive inside {L C} (a : notation L C) : notation L C -> Prop :=
| inside_itself : inside a a
| inside_flat x : inside a x -> inside a (Flat x)
| inside_indent p l x : inside a x -> inside a (Indent p l x)
| inside_left x y : inside a x -> inside a (Concat x y)
| inside_right x y : inside a y -> inside a (Concat x y)
| inside_first x y : inside a x -> inside a (Choice x y)
| inside_second x y : inside a y -> inside a (Choice x y)
| inside_then c p x y : inside a x -> inside a (Check c p x y)
| inside_else c p x y : inside a y -> inside a (Check c p x y)
| inside_style l x : inside a x -> inside a (Style l x)
| inside_zero x y z : inside a x -> inside a (Count x y z)
| inside_one x y z : inside a y -> inside a (Count x y z)
| inside_many x y z : inside a z -> inside a (Count x y z)
| inside_fold_first x y : inside a x -> inside a (Fold x y)
| inside_fold_join x y : inside a y -> inside a (Fold x y).

Section Origin.
Context {pd : PrettyDoc} {env : Env}.
Variable doc : D.

(** [s] is written in the notation of some node: a literal or an indentation. *)
Definition in_notation (s : str) : Prop :=
  exists x n, reachable doc x /\ m_notation x = MOk n /\
    (inside (Literal s) n \/ exists l y, inside (Indent s l y) n).

(** [s] is the text of some node (that has no children). *)
Definition in_text (s : str) : Prop :=
  exists x, reachable doc x /\ m_num_children x = MOk None /\ m_unwrap_text x = MOk s.

(** [st] is a style that the node [x] can have: the styles of nodes and of labels,
    combined from the outside in, starting from the root style. *)
Inductive has_style (root : option Sty) : D -> Sty -> Prop :=
| style_root s : m_node_style doc = MOk s ->
    has_style root doc (match root with Some st => style_combine st s | None => s end)
| style_label x st l s : has_style root x st -> m_lookup_style x l = MOk s -> has_style root x (style_combine st s)
| style_child x st y s : has_style root x st -> reachable doc y -> m_node_style y = MOk s -> has_style root y (style_combine st s).

(** Where the string of a segment comes from.  A focus inside of a text splits it. *)
Definition origin (ft : focus_target) (s : str) : Prop :=
  in_notation s \/ in_text s \/
  exists k t, ft = FText k /\ in_text t /\ (s = firstn k t \/ s = skipn k t).

Record from_document (ft : focus_target) (root : option Sty) (g : segment) : Prop := FromDocument {
  from_width : seg_width g = str_width (seg_str g);
  from_string : origin ft (seg_str g);
  from_style : exists x, has_style root x (seg_style g)
}.

End Origin.
