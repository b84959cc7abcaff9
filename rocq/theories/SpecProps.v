(** Small definitions used only in the statements of properties. *)
From Verif Require Export SpecPrint SpecFocus SpecElab.

Set Implicit Arguments.

(** Lines joined by single newline characters. *)
Fixpoint join_lines (ls : list str) : str :=
  match ls with
  | [] => []
  | [l] => l
  | l :: ls' => l ++ [10%N] ++ join_lines ls'
  end.

Section SpecProps.
Context {pd : PrettyDoc} {env : Env}.

(** Errors that report a mismatch between a notation and its document. *)
Definition mismatch_error (e : perr Er) : Prop :=
  match e with
  | TextNotationOnTextlessDoc | ChildIndexOutOfBounds _ _ | ChildNotationOnChildlessDoc
  | CheckPosChildIndexOutOfBounds _ _ | CheckPosChildOnChildlessDoc
  | CountNotationOnChildlessDoc | NumChildrenChanged => True
  | _ => False
  end.

(** A node's own text is displayed. *)
Definition text_displayed (es : list event) (q : list nat) : Prop :=
  exists a j t b, es = a ++ EText j t :: b /\ tx_from_text t = true /\ open_path a = q.

(** The column width of a string is the sum of the widths of its pieces. *)
Definition width_additive (s : str) : Prop :=
  forall a b c, s = a ++ b ++ c -> str_width (b ++ c) = (str_width b + str_width c)%N.

(** Exact width of a line. *)
Definition exact_width (l : list segment) : N := fold_right N.add 0%N (map seg_width l).

End SpecProps.
