(** The text of a layout (C73). *)
From Verif Require Export SpecLayout SpecProps.

Set Implicit Arguments.

Section SpecHarness.
Context {pd : PrettyDoc} {env : Env}.

(** The text of a layout, or of a part of it: texts, and newlines with the
    indentation after them. *)
Fixpoint trace_text (es : list event) : str :=
  match es with
  | [] => []
  | EText _ t :: es' => tx_str t ++ trace_text es'
  | ENewline ind :: es' => [10%N] ++ concat (map seg_str (rev ind)) ++ trace_text es'
  | _ :: es' => trace_text es'
  end.

End SpecHarness.
