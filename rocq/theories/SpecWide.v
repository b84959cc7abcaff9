(** Specification for C47: the layout in which every choice takes its second
    option, and documents whose first options have no newline. *)
From Verif Require Export SpecLine.

Set Implicit Arguments.

Section SpecWide.
Context {pd : PrettyDoc}.

(** The layout in which every choice takes its second option.  (Choices inside a
    Flat are not in the tree any more: they have been replaced by their first
    options.) *)
Fixpoint second_events (j : Id) (s : shape) : list event :=
  match s with
  | SFail _ | SEmpty => []
  | SMark => [EMark j]
  | SEol => [EEol]
  | SNewline ind => [ENewline ind]
  | SText t => [EText j t]
  | SConcat a b => second_events j a ++ second_events j b
  | SChoice _ b => second_events j b
  | SChild n (Ok j') s' => EEnter j n :: second_events j' s' ++ [EExit j n]
  | SChild _ (Fail _) _ => []
  end.

(** There is no Newline anywhere in [s]. *)
Fixpoint newline_free (s : shape) : Prop :=
  match s with
  | SNewline _ => False
  | SConcat a b | SChoice a b => newline_free a /\ newline_free b
  | SChild _ _ s' => newline_free s'
  | _ => True
  end.

(** The first option of every choice is a single line. *)
Fixpoint single_line_firsts (s : shape) : Prop :=
  match s with
  | SConcat a b => single_line_firsts a /\ single_line_firsts b
  | SChoice a b => newline_free a /\ single_line_firsts b
  | SChild _ _ s' => single_line_firsts s'
  | _ => True
  end.

End SpecWide.
