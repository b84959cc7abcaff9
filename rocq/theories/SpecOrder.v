(** Vocabulary for C67: comparing the places of two focuses in the same printed
    document. *)
From Verif Require Export SpecPrint.

Set Implicit Arguments.

Section SpecOrder.
Context {pd : PrettyDoc}.

(** The place of a focus: how many lines are above it, and the text to the left of it
    on its line ([FocusedLine::to_left_string]). *)
Definition spot (ups : list line) (fl : focused_line) : nat * str :=
  (length ups, segs_to_string (left_segments fl)).

(** [p] is before [q], or the same place. *)
Definition not_after (p q : nat * str) : Prop :=
  fst p < fst q \/ (fst p = fst q /\ exists more, snd q = snd p ++ more).

End SpecOrder.
