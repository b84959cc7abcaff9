(** Model of src/notation.rs and src/notation_constructors.rs. *)
From Verif Require Export Base.

Set Implicit Arguments.

(** notation.rs:137-147 [CheckPos]. *)
Inductive checkpos : Type :=
| Here
| CPChild (i : Z)
| LeftChild
| RightChild.

(** notation.rs:28-132 [Notation<L, C>]. *)
Inductive notation (L C : Type) : Type :=
| Empty
| Newline
| EndOfLine
| Literal (s : str)
| Text
| Flat (n : notation L C)
| Indent (prefix : str) (label : option L) (n : notation L C)
| Concat (n1 n2 : notation L C)
| Choice (n1 n2 : notation L C)
| Check (c : C) (pos : checkpos) (n1 n2 : notation L C)
| Child (i : Z)
| Style (label : L) (n : notation L C)
| FocusMark
| Count (zero one many : notation L C)
| Fold (first join : notation L C)
| Left
| Right.

Arguments Empty {L C}.
Arguments Newline {L C}.
Arguments EndOfLine {L C}.
Arguments Literal {L C}.
Arguments Text {L C}.
Arguments Flat {L C}.
Arguments Indent {L C}.
Arguments Concat {L C}.
Arguments Choice {L C}.
Arguments Check {L C}.
Arguments Child {L C}.
Arguments Style {L C}.
Arguments FocusMark {L C}.
Arguments Count {L C}.
Arguments Fold {L C}.
Arguments Left {L C}.
Arguments Right {L C}.

(** notation.rs:151-163 [normalize_child_index].  [isize] is modelled by [Z]:
    the addition at line 154 adds a length to a negative number and cannot
    overflow. *)
Definition normalize_child_index (signed_index : Z) (num_children : nat) : option nat :=
  let len := Z.of_nat num_children in
  let index := (if signed_index <? 0 then signed_index + len else signed_index)%Z in
  if ((index <? 0) || (len <=? index))%Z then None
  else Some (Z.to_nat index).

(** notation.rs:196-239, the operators [+], [|], [^] and [>>]. *)
Definition n_add {L C} (x y : notation L C) : notation L C := Concat x y.
Definition n_or {L C} (x y : notation L C) : notation L C := Choice x y.
Definition n_xor {L C} (x y : notation L C) : notation L C := Concat (Concat x Newline) y.
Definition space : char := 32%N.
Definition n_shr {L C} (w : nat) (x : notation L C) : notation L C :=
  Indent (repeat space w) None (Concat Newline x).
