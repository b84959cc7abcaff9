(** Model of the [Display] implementations: error messages, positions and
    notations. *)
From Verif Require Export BasicStyle Consolidated Valid Pane.
From Coq Require Import String.

Set Implicit Arguments.

Local Open Scope N_scope.

(** std: [Display] for unsigned integers: decimal digits, the last one is [n % 10]. *)
Fixpoint show_digits (fuel : nat) (n : N) : str :=
  match fuel with
  | O => []
  | S f => if n <? 10 then [48 + n] else show_digits f (n / 10) ++ [48 + n mod 10]
  end.
Definition show_N (n : N) : str := show_digits (S (N.size_nat n)) n.
Definition show_nat (n : nat) : str := show_N (N.of_nat n).
(** std: [Display] for signed integers. *)
Definition show_Z (z : Z) : str :=
  match z with
  | Zneg p => 45 :: show_N (Npos p)
  | _ => show_N (Z.to_N z)
  end.

Local Close Scope N_scope.

Section Messages.
Context {E : Type}.
(** The [Display] of the document's own errors. *)
Variable show_error : E -> str.

(** consolidated_notation.rs:191-221, the [#[error]] attributes of [PrintingError]. *)
Definition printing_message (e : perr E) : str :=
  match e with
  | InvalidPath i => chars "Pretty printing path invalid at child index " ++ show_nat i ++ chars "."
  | TextNotationOnTextlessDoc => chars "Notation/doc mismatch: Notation was Text but doc node did not contain text."
  | ChildIndexOutOfBounds index len =>
      chars "Notation/doc mismatch: Notation was Child(" ++ show_Z index ++ chars ") but doc node only had " ++ show_nat len ++ chars " children."
  | ChildNotationOnChildlessDoc => chars "Notation/doc mismatch: Notation was Child but doc node contained text instead."
  | CheckPosChildIndexOutOfBounds index len =>
      chars "Notation/doc mismatch: Notation contained CheckPos::Child(" ++ show_Z index ++ chars ") but doc node only had " ++ show_nat len ++ chars " children."
  | CheckPosChildOnChildlessDoc => chars "Notation/doc mismatch: Notation contained CheckPos::Child(_) but doc node contained text instead."
  | CountNotationOnChildlessDoc => chars "Notation/doc mismatch: Notation was Count but doc node contained text instead of children."
  | NumChildrenChanged => chars "Doc node's num_children() changed between invocations!"
  | TextAfterEndOfLine => chars "Pretty printing encountered a Text or Literal after an EndOfLine."
  | MissingFocusMark => chars "FocusMark not found while focusing."
  | MissingText => chars "Text not found while focusing."
  | PrettyDocErr e => chars "PrettyDoc error: " ++ show_error e
  end.

(** display_pane.rs:11-24, the [#[error]] attributes of [PaneError]. *)
Definition pane_message {W : Type} (show_window_error : W -> str) (e : pane_err W E) : str :=
  match e with
  | InvalidUseOfDynamic => chars "Invalid pane notation: PaneSize::Dyanmic may only be used in a PaneNotation::Doc pane"
  | PrettyWindowError e => chars "PrettyWindow error: " ++ show_window_error e
  | PrintingErr e => chars "PrettyDoc printing error: " ++ printing_message e
  end.
End Messages.

(** valid_notation.rs:10-54, the [#[error]] attributes of [NotationError].  Lines
    34 and 38 format the expression [0] (the field would be [.0] or [{0}]). *)
Definition notation_message (e : notation_error) : str :=
  match e with
  | LeftOutsideJoin => chars "Notation contains a Left outside of Fold.join, but it's only meaningful inside of that."
  | RightOutsideJoin => chars "Notation contains a Right outside of Fold.join, but it's only meaningful inside of that."
  | CheckPosLeftOutsideJoin => chars "Notation contains a CheckPos::LeftChild outside of Fold.join, but it's only meaningful inside of that."
  | CheckPosRightOutsideJoin => chars "Notation contains a CheckPos::RightChild outside of Fold.join, but it's only meaningful inside of that."
  | NestedFold => chars "Notation contains a Fold inside a Fold, but those aren't allowed to be nested."
  | NestedCount => chars "Notation contains a Count inside a Count, but those aren't allowed to be nested."
  | CountZeroChild => chars "Notation contains a Child inside Count.zero, but in this case there are guaranteed to be zero children."
  | CountOneChildIndex _ =>
      chars "Notation contains a Child with index " ++ show_Z 0 ++ chars " inside of Count.one, but in this case there's guaranteed to be only one child."
  | CountZeroCheckPosChild => chars "Notation contains a CheckPos::Child inside Count.zero, but in this case there are guaranteed to be zero children."
  | CountOneCheckPosChildIndex _ =>
      chars "Notation contains a CheckPos::Child with index " ++ show_Z 0 ++ chars " inside of Count.one, but in this case there's guaranteed to be only one child."
  | TextInsideCount => chars "Notation contains a Text inside a Count, but a node can't have both text and children."
  | TextInsideFold => chars "Notation contains a Text inside a Fold, but a node can't have both text and children."
  | TextAfterEol => chars "Notation contains Text or Literal after an EndOfLine, which would cause a printing error."
  | MultipleFocusMarks => chars "Notation contains multiple FocusMarks, but only the first one would ever be used."
  end.

(** geometry.rs:99-109 [Display] for [Pos] and [Size]. *)
Definition show_pos (p : pos) : str := show_N (p_row p) ++ chars ":" ++ show_N (p_col p).
Definition show_size (s : size) : str := show_N (s_height s) ++ chars ":" ++ show_N (s_width s).

Section ShowNotation.
Context {L C : Type}.
(** The [Debug] of the labels and of the conditions. *)
Variables (dbg_l : L -> str) (dbg_c : C -> str).

(** notation.rs:136-147 derived [Debug] for [CheckPos]. *)
Definition debug_checkpos (p : checkpos) : str :=
  match p with
  | Here => chars "Here"
  | CPChild i => chars "Child(" ++ show_Z i ++ chars ")"
  | LeftChild => chars "LeftChild"
  | RightChild => chars "RightChild"
  end.

(** notation.rs:166-194 [Display] for [Notation]; valid_notation.rs:267-271 is the
    same for [ValidNotation].  949, 8629 and 8658 are the code points of the
    epsilon and of the two arrows, 39 is the single quote. *)
Fixpoint show_notation (n : notation L C) : str :=
  match n with
  | Empty => [949%N]
  | Newline => [8629%N]
  | EndOfLine => chars "EOL"
  | FocusMark => chars "MARK"
  | Text => chars "TEXT"
  | Literal s => chars "'" ++ s ++ chars "'"
  | Flat m => chars "Flat(" ++ show_notation m ++ chars ")"
  | Indent s _ m => chars "'" ++ s ++ chars "'" ++ [8658%N] ++ chars "(" ++ show_notation m ++ chars ")"
  | Concat a b => show_notation a ++ chars " + " ++ show_notation b
  | Choice a b => chars "(" ++ show_notation a ++ chars " | " ++ show_notation b ++ chars ")"
  | Check c p a b =>
      chars "(" ++ dbg_c c ++ chars "@" ++ debug_checkpos p ++ chars " ? " ++ show_notation a ++ chars " | " ++ show_notation b ++ chars ")"
  | Child i => chars "$" ++ show_Z i
  | Style l m => chars "Style(" ++ dbg_l l ++ chars ", " ++ show_notation m ++ chars ")"
  | Count z o m =>
      chars "Count(zero=" ++ show_notation z ++ chars ", one=" ++ show_notation o ++ chars ", many=" ++ show_notation m ++ chars ")"
  | Fold f j => chars "Fold(first=" ++ show_notation f ++ chars ", join=" ++ show_notation j ++ chars ")"
  | Left => chars "$Left"
  | Right => chars "$Right"
  end.
End ShowNotation.

Section ShowConsolidated.
Context {pd : PrettyDoc}.
Variables (dbg_l : Lbl -> str) (dbg_c : Cnd -> str).

(** consolidated_notation.rs:461-465 [Display] for [DelayedConsolidatedNotation]. *)
Definition show_delayed (d : delayed) : str := show_notation dbg_l dbg_c (dl_note d).

(** consolidated_notation.rs:444-459 [Display] for [ConsolidatedNotation]. *)
Definition show_consolidated (c : cnote) : str :=
  match c with
  | CEmpty => [949%N]
  | CEndOfLine => chars "EOL"
  | CFocusMark => chars "MARK"
  | CNewline _ => [8629%N]
  | CTextual t => chars "'" ++ tx_str t ++ chars "'"
  | CConcat a b => show_delayed a ++ chars " + " ++ show_delayed b
  | CChoice a b => chars "(" ++ show_delayed a ++ chars " | " ++ show_delayed b ++ chars ")"
  | CChild i _ => chars "$" ++ show_nat i
  end.
End ShowConsolidated.
