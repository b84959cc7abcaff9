(** Model of src/pane/plain_text.rs. *)
From Verif Require Export Oracle Pane.

Set Implicit Arguments.

(** plain_text.rs:10-21 [PlainText].  [phantom_style] carries no data. *)
Record plain_text : Type := PlainText {
  pt_lines : list (list char);
  pt_size : size;
  pt_focus_points : list pos
}.

(** plain_text.rs:24 [SENTINEL]. *)
Definition SENTINEL : char := 0%N.

(** std: [Vec::resize] and [Vec::resize_with] (called only to make a vector longer). *)
Definition resize {A} (n : nat) (x : A) (l : list A) : list A :=
  firstn n l ++ repeat x (n - length l).

(** std: [v[i] = x], which panics if [i] is out of bounds ([None]). *)
Fixpoint set_index {A} (l : list A) (i : nat) (x : A) : option (list A) :=
  match l, i with
  | [], _ => None
  | _ :: l', O => Some (x :: l')
  | y :: l', S i' => match set_index l' i' x with Some l'' => Some (y :: l'') | None => None end
  end.

(** plain_text.rs:26-38 [Display]. *)
Definition plain_text_string (t : plain_text) : str :=
  flat_map (fun line => flat_map (fun ch => if N.eqb ch SENTINEL then [] else [ch]) line ++ [newline_char]) (pt_lines t).

(** plain_text.rs:42-49 [new]. *)
Definition plain_text_new (width height : N) : plain_text := PlainText [] (Size width height) [].

(** plain_text.rs:52-54 [new_unbounded_height]. *)
Definition plain_text_unbounded (width : N) : plain_text := plain_text_new width (U32 - 1).

(** plain_text.rs:85-92: [line.resize(..)], [line[col] = ch], [line[col + 1] = SENTINEL]. *)
Definition put_in_line (line : list char) (col : nat) (ch : char) (full_width : bool) : option (list char) :=
  let width := if full_width then 2 else 1 in
  let line := if length line <? col + width then resize (col + width) space line else line in
  match set_index line col ch with
  | None => None
  | Some line => if full_width then set_index line (col + 1) SENTINEL else Some line
  end.

(** plain_text.rs:69-94 [display_char].  [row + 1] and [col + 2] are usize and
    cannot overflow ([Row] is u32, [Col] is u16, usize is 64 bits).  An index out
    of bounds is a panic. *)
Definition plain_text_char (t : plain_text) (ch : char) (p : pos) (full_width : bool) : plain_text * mres Empty_set unit :=
  let row := N.to_nat (p_row p) in
  let col := N.to_nat (p_col p) in
  let lines := if length (pt_lines t) <? row + 1 then resize (row + 1) [] (pt_lines t) else pt_lines t in
  match nth_error lines row with
  | None => (t, MPanic)
  | Some line =>
      match put_in_line line col ch full_width with
      | None => (t, MPanic)
      | Some line =>
          match set_index lines row line with
          | None => (t, MPanic)
          | Some lines => (PlainText lines (pt_size t) (pt_focus_points t), MOk tt)
          end
      end
  end.

(** plain_text.rs:96-99 [set_focus]. *)
Definition plain_text_focus (t : plain_text) (p : pos) : plain_text * mres Empty_set unit :=
  (PlainText (pt_lines t) (pt_size t) (pt_focus_points t ++ [p]), MOk tt).

(** plain_text.rs:61-100 [PrettyWindow for PlainText]; [Error = Infallible]. *)
Definition plain_text_window (Sty : Type) : PrettyWindow Sty := {|
  Win := plain_text;
  WErr := Empty_set;
  w_size := fun t => MOk (pt_size t);
  w_display_char := fun t ch p _ fw => plain_text_char t ch p fw;
  w_set_focus := plain_text_focus
|}.
