(** Vocabulary for PlainText (C38): what a grid of cells looks like after a
    sequence of calls, and the text of that grid. *)
From Verif Require Export PlainText SpecPane.

Set Implicit Arguments.

(** What is in a cell: a character, or the second half of a full-width one. *)
Inductive in_cell : Type := Letter (ch : char) | SecondHalf.

Definition same_cell (a b : N * N) : bool := (N.eqb (fst a) (fst b) && N.eqb (snd a) (snd b))%bool.

(** What a call puts into a cell, if it writes to that cell. *)
Definition puts {Sty} (c : call Sty) (cell : N * N) : option in_cell :=
  match c with
  | Put ch (Pos row col) _ fw =>
      if same_cell cell (row, col) then Some (Letter ch)
      else if (fw && same_cell cell (row, col + 1)%N)%bool then Some SecondHalf
      else None
  | SetFocus _ => None
  end.

(** What is in a cell after the calls: what the last call that wrote to it put there. *)
Definition cell_after {Sty} (calls : list (call Sty)) (cell : N * N) : option in_cell :=
  fold_left (fun before c => match puts c cell with Some x => Some x | None => before end) calls None.

(** The number of rows that reach down to the lowest cell written to. *)
Definition rows_used {Sty} (calls : list (call Sty)) : N :=
  fold_right N.max 0%N (map (fun cell => fst cell + 1)%N (flat_map (@cells Sty) calls)).
(** The number of columns that reach to the rightmost cell written to, in a row. *)
Definition cols_used {Sty} (calls : list (call Sty)) (row : N) : N :=
  fold_right N.max 0%N (map (fun cell => if N.eqb (fst cell) row then snd cell + 1 else 0)%N (flat_map (@cells Sty) calls)).

(** The text of a cell: a gap is a space, and the second half of a character is
    nothing.  (The character U+0000 is not printed either.) *)
Definition cell_text (x : option in_cell) : str :=
  match x with
  | None => [space]
  | Some (Letter ch) => if N.eqb ch 0 then [] else [ch]
  | Some SecondHalf => []
  end.

(** The text of the grid: each row up to its last cell, and a newline. *)
Definition row_text {Sty} (calls : list (call Sty)) (row : N) : str :=
  flat_map (fun col => cell_text (cell_after calls (row, col))) (range 0 (cols_used calls row)).
Definition grid_text {Sty} (calls : list (call Sty)) : str :=
  flat_map (fun row => row_text calls row ++ [newline_char]) (range 0 (rows_used calls)).

(** The positions given to set_focus. *)
Definition focus_positions {Sty} (calls : list (call Sty)) : list pos :=
  flat_map (fun c => match c with SetFocus p => [p] | Put _ _ _ _ => [] end) calls.

(** The text of a row of [w] columns that shows the characters [chs]: the longest
    prefix that fits, and spaces. *)
Definition text_of_row {pd : PrettyDoc} {env : Env} (w : N) (chs : list (char * Sty)) (text : str) : Prop :=
  exists shown, longest_fitting w chs shown /\
    text = filter (fun ch => negb (N.eqb ch 0)) (map fst shown) ++ repeat space (N.to_nat (w - columns_of shown)).
