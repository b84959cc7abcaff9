(** Vocabulary for displaying panes (C31-C37). *)
From Verif Require Export Pane SpecDivvy SpecPrint.
From Verif Require SpecMask.

Set Implicit Arguments.

(** What a window is asked to do. *)
Inductive call (Sty : Type) : Type :=
| Put (ch : char) (p : pos) (st : Sty) (full_width : bool)   (* display_char *)
| SetFocus (p : pos).                                        (* set_focus *)
Arguments Put {Sty}.
Arguments SetFocus {Sty}.

(** A window of size [sz] that records the calls made to it, and never fails. *)
Definition recorder (Sty WE : Type) (sz : size) : PrettyWindow Sty := {|
  Win := list (call Sty);
  WErr := WE;
  w_size := fun _ => MOk sz;
  w_display_char := fun w ch p st fw => (w ++ [Put ch p st fw], MOk tt);
  w_set_focus := fun w p => (w ++ [SetFocus p], MOk tt)
|}.

(** The cells of a window that a call writes to. *)
Definition cells {Sty} (c : call Sty) : list (N * N) :=
  match c with
  | Put _ (Pos row col) _ false => [(row, col)]
  | Put _ (Pos row col) _ true => [(row, col); (row, col + 1)%N]
  | SetFocus _ => []
  end.

Definition in_rect (r : rectangle) (cell : N * N) : Prop :=
  (min_row r <= fst cell < max_row r)%N /\ (min_col r <= snd cell < max_col r)%N.

Section Draw.
Context {pd : PrettyDoc} {env : Env} {L : Type}.
Variable get_content : L -> option (D * printing_options).

(** Perform calls one after the other, stopping at the first one that fails;
    then return [r]. *)
Section Replay.
Context {pw : PrettyWindow Sty}.
Definition perform (c : call Sty) : M unit :=
  match c with Put ch p st fw => put ch p st fw | SetFocus p => focus p end.
Fixpoint replay {A} (cs : list (call Sty)) (r : res (pane_err WErr Er) A) : M A :=
  match cs with
  | [] => pure r
  | c :: cs' => perform c ;;; replay cs' r
  end.
End Replay.

Variables (WE : Type) (sz : size).

(** The calls made by [display_pane] on a window of size [sz], and its result. *)
Definition drawn (fuel : nat) (p : pane L Sty) (st : Sty)
  : list (call Sty) * res (pane_err WE Er) unit :=
  @display_pane pd env (recorder Sty WE sz) L get_content fuel p st [].

(** The calls made to display a subpane in the rectangle [r]. *)
Definition drawn_in (r : rectangle) (fuel : nat) (p : pane L Sty) (st : Sty)
  : list (call Sty) * res (pane_err WE Er) unit :=
  @display_pane_rec pd env (recorder Sty WE sz) L get_content fuel p st r [].

End Draw.

(** No product of a weight and a width or height overflows 64 bits, and no list
    of subpanes has 2^32 elements. *)
Inductive sane {L S : Type} (sz : size) : pane L S -> Prop :=
| sane_horz ps : sane_split sz ps -> sane sz (Horz ps)
| sane_vert ps : sane_split sz ps -> sane sz (Vert ps)
| sane_doc l : sane sz (PDoc l)
| sane_fill ch : sane sz (PFill ch)
| sane_style s p : sane sz p -> sane sz (PStyle s p)
with sane_split {L S : Type} (sz : size) : list (pane_size * pane L S) -> Prop :=
| sane_list ps :
    (weight_total (map fst ps) < USIZE)%N ->
    (N.max (s_width sz) (s_height sz) * weight_total (map fst ps) < USIZE)%N ->
    (N.of_nat (length ps) < U32)%N ->
    (forall k p, In (k, p) ps -> sane sz p) ->
    sane_split sz ps.

(** A window size: u16 and u32, the width leaving room for the position after a
    full-width character. *)
Definition window_size (sz : size) : Prop := (s_width sz + 2 < U16)%N /\ (s_height sz < U32)%N.

(** ** Lines of characters *)
Section Chars.
Context {pd : PrettyDoc} {env : Env}.

(** The characters of a line, each with the style of its segment. *)
Definition styled_chars (l : line) : list (char * Sty) :=
  flat_map (fun s => map (fun ch => (ch, seg_style s)) (seg_str s)) l.

(** The columns taken by a character, and by many. *)
Definition columns (ch : char) : N := if char_full_width ch then 2 else 1.
Definition columns_of (chs : list (char * Sty)) : N := total (map (fun c => columns (fst c)) chs).

(** Characters displayed one after the other from column [col]. *)
Fixpoint place (row col : N) (chs : list (char * Sty)) : list (call Sty) :=
  match chs with
  | [] => []
  | (ch, st) :: chs' =>
      Put ch (Pos row col) st (char_full_width ch) :: place row (col + columns ch) chs'
  end.

(** Blanks from column [a] up to column [b]. *)
Definition blanks (row a b : N) (st : Sty) : list (call Sty) :=
  map (fun col => Put space (Pos row col) st false) (range a b).

(** [shown] is the longest prefix of [chs] that fits in [width] columns. *)
Definition longest_fitting (width : N) (chs shown : list (char * Sty)) : Prop :=
  exists rest, chs = shown ++ rest /\ (columns_of shown <= width)%N /\
    match rest with [] => True | c :: _ => (width < columns_of shown + columns (fst c))%N end.

(** A row of a rectangle that shows the characters [chs] (see C35). *)
Definition row_shows (r : rectangle) (row : N) (chs : list (char * Sty)) (blank : Sty) (cs : list (call Sty)) : Prop :=
  exists shown, longest_fitting (max_col r - min_col r) chs shown /\
    cs = place row (min_col r) shown ++ blanks row (min_col r + columns_of shown) (max_col r) blank.

End Chars.

(** All the cells of a rectangle, row by row. *)
Definition row_cells (r : rectangle) (row : N) : list (N * N) :=
  map (fun col => (row, col)) (range (min_col r) (max_col r)).
Definition rect_cells (r : rectangle) : list (N * N) :=
  flat_map (row_cells r) (range (min_row r) (max_row r)).

(** A sufficient condition for all of a pane to be written: every Horz and Vert
    has a Proportional subpane of positive weight, and every Doc that is not the
    direct subject of a Dynamic size has contents. *)
Inductive filled {L S C : Type} (get_content : L -> option C) : pane L S -> Prop :=
| filled_horz ps : (0 < weight_total (map fst ps))%N ->
    (forall k p, In (k, p) ps -> k <> Dynamic -> filled get_content p) -> filled get_content (Horz ps)
| filled_vert ps : (0 < weight_total (map fst ps))%N ->
    (forall k p, In (k, p) ps -> k <> Dynamic -> filled get_content p) -> filled get_content (Vert ps)
| filled_doc l c : get_content l = Some c -> filled get_content (PDoc l)
| filled_fill ch : filled get_content (PFill ch)
| filled_style s p : filled get_content p -> filled get_content (PStyle s p).

(** A rectangle inside a window of size [sz]. *)
Definition rect_in (sz : size) (r : rectangle) : Prop :=
  (min_row r <= max_row r <= s_height sz)%N /\ (min_col r <= max_col r <= s_width sz)%N.

(** The [i]th part of [r], when it is cut into pieces of the given widths (or
    heights) from left to right (or from top to bottom). *)
Definition column_slice (r : rectangle) (widths : list N) (i : nat) : rectangle :=
  Rectangle (min_row r) (max_row r)
    (min_col r + total (firstn i widths)) (min_col r + total (firstn (S i) widths)).
Definition row_slice (r : rectangle) (heights : list N) (i : nat) : rectangle :=
  Rectangle (min_row r + total (firstn i heights)) (min_row r + total (firstn (S i) heights))
    (min_col r) (max_col r).

(** ** Documents in panes (C34-C37) *)

(** [k] is [(h - 1) * f] rounded to an integer: for every height up to 2^24 the
    row exists and the difference is at most 1, and for heights up to 2^16 it is
    at most 1/2 + 1/512.  (The fraction [f] is [m / 2^a].) *)
Definition rounded_row (h : N) (f : f32) (k : N) : Prop :=
  (k < h)%N /\
  match f with
  | S754_zero _ => k = 0%N
  | S754_finite false m e =>
      let difference := Z.abs (Z.of_N k * 2 ^ (- e) - Z.of_N (h - 1) * Z.pos m) in   (* times 2^a *)
      (difference <= 2 ^ (- e))%Z /\
      ((h <= 65536)%N -> (512 * difference <= 257 * 2 ^ (- e))%Z)
  | _ => False
  end.

(** A focus height that does not violate an assertion: between 0 and 1. *)
Definition height_ok (f : f32) : Prop :=
  is_f32 f /\ f32_le f32_zero f = true /\ f32_le f f32_one = true.

Section Visible.
Context {pd : PrettyDoc} {env : Env}.

(** The line on row [i] (from the top of the pane) of a document whose focused
    line is on row [k]; [[]] where there is no line. *)
Definition line_at (ups : list line) (fl : focused_line) (downs : list line) (k i : nat) : line :=
  if i <? k then nth (k - 1 - i) ups []
  else if i =? k then left_segments fl ++ right_segments fl
  else nth (i - k - 1) downs [].

(** The [k] lines above the focused line, the focused line, and lines below, as
    far as there are lines. *)
Definition visible_lines (ups : list line) (fl : focused_line) (downs : list line) (k h : nat) : list line :=
  rev (firstn k ups) ++ (left_segments fl ++ right_segments fl) :: firstn (h - k - 1) downs.

(** The rectangle [r] shows the characters [chars i] on its [i]th row from the
    top: one list of calls per row. *)
Definition shows_chars (r : rectangle) (chars : nat -> list (char * Sty)) (blank : Sty) (rows : list (list (call Sty))) : Prop :=
  length rows = N.to_nat (max_row r - min_row r) /\
  forall i row, nth_error rows i = Some row -> row_shows r (min_row r + N.of_nat i) (chars i) blank row.

(** ... the line [lines i] on its [i]th row. *)
Definition shows_lines (r : rectangle) (lines : nat -> line) (blank : Sty) (rows : list (list (call Sty))) : Prop :=
  shows_chars r (fun i => styled_chars (lines i)) blank rows.

(** The width that the options ask for, when [w] columns are available. *)
Definition asked_width (o : printing_options) (w : N) : N :=
  match o_width_strategy o with
  | WFull => w
  | WFixed k => k
  | WNoMoreThan k => if (w <? k)%N then w else k
  end.

(** The document prints without error in the way that a pane asks for. *)
Definition printed_in (doc : D) (o : printing_options) (w : N) (st : Sty) : list line -> focused_line -> list line -> Prop :=
  printed doc (asked_width o w) (o_focus_path o) (o_focus_target o) (Some st).

(** The document prints in that way as far as [ku] lines above the focused line
    and [kd] lines below it: these are the first lines of [ups] and [downs].
    What happens when further lines are asked for does not matter. *)
Definition printed_part (doc : D) (o : printing_options) (w : N) (st : Sty) (ku kd : nat)
    (ups : list line) (fl : focused_line) (downs : list line) : Prop :=
  ev (fun n => SpecMask.window n doc (asked_width o w) (o_focus_path o) (o_focus_target o) (Some st) ku kd)
     (Ok (firstn ku ups, fl, firstn kd downs)).

(** What is to be displayed of a document: the line of each row (from the top),
    the style of the blanks, and the position of the focus, if it is to be set. *)
Record content : Type := Content {
  c_lines : nat -> line;
  c_style : Sty;
  c_focus : option pos
}.

(** The position of the focus when the focused line is on row [k]. *)
Definition focus_point (o : printing_options) (k : N) (fl : focused_line) : option pos :=
  if o_set_focus o then Some (Pos k (total (map seg_width (left_segments fl)))) else None.

(** The content is displayed in the rectangle [r] by these calls. *)
Definition content_in (c : content) (r : rectangle) (calls : list (call Sty)) : Prop :=
  exists rows, shows_lines r (c_lines c) (c_style c) rows /\
  match c_focus c with
  | Some p => (min_row r + p_row p < U32)%N /\ (min_col r + p_col p < U16)%N /\
      calls = SetFocus (Pos (min_row r + p_row p) (min_col r + p_col p)) :: concat rows
  | None => calls = concat rows
  end.

Section Contents.
Context {L : Type}.
Variable get_content : L -> option (D * printing_options).

(** The document with label [l], printed for a pane of size [s] in style [st]:
    the lines that are visible, and what is to be displayed. *)
Inductive content_of (l : L) (st : Sty) (s : size) : list line -> content -> Prop :=
| content_missing :
    get_content l = None -> content_of l st s [] (Content (fun _ => []) st None)
| content_no_space d :
    get_content l = Some d -> s_width s = 0%N \/ s_height s = 0%N ->
    content_of l st s [] (Content (fun _ => []) st None)
| content_printed doc o k ups fl downs :
    get_content l = Some (doc, o) -> (0 < s_width s)%N ->
    choose_focus_line_row (X := perr Er) o (s_height s) = Ok k -> (k < s_height s)%N ->
    printed_part doc o (s_width s) st (N.to_nat k) (N.to_nat (s_height s) - N.to_nat k - 1) ups fl downs ->
    (o_set_focus o = true -> (total (map seg_width (left_segments fl)) < U16)%N) ->
    content_of l st s (visible_lines ups fl downs (N.to_nat k) (N.to_nat (s_height s)))
      (Content (line_at ups fl downs (N.to_nat k)) st (focus_point o k fl)).

(** [p] is the Doc [l], inside any number of styles; [st'] is the style it is in. *)
Inductive is_doc : pane L Sty -> Sty -> L -> Sty -> Prop :=
| is_doc_here l st : is_doc (PDoc l) st l st
| is_doc_style s p st l st' : is_doc p (style_combine st s) l st' -> is_doc (PStyle s p) st l st'.

(** The sizes and contents of the Dynamic panes among [ps], in order.  Each is
    printed in the space [av] that the earlier ones have left.  [need av lines]
    is the space given to a document that shows these lines, and [less av n] is
    the space left. *)
Inductive needs (need : size -> list line -> N) (less : size -> N -> size) (st : Sty)
  : list (pane_size * pane L Sty) -> size -> list (N * content) -> Prop :=
| needs_nil av : needs need less st [] av []
| needs_other k p ps av cs : k <> Dynamic ->
    needs need less st ps av cs -> needs need less st ((k, p) :: ps) av cs
| needs_dynamic p ps av l st' lines c cs :
    is_doc p st l st' -> content_of l st' av lines c ->
    Forall (fun l => total (map seg_width l) < U16)%N lines ->
    needs need less st ps (less av (need av lines)) cs ->
    needs need less st ((Dynamic, p) :: ps) av ((need av lines, c) :: cs).

(** In a Horz, a Dynamic pane gets the width of its widest visible line, if there
    is enough space left. *)
Definition widest (av : size) (lines : list line) : N :=
  N.min (fold_right N.max 0%N (map (fun l => total (map seg_width l)) lines)) (s_width av).
Definition less_wide (av : size) (n : N) : size := Size (s_width av - n) (s_height av).
Definition horz_needs := needs widest less_wide.

(** In a Vert, it gets as many rows as there are visible lines. *)
Definition how_many (_ : size) (lines : list line) : N := N.of_nat (length lines).
Definition less_high (av : size) (n : N) : size := Size (s_width av) (s_height av - n).
Definition vert_needs := needs how_many less_high.

(** [parts] are the calls that display the subpanes [ps], each in its slice of the
    rectangle: a Dynamic pane displays its content (the contents are in [ns], in
    order), and any other pane is displayed by the calls that satisfy [shows]. *)
Definition parts_shown (shows : pane L Sty -> rectangle -> list (call Sty) -> Prop)
    (slice : nat -> rectangle) (ps : list (pane_size * pane L Sty)) (ns : list (N * content))
    (parts : list (list (call Sty))) : Prop :=
  length parts = length ps /\
  forall i k p part, nth_error ps i = Some (k, p) -> nth_error parts i = Some part ->
    (k = Dynamic -> exists n c, nth_error ns (dynamic_count (map fst (firstn i ps))) = Some (n, c) /\
       content_in c (slice i) part) /\
    (k <> Dynamic -> shows p (slice i) part).

Notation width_of r := (max_col r - min_col r)%N.
Notation height_of r := (max_row r - min_row r)%N.

(** The meaning of a pane notation: [calls] display the pane [p] with style [st]
    in the rectangle [r].  (Used for panes whose documents print without error.) *)
Inductive pane_shows : pane L Sty -> Sty -> rectangle -> list (call Sty) -> Prop :=
| shows_fill ch st r rows :
    shows_chars r (fun _ => repeat (ch, st) (N.to_nat (width_of r))) st rows ->
    pane_shows (PFill ch) st r (concat rows)
| shows_no_doc l st r : get_content l = None -> pane_shows (PDoc l) st r []
| shows_doc l st r d lines c calls :
    get_content l = Some d -> content_of l st (Size (width_of r) (height_of r)) lines c ->
    content_in c r calls -> pane_shows (PDoc l) st r calls
| shows_style s p st r calls :
    pane_shows p (style_combine st s) r calls -> pane_shows (PStyle s p) st r calls
| shows_horz ps st r ns widths parts :
    horz_needs st ps (Size (after_fixed (width_of r) (map fst ps)) (height_of r)) ns ->
    divvy (X := unit) false (width_of r) (map fst ps) (map fst ns) = Ok widths ->
    parts_shown (fun p => pane_shows p st) (column_slice r widths) ps ns parts ->
    pane_shows (Horz ps) st r (concat parts)
| shows_vert ps st r ns heights parts :
    vert_needs st ps (Size (width_of r) (after_fixed (height_of r) (map fst ps))) ns ->
    divvy (X := unit) false (height_of r) (map fst ps) (map fst ns) = Ok heights ->
    parts_shown (fun p => pane_shows p st) (row_slice r heights) ps ns parts ->
    pane_shows (Vert ps) st r (concat parts).

End Contents.

End Visible.
