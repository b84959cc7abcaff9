(** Vocabulary for scrolling a document in a pane (C75). *)
From Verif Require Export SpecPane.

Set Implicit Arguments.

Section Scroll.
Context {pd : PrettyDoc} {env : Env}.

(** Line [i] of a document whose lines are [whole]: its characters and their
    styles; nothing before the first line and after the last one. *)
Definition page_line (whole : list line) (i : Z) : list (char * Sty) :=
  if (i <? 0)%Z then [] else styled_chars (nth (Z.to_nat i) whole []).

(** What the calls write on the [i]th row (from the top) of the rectangle [r]:
    column (from the left edge of [r]), character, style, and whether it takes
    two columns. *)
Definition row_picture (r : rectangle) (calls : list (call Sty)) (i : nat) : list (N * char * Sty * bool) :=
  flat_map (fun c =>
    match c with
    | Put ch p st full =>
        if (p_row p =? min_row r + N.of_nat i)%N then [((p_col p - min_col r)%N, ch, st, full)] else []
    | SetFocus _ => []
    end) calls.

(** The line that is shown on the top row of a pane, when [above] lines are above
    the focused line, which is on row [k].  (Negative: the pane starts above the
    first line.) *)
Definition top_line (above : list line) (k : N) : Z := (Z.of_nat (length above) - Z.of_N k)%Z.

End Scroll.
