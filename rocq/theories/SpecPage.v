(** Vocabulary for documents that are shown in full, one below the other (C65). *)
From Verif Require Export SpecPlain SpecProps.

Set Implicit Arguments.

Section Page.
Context {pd : PrettyDoc} {env : Env} {L : Type}.
Variable get_content : L -> option (D * printing_options).

(** What is shown of a document: its lines from the focused line on, and whether
    the focus is marked. *)
Record page : Type := Page {
  pg_focused : focused_line;
  pg_downs : list line;
  pg_marked : bool
}.
Definition page_lines (g : page) : list line :=
  (left_segments (pg_focused g) ++ right_segments (pg_focused g)) :: pg_downs g.

(** The pane [p] is a document (in any number of styles) that prints without
    error in [w] columns, and asks for its focused line to be on the first row. *)
Definition has_page (w : N) (st : Sty) (p : pane L Sty) (g : page) : Prop :=
  exists l st' doc o ups, is_doc p st l st' /\ get_content l = Some (doc, o) /\
    (exists sign, o_focus_height o = S754_zero sign) /\ o_set_focus o = pg_marked g /\
    printed_in doc o w st' ups (pg_focused g) (pg_downs g).

(** The positions of the focuses, if the pages are below each other from [row] on. *)
Fixpoint focuses (row : N) (gs : list page) : list Pane.pos :=
  match gs with
  | [] => []
  | g :: gs' =>
      (if pg_marked g then [Pos row (total (map seg_width (left_segments (pg_focused g))))] else [])
      ++ focuses (row + N.of_nat (length (page_lines g))) gs'
  end.

End Page.

(** The columns that a string takes, and the string filled up with spaces. *)
Definition text_columns {env : Env} (s : str) : N := total (map columns s).
Definition padded {env : Env} (w : N) (s : str) : str := s ++ repeat space (N.to_nat (w - text_columns s)).
