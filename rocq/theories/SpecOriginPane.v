(** Vocabulary for C66: where what is written to a window comes from. *)
From Verif Require Export SpecOrigin SpecPane.

Set Implicit Arguments.

Section OriginPane.
Context {pd : PrettyDoc} {env : Env} {L : Type}.
Variable get_content : L -> option (D * printing_options).

(** [x] is one of the Fills and Docs that the pane [p] is made of; [st'] is its
    style, if the style of [p] is [st]. *)
Inductive basic_pane : pane L Sty -> Sty -> pane L Sty -> Sty -> Prop :=
| basic_fill ch st : basic_pane (PFill ch) st (PFill ch) st
| basic_doc l st : basic_pane (PDoc l) st (PDoc l) st
| basic_style s p st x st' : basic_pane p (style_combine st s) x st' -> basic_pane (PStyle s p) st x st'
| basic_horz ps size p st x st' : In (size, p) ps -> basic_pane p st x st' -> basic_pane (Horz ps) st x st'
| basic_vert ps size p st x st' : In (size, p) ps -> basic_pane p st x st' -> basic_pane (Vert ps) st x st'.

(** What a Fill or Doc pane may write: its own character or characters, or spaces
    in its style. *)
Definition may_write (x : pane L Sty) (st : Sty) (ch : char) (sty : Sty) (fw : bool) : Prop :=
  match x with
  | PFill c => sty = st /\ (ch = c /\ fw = char_full_width c \/ ch = space /\ fw = false)
  | PDoc l =>
      ch = space /\ sty = st /\ fw = false \/
      exists doc o g, get_content l = Some (doc, o) /\
        from_document doc (o_focus_target o) (Some st) g /\
        In ch (seg_str g) /\ sty = seg_style g /\ fw = char_full_width ch
  | _ => False
  end.

Definition written_by (p : pane L Sty) (st : Sty) (c : call Sty) : Prop :=
  match c with
  | Put ch _ sty fw => exists x st', basic_pane p st x st' /\ may_write x st' ch sty fw
  | SetFocus _ => exists l st' doc o, basic_pane p st (PDoc l) st' /\ get_content l = Some (doc, o) /\ o_set_focus o = true
  end.
End OriginPane.
