(** Vocabulary for when displaying a pane succeeds, and for its errors (C44, C45). *)
From Verif Require Export SpecPane.

Set Implicit Arguments.

Section Success.
Context {pd : PrettyDoc} {env : Env} {L : Type}.
Variable get_content : L -> option (D * printing_options).
Notation pane := (pane L Sty).

(** A Doc inside any number of styles. *)
Inductive styled_doc : pane -> Prop :=
| styled_here l : styled_doc (PDoc l)
| styled_more s p : styled_doc p -> styled_doc (PStyle s p).

(** Every Dynamic pane is a (styled) Doc, and where there are Proportional panes
    their weights are not all 0. *)
Definition split_well_made (well_made : pane -> Prop) (ps : list (pane_size * pane)) : Prop :=
  (forall p, In (Dynamic, p) ps -> styled_doc p) /\
  (forall h p, In (Proportional h, p) ps -> (0 < weight_total (map fst ps))%N) /\
  (forall k p, In (k, p) ps -> k <> Dynamic -> well_made p).
Inductive well_made : pane -> Prop :=
| well_made_horz ps : split_well_made well_made ps -> well_made (Horz ps)
| well_made_vert ps : split_well_made well_made ps -> well_made (Vert ps)
| well_made_doc l : well_made (PDoc l)
| well_made_fill ch : well_made (PFill ch)
| well_made_style s p : well_made p -> well_made (PStyle s p).

(** A Dynamic pane that is not a (styled) Doc. *)
Inductive misused : pane -> Prop :=
| misused_horz ps p : In (Dynamic, p) ps -> ~ styled_doc p -> misused (Horz ps)
| misused_vert ps p : In (Dynamic, p) ps -> ~ styled_doc p -> misused (Vert ps)
| misused_in_horz ps k p : In (k, p) ps -> k <> Dynamic -> misused p -> misused (Horz ps)
| misused_in_vert ps k p : In (k, p) ps -> k <> Dynamic -> misused p -> misused (Vert ps)
| misused_in_style s p : misused p -> misused (PStyle s p).

(** A label that occurs in a pane. *)
Inductive label_in (l : L) : pane -> Prop :=
| label_here : label_in l (PDoc l)
| label_horz ps k p : In (k, p) ps -> label_in l p -> label_in l (Horz ps)
| label_vert ps k p : In (k, p) ps -> label_in l p -> label_in l (Vert ps)
| label_style s p : label_in l p -> label_in l (PStyle s p).

(** The document prints without error in every width up to that of the window,
    no line has 2^16 columns or more, and the focus is at a column that is
    still an u16 when the document is displayed at the right of the window. *)
Definition prints_in_window (sz : size) (doc : D) (o : printing_options) : Prop :=
  forall w st, (0 < w <= s_width sz)%N ->
  exists ups fl downs, printed_in doc o w st ups fl downs /\
    Forall (fun l => total (map seg_width l) < U16)%N (ups ++ (left_segments fl ++ right_segments fl) :: downs) /\
    (o_set_focus o = true -> (total (map seg_width (left_segments fl)) + s_width sz < U16)%N).

(** The same of the lines that can be visible in the window: [ku] lines above the
    focused line and [kd] lines below it. *)
Definition prints_visible (sz : size) (doc : D) (o : printing_options) : Prop :=
  forall w st ku kd, (0 < w <= s_width sz)%N -> (N.of_nat (ku + kd) < s_height sz)%N ->
  exists ups fl downs, printed_part doc o w st ku kd ups fl downs /\
    Forall (fun l => total (map seg_width l) < U16)%N (firstn ku ups ++ (left_segments fl ++ right_segments fl) :: firstn kd downs) /\
    (o_set_focus o = true -> (total (map seg_width (left_segments fl)) + s_width sz < U16)%N).

(** Printing the document (for some available width, in some style) fails with [e]: the call, or
    asking for [k] lines above, or for [k] lines below. *)
Definition print_error (fuel : nat) (doc : D) (o : printing_options) (e : perr Er) : Prop :=
  exists w st,
  let call := pretty_print fuel doc (asked_width o w) (o_focus_path o) (o_focus_target o) (Some st) in
  call = Err e \/
  exists up fl down k, call = Ok (up, fl, down) /\
    (take_lines (up_next fuel) k up = Err e \/ take_lines (down_next fuel) k down = Err e).

(** Where an error of display_pane comes from. *)
Inductive error_cause {pw : PrettyWindow Sty} (fuel : nat) (p : pane) : pane_err WErr Er -> Prop :=
| cause_dynamic : misused p -> error_cause fuel p InvalidUseOfDynamic
| cause_size w e : w_size w = MErr e -> error_cause fuel p (PrettyWindowError e)
| cause_char w ch pos st fw w' e : w_display_char w ch pos st fw = (w', MErr e) -> error_cause fuel p (PrettyWindowError e)
| cause_focus w pos w' e : w_set_focus w pos = (w', MErr e) -> error_cause fuel p (PrettyWindowError e)
| cause_printing l doc o e : label_in l p -> get_content l = Some (doc, o) -> print_error fuel doc o e ->
    error_cause fuel p (PrintingErr e).

End Success.
