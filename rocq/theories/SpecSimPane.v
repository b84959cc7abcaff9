(** When a pane, displayed in a window, corresponds to another pane in another
    window (C76): documents of two types that behave alike (SpecSim), and windows
    of two types that answer alike. *)
From Verif Require Export SpecSim SpecPane.

Set Implicit Arguments.

Section SpecSimPane.
Context {pd1 pd2 : PrettyDoc}.
Variable T : likeness pd1 pd2.
Context {pw1 : PrettyWindow (@Sty pd1)} {pw2 : PrettyWindow (@Sty pd2)}.

(** Which states of the first window correspond to which states of the second,
    and which errors to which errors. *)
Record window_likeness : Type := WindowLikeness {
  wl_win : @Win _ pw1 -> @Win _ pw2 -> Prop;
  wl_err : @WErr _ pw1 -> @WErr _ pw2 -> Prop }.
Variable W : window_likeness.

(** The same answer, corresponding errors, or both panic. *)
Definition reply_like {A} (x' : mres (@WErr _ pw1) A) (x : mres (@WErr _ pw2) A) : Prop :=
  match x', x with
  | MOk a', MOk a => a' = a
  | MErr e', MErr e => wl_err W e' e
  | MPanic, MPanic => True
  | _, _ => False
  end.

(** Corresponding windows have the same size, and stay corresponding windows when
    the same character is displayed in corresponding styles, and when the focus is
    set. *)
Record windows_alike : Prop := {
  wa_size : forall w' w, wl_win W w' w -> reply_like (w_size w') (w_size w);
  wa_char : forall w' w ch p s' s full, wl_win W w' w -> lk_sty T s' s ->
    wl_win W (fst (w_display_char w' ch p s' full)) (fst (w_display_char w ch p s full)) /\
    reply_like (snd (w_display_char w' ch p s' full)) (snd (w_display_char w ch p s full));
  wa_focus : forall w' w p, wl_win W w' w ->
    wl_win W (fst (w_set_focus w' p)) (fst (w_set_focus w p)) /\
    reply_like (snd (w_set_focus w' p)) (snd (w_set_focus w p)) }.

(** Pane notations of the same shape, with corresponding labels and styles. *)
Section Panes.
Context {L1 L2 : Type}.
Variable RL : L1 -> L2 -> Prop.
Inductive pane_like : pane L1 (@Sty pd1) -> pane L2 (@Sty pd2) -> Prop :=
| like_horz ps' ps : Forall2 (fun x' x => fst x' = fst x /\ pane_like (snd x') (snd x)) ps' ps -> pane_like (Horz ps') (Horz ps)
| like_vert ps' ps : Forall2 (fun x' x => fst x' = fst x /\ pane_like (snd x') (snd x)) ps' ps -> pane_like (Vert ps') (Vert ps)
| like_doc l' l : RL l' l -> pane_like (PDoc l') (PDoc l)
| like_fill ch : pane_like (PFill ch) (PFill ch)
| like_style s' s p' p : lk_sty T s' s -> pane_like p' p -> pane_like (PStyle s' p') (PStyle s p).

(** Corresponding labels stand for corresponding documents, with the same options. *)
Definition contents_like (get' : L1 -> option (@D pd1 * printing_options)) (get : L2 -> option (@D pd2 * printing_options)) : Prop :=
  forall l' l, RL l' l ->
    match get' l', get l with
    | Some (d', o'), Some (d, o) => lk_doc T d' d /\ o' = o
    | None, None => True
    | _, _ => False
    end.
End Panes.

Definition pane_err_like (e' : pane_err (@WErr _ pw1) (@Er pd1)) (e : pane_err (@WErr _ pw2) (@Er pd2)) : Prop :=
  match e', e with
  | InvalidUseOfDynamic, InvalidUseOfDynamic => True
  | PrettyWindowError x', PrettyWindowError x => wl_err W x' x
  | PrintingErr x', PrintingErr x => perr_like T x' x
  | _, _ => False
  end.

(** Two runs, each with the window at its end and its result: corresponding
    windows, and corresponding results (the same value, corresponding errors, or
    the same panic); unless a method of the first document refused to answer. *)
Definition ran_alike {A} (x' : @Win _ pw1 * res (pane_err (@WErr _ pw1) (@Er pd1)) A)
    (x : @Win _ pw2 * res (pane_err (@WErr _ pw2) (@Er pd2)) A) : Prop :=
  (exists e, snd x' = Err (PrintingErr (PrettyDocErr e)) /\ lk_off T e) \/
  (wl_win W (fst x') (fst x) /\
   match snd x', snd x with
   | Ok a', Ok a => a' = a
   | Fail (FErr e'), Fail (FErr e) => pane_err_like e' e
   | Fail (FPanic p'), Fail (FPanic p) => p' = p
   | Fail FFuel, Fail FFuel => True
   | _, _ => False
   end).
End SpecSimPane.
