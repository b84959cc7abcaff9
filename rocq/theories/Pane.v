(** Model of src/pane/ (display_pane.rs, pane_notation.rs, pretty_window.rs,
    printing_options.rs) and of the rectangles of src/geometry.rs. *)
From Verif Require Export Divvy F32 Printer.

Set Implicit Arguments.

(** ** src/geometry.rs *)

(** geometry.rs:4-17: [Row] and [Height] are u32, [Col] and [Width] are u16. *)

(** geometry.rs:22-27 [Pos]. *)
Record pos : Type := Pos { p_row : N; p_col : N }.

(** geometry.rs:30-34 [Size]. *)
Record size : Type := Size { s_width : N; s_height : N }.

(** geometry.rs:38-44 [Rectangle]. *)
Record rectangle : Type := Rectangle { min_row : N; max_row : N; min_col : N; max_col : N }.

(** geometry.rs:52-59 [Rectangle::from_size]. *)
Definition rect_from_size (s : size) : rectangle := Rectangle 0 (s_height s) 0 (s_width s).

(** ** src/pane/pane_notation.rs *)

(** pane_notation.rs:9-27 [PaneNotation].  [L]: the type of document labels. *)
Inductive pane (L S : Type) : Type :=
| Horz (panes : list (pane_size * pane L S))
| Vert (panes : list (pane_size * pane L S))
| PDoc (label : L)
| PFill (ch : char)
| PStyle (style : S) (p : pane L S).
Arguments Horz {L S}.
Arguments Vert {L S}.
Arguments PDoc {L S}.
Arguments PFill {L S}.
Arguments PStyle {L S}.

(** ** src/pane/pretty_window.rs *)

(** pretty_window.rs:12-37 [PrettyWindow].  The methods take the window by
    [&mut self]: they return the window as it is afterwards, also when they fail. *)
Class PrettyWindow (Sty : Type) : Type := {
  Win : Type;
  WErr : Type;
  w_size : Win -> mres WErr size;
  w_display_char : Win -> char -> pos -> Sty -> bool -> Win * mres WErr unit;
  w_set_focus : Win -> pos -> Win * mres WErr unit
}.

(** ** src/pane/printing_options.rs *)

(** printing_options.rs:26-34 [WidthStrategy]. *)
Inductive width_strategy : Type :=
| WFull | WFixed (w : N) | WNoMoreThan (w : N).

(** printing_options.rs:8-22 [PrintingOptions]. *)
Record printing_options : Type := PrintingOptions {
  o_focus_path : list nat;
  o_focus_target : focus_target;
  o_focus_height : f32;
  o_width_strategy : width_strategy;
  o_set_focus : bool
}.

(** printing_options.rs:44-50 [choose_width]. *)
Definition choose_width (o : printing_options) (available : N) : N :=
  match o_width_strategy o with
  | WFull => available
  | WFixed w => w
  | WNoMoreThan w => N.min w available
  end.

(** display_pane.rs:12-23 [PaneError]. *)
Inductive pane_err (W E : Type) : Type :=
| InvalidUseOfDynamic
| PrettyWindowError (e : W)
| PrintingErr (e : perr E).
Arguments InvalidUseOfDynamic {W E}.
Arguments PrettyWindowError {W E}.
Arguments PrintingErr {W E}.

Section Pane.
Context {pd : PrettyDoc} {env : Env} {pw : PrettyWindow Sty}.

Definition add32 {X} := @addM X U32 ovf.
Definition sub32 {X} := @subM X U32 ovf.
Definition sub16 {X} := @subM X U16 ovf.

(** geometry.rs:61-63, 65-67, 69-74 [width], [height], [size]. *)
Definition rect_width {X} (r : rectangle) : res X N := sub16 (max_col r) (min_col r).
Definition rect_height {X} (r : rectangle) : res X N := sub32 (max_row r) (min_row r).
Definition rect_size {X} (r : rectangle) : res X size :=
  h <- rect_height r ;; w <- rect_width r ;; Ok (Size w h).

(** printing_options.rs:37-41 [choose_focus_line_row]. *)
Definition choose_focus_line_row {X} (o : printing_options) (pane_height : N) : res X N :=
  if f32_le f32_zero (o_focus_height o) then
    if f32_le (o_focus_height o) f32_one then
      h <- sub32 pane_height 1 ;;
      Ok (f32_round_to_u32 (f32_mul (f32_of_uint h) (o_focus_height o)))
    else Panic PAssert
  else Panic PAssert.

(** ** Computations with a window

    What [fn f(window: &mut W, ..) -> Result<A, PaneError>] does: the window is
    changed even if an error is returned. *)
Notation perr' := (pane_err WErr Er).
Definition M (A : Type) : Type := Win -> Win * res perr' A.

Definition ret {A} (a : A) : M A := fun w => (w, Ok a).
Definition fail {A} (f : failure perr') : M A := fun w => (w, Fail f).
Definition mbind {A B} (m : M A) (k : A -> M B) : M B :=
  fun w => let '(w, r) := m w in match r with Ok a => k a w | Fail f => (w, Fail f) end.

(** A pure computation that can only panic. *)
Definition pure {A} (r : res perr' A) : M A := fun w => (w, r).

(** [?] on a [PrintingError] (display_pane.rs:21-22 [#[from]]). *)
Definition from_printing {A} (r : pres A) : M A := fun w =>
  (w, match r with
      | Ok a => Ok a
      | Fail (FErr e) => Err (PrintingErr e)
      | Fail (FPanic p) => Panic p
      | Fail FFuel => OutOfFuel
      end).

(** [.map_err(PaneError::PrettyWindowError)?]. *)
Definition from_window {A} (m : mres WErr A) : res perr' A :=
  match m with
  | MOk a => Ok a
  | MErr e => Err (PrettyWindowError e)
  | MPanic => Panic PMethod
  end.

Definition put (ch : char) (p : pos) (st : Sty) (fw : bool) : M unit :=
  fun w => let '(w, r) := w_display_char w ch p st fw in (w, from_window r).
Definition focus (p : pos) : M unit :=
  fun w => let '(w, r) := w_set_focus w p in (w, from_window r).

Notation "x <-- a ;;; b" := (mbind a (fun x => b)) (at level 61, a at next level, right associativity).
Notation "a ;;; b" := (mbind a (fun _ => b)) (at level 61, right associativity).

(** A [for] loop. *)
Fixpoint forM {A} (l : list A) (body : A -> M unit) : M unit :=
  match l with
  | [] => ret tt
  | x :: l' => body x ;;; forM l' body
  end.

(** A [while] loop, with fuel. *)
Fixpoint mloop {S R} (fuel : nat) (body : S -> M (step S R)) (s : S) : M R :=
  match fuel with
  | O => fail FFuel
  | Datatypes.S fuel' =>
      x <-- body s ;;;
      match x with
      | Next s' => mloop fuel' body s'
      | Done r => ret r
      end
  end.

(** ** src/pane/display_pane.rs *)

(** display_pane.rs:63 and 410: [if is_full_width { 2 } else { 1 }]. *)
Definition char_width (fw : bool) : N := if fw then 2 else 1.

(** display_pane.rs:67-72, one iteration of the [while] loop of [Fill]. *)
Definition fill_body (ch : char) (st : Sty) (r : rectangle) (row : N) (col : N) : M (step N N) :=
  let fw := char_full_width ch in
  next <-- pure (add16 ovf col (char_width fw)) ;;;
  if (next <=? max_col r)%N then
    put ch (Pos row col) st fw ;;;
    next <-- pure (add16 ovf col (char_width fw)) ;;;
    ret (Next next)
  else ret (Done col).

(** display_pane.rs:65-78, the body of the [for] loop of [Fill]. *)
Definition fill_row (fuel : nat) (ch : char) (st : Sty) (r : rectangle) (row : N) : M unit :=
  col <-- mloop fuel (fill_body ch st r row) (min_col r) ;;;
  if (col <? max_col r)%N then put space (Pos row col) st false else ret tt.

(** display_pane.rs:61-79, [PaneNotation::Fill]. *)
Definition display_fill (fuel : nat) (ch : char) (st : Sty) (r : rectangle) : M unit :=
  forM (range (min_row r) (max_row r)) (fill_row fuel ch st r).

(** display_pane.rs:356-381 [display_blank_line]. *)
Definition display_blank_line (relative_row : N) (r : rectangle) (blank : Sty) : M unit :=
  row <-- pure (add32 (min_row r) relative_row) ;;;
  if (max_row r <=? row)%N then ret tt
  else forM (range (min_col r) (max_col r)) (fun col => put space (Pos row col) blank false).

(** display_pane.rs:408-418, the inner [for] loop over the characters of a
    segment.  Returns the column, and whether it broke out of both loops. *)
Fixpoint display_chars (r : rectangle) (row : N) (st : Sty) (chs : str) (col : N) : M (N * bool) :=
  match chs with
  | [] => ret (col, false)
  | ch :: chs' =>
      let fw := char_full_width ch in
      next <-- pure (add16 ovf col (char_width fw)) ;;;
      if (max_col r <? next)%N then ret (col, true)
      else
        put ch (Pos row col) st fw ;;;
        next <-- pure (add16 ovf col (char_width fw)) ;;;
        display_chars r row st chs' next
  end.

(** display_pane.rs:407-419, the outer [for] loop over the segments. *)
Fixpoint display_segments (r : rectangle) (row : N) (segs : list segment) (col : N) : M N :=
  match segs with
  | [] => ret col
  | s :: segs' =>
      x <-- display_chars r row (seg_style s) (seg_str s) col ;;;
      match x with
      | (col, true) => ret col
      | (col, false) => display_segments r row segs' col
      end
  end.

(** display_pane.rs:420-425, one iteration of the last [while] loop. *)
Definition pad_body (r : rectangle) (row : N) (blank : Sty) (col : N) : M (step N unit) :=
  if (col <? max_col r)%N then
    put space (Pos row col) blank false ;;;
    next <-- pure (add16 ovf col 1%N) ;;;
    ret (Next next)
  else ret (Done tt).

(** display_pane.rs:386-427 [display_line]. *)
Definition display_line (fuel : nat) (l : line) (relative_row : N) (r : rectangle) (blank : Sty) : M unit :=
  row <-- pure (add32 (min_row r) relative_row) ;;;
  if (max_row r <=? row)%N then ret tt
  else
    col <-- display_segments r row l (min_col r) ;;;
    mloop fuel (pad_body r row blank) col.

(** display_pane.rs:228-238 [PrintedDoc]. *)
Record printed_doc : Type := PrintedDoc {
  pd_lines : list line;
  pd_focus_line_index : nat;
  pd_focus_line_row : N;
  pd_focus_point : option pos;
  pd_blank_style : Sty
}.

(** display_pane.rs:242-250 [PrintedDoc::new_empty]. *)
Definition printed_doc_empty (st : Sty) : printed_doc := PrintedDoc [] 0 0 None st.

(** display_pane.rs:284-288 and 292-296: call [next] [k] times, and keep the
    lines it returns. *)
Fixpoint take_lines (next : printer -> pres (printer * option line)) (k : nat) (p : printer)
  : pres (printer * list line) :=
  match k with
  | O => Ok (p, [])
  | S k' =>
      '(p, ol) <- next p ;;
      '(p, ls) <- take_lines next k' p ;;
      Ok (p, match ol with Some l => l :: ls | None => ls end)
  end.

(** display_pane.rs:254-305 [PrintedDoc::new]. *)
Definition printed_doc_new (fuel : nat) (doc : D) (o : printing_options) (s : size) (root_style : Sty)
  : pres printed_doc :=
  if ((s_height s =? 0) || (s_width s =? 0))%N then Ok (printed_doc_empty root_style)
  else
    let printing_width := choose_width o (s_width s) in
    row <- choose_focus_line_row o (s_height s) ;;
    '(up, fl, down) <- pretty_print fuel doc printing_width (o_focus_path o) (o_focus_target o) (Some root_style) ;;
    fp <- (if o_set_focus o then col <- left_width fl ;; Ok (Some (Pos row col)) else Ok None) ;;
    '(_, above) <- take_lines (up_next fuel) (N.to_nat row) up ;;
    next_row <- add32 row 1%N ;;
    '(_, below) <- take_lines (down_next fuel) (N.to_nat (s_height s - next_row)) down ;;
    Ok (PrintedDoc (rev above ++ focused_to_line fl :: below) (length above) row fp root_style).

(** display_pane.rs:308-310 [PrintedDoc::height]. *)
Definition printed_doc_height (p : printed_doc) : N := castM U32 (N.of_nat (length (pd_lines p))).

(** display_pane.rs:313-319 [PrintedDoc::width]. *)
Definition printed_doc_width (p : printed_doc) : pres N :=
  ws <- mapM line_width (pd_lines p) ;;
  Ok (fold_right N.max 0%N ws).

(** display_pane.rs:342-349, the body of the [for] loop of [PrintedDoc::display]. *)
Definition display_row (fuel : nat) (p : printed_doc) (r : rectangle) (first_row last_row row : N) : M unit :=
  if ((first_row <=? row) && (row <? last_row))%N then
    match nth_error (pd_lines p) (N.to_nat (row - first_row)) with
    | Some l => display_line fuel l row r (pd_blank_style p)
    | None => fail (FPanic PIndex)
    end
  else display_blank_line row r (pd_blank_style p).

(** display_pane.rs:322-351 [PrintedDoc::display]. *)
Definition display_doc (fuel : nat) (p : printed_doc) (r : rectangle) : M unit :=
  (match pd_focus_point p with
   | Some fp =>
       row <-- pure (add32 (p_row fp) (min_row r)) ;;;
       col <-- pure (add16 ovf (p_col fp) (min_col r)) ;;;
       focus (Pos row col)
   | None => ret tt
   end) ;;;
  first_row <-- pure (sub32 (pd_focus_line_row p) (castM U32 (N.of_nat (pd_focus_line_index p)))) ;;;
  last_row <-- pure (add32 first_row (castM U32 (N.of_nat (length (pd_lines p))))) ;;;
  s <-- pure (rect_size r) ;;;
  forM (range 0 (s_height s)) (display_row fuel p r first_row last_row).

Section Content.
Context {L : Type}.
Variable get_content : L -> option (D * printing_options).
Notation pane := (pane L Sty).

(** display_pane.rs:202-226 [extract_doc]. *)
Fixpoint extract_doc (p : pane) (st : Sty) : res perr' (L * Sty) :=
  match p with
  | PStyle inner_style q => extract_doc q (style_combine st inner_style)
  | PDoc l => Ok (l, st)
  | _ => Err InvalidUseOfDynamic
  end.

(** display_pane.rs:111-115 and 163-167: the contents of a dynamic pane. *)
Definition dynamic_doc (fuel : nat) (l : L) (available : size) (st : Sty) : M printed_doc :=
  match get_content l with
  | Some (doc, o) => from_printing (printed_doc_new fuel doc o available st)
  | None => ret (printed_doc_empty st)
  end.

(** display_pane.rs:105-121, the [for] loop of [Horz] over the dynamic panes.
    Returns the widths and the printed documents. *)
Fixpoint horz_dynamic (fuel : nat) (st : Sty) (panes : list (pane_size * pane)) (available : size)
  : M (list N * list printed_doc) :=
  match panes with
  | [] => ret ([], [])
  | (Dynamic, child) :: panes' =>
      x <-- pure (extract_doc child st) ;;;
      p <-- dynamic_doc fuel (fst x) available (snd x) ;;;
      w <-- from_printing (printed_doc_width p) ;;;
      let width := N.min w (s_width available) in
      rest <-- pure (sub16 (s_width available) width) ;;;
      y <-- horz_dynamic fuel st panes' (Size rest (s_height available)) ;;;
      ret (width :: fst y, p :: snd y)
  | _ :: panes' => horz_dynamic fuel st panes' available
  end.

(** display_pane.rs:157-173, the [for] loop of [Vert] over the dynamic panes. *)
Fixpoint vert_dynamic (fuel : nat) (st : Sty) (panes : list (pane_size * pane)) (available : size)
  : M (list N * list printed_doc) :=
  match panes with
  | [] => ret ([], [])
  | (Dynamic, child) :: panes' =>
      x <-- pure (extract_doc child st) ;;;
      p <-- dynamic_doc fuel (fst x) available (snd x) ;;;
      let height := printed_doc_height p in
      rest <-- pure (sub32 (s_height available) height) ;;;
      y <-- vert_dynamic fuel st panes' (Size (s_width available) rest) ;;;
      ret (height :: fst y, p :: snd y)
  | _ :: panes' => vert_dynamic fuel st panes' available
  end.

(** display_pane.rs:46-199 [display_pane_rec]. *)
Fixpoint display_pane_rec (fuel : nat) (p : pane) (st : Sty) (r : rectangle) {struct p} : M unit :=
  match p with
  | PFill ch => display_fill fuel ch st r
  | PDoc label =>
      match get_content label with
      | Some (doc, o) =>
          s <-- pure (rect_size r) ;;;
          x <-- from_printing (printed_doc_new fuel doc o s st) ;;;
          display_doc fuel x r
      | None => ret tt
      end
  | PStyle inner_style q => display_pane_rec fuel q (style_combine st inner_style) r
  | Horz panes =>
      w <-- pure (rect_width r) ;;;
      let divvier := divvier_new w (map fst panes) in
      h <-- pure (rect_height r) ;;;
      x <-- horz_dynamic fuel st panes (Size (castM U16 (remaining divvier)) h) ;;;
      widths <-- pure (finish ovf divvier (fst x)) ;;;
      (fix kids (panes : list (pane_size * pane)) (widths : list N) (docs : list printed_doc) (col : N) {struct panes} : M unit :=
         match panes, widths with
         | (size, child) :: panes', width :: widths' =>
             next <-- pure (add16 ovf col (castM U16 width)) ;;;
             let child_rect := Rectangle (min_row r) (max_row r) col next in
             match size with
             | Dynamic =>
                 match docs with
                 | doc :: docs' => display_doc fuel doc child_rect ;;; kids panes' widths' docs' next
                 | [] => fail (FPanic PExpect)
                 end
             | _ => display_pane_rec fuel child st child_rect ;;; kids panes' widths' docs next
             end
         | _, _ => ret tt
         end) panes widths (snd x) (min_col r)
  | Vert panes =>
      h <-- pure (rect_height r) ;;;
      let divvier := divvier_new h (map fst panes) in
      w <-- pure (rect_width r) ;;;
      x <-- vert_dynamic fuel st panes (Size w (castM U32 (remaining divvier))) ;;;
      heights <-- pure (finish ovf divvier (fst x)) ;;;
      (fix kids (panes : list (pane_size * pane)) (heights : list N) (docs : list printed_doc) (row : N) {struct panes} : M unit :=
         match panes, heights with
         | (size, child) :: panes', height :: heights' =>
             next <-- pure (add32 row (castM U32 height)) ;;;
             let child_rect := Rectangle row next (min_col r) (max_col r) in
             match size with
             | Dynamic =>
                 match docs with
                 | doc :: docs' => display_doc fuel doc child_rect ;;; kids panes' heights' docs' next
                 | [] => fail (FPanic PExpect)
                 end
             | _ => display_pane_rec fuel child st child_rect ;;; kids panes' heights' docs next
             end
         | _, _ => ret tt
         end) panes heights (snd x) (min_row r)
  end.

(** display_pane.rs:30-44 [display_pane]. *)
Definition display_pane (fuel : nat) (p : pane) (st : Sty) : M unit := fun w =>
  match w_size w with
  | MOk s => display_pane_rec fuel p st (rect_from_size s) w
  | e => (w, from_window (match e with MOk _ => MOk tt | MErr e => MErr e | MPanic => MPanic end))
  end.

End Content.
End Pane.

Notation "x <-- a ;;; b" := (mbind a (fun x => b)) (at level 61, a at next level, right associativity).
Notation "a ;;; b" := (mbind a (fun _ => b)) (at level 61, right associativity).
