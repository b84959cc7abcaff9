(** Specification of the layout, independent of the printer's data structures.

    A document, seen through its notations, is a finite tree ([shape]).  The
    layout is computed by one strictly left-to-right structural recursion over
    that tree ([rend]), which produces a trace of events.  There are no blocks,
    no stacks, no focus and no laziness here. *)
From Verif Require Export Consolidated.

Set Implicit Arguments.

Section SpecLayout.
Context {pd : PrettyDoc} {env : Env}.

(** The tree of notations.  [SFail f]: this part of the tree cannot be
    computed ([f] says why).  [SChild n i s]: child number [n] of the current
    node, whose own id is [i] and whose content is [s]. *)
Inductive shape : Type :=
| SFail (f : failure (perr Er))
| SEmpty
| SEol
| SNewline (ind : indentation)
| SText (t : textual)
| SConcat (a b : shape)
| SChoice (a b : shape)
| SChild (n : nat) (i : pres Id) (s : shape)
| SMark.

(** The layout, as a sequence of events.  [EEnter j n]/[EExit j n]: the content
    of child [n] of the node with id [j] starts/ends here. *)
Inductive event : Type :=
| EText (j : Id) (t : textual)
| EEol
| ENewline (ind : indentation)
| EMark (j : Id)
| EEnter (j : Id) (n : nat)
| EExit (j : Id) (n : nat).

(** Where the layout is on the current line: its width so far, and whether an
    EndOfLine has been seen on it. *)
Definition pos : Type := N * bool.
Definition pos0 : pos := (0%N, false).

(** What does the rest of the line look like, from here on?  Given the
    remaining width and whether an EndOfLine was seen: does it fit? *)
Definition look : Type := N -> bool -> option bool.

(** At the end of the document everything fits. *)
Definition look_end : look := fun _ _ => Some true.

Definition head_fails (s : shape) : bool :=
  match s with SFail _ => true | _ => false end.

(** Does the first line of [s], followed by [k], fit?  Later choices are
    assumed to take their second option; a newline ends the line. *)
Fixpoint fits_s (s : shape) (k : look) (rem : N) (eol : bool) : option bool :=
  match s with
  | SFail _ => None
  | SEmpty | SMark => k rem eol
  | SEol => k rem true
  | SNewline _ => Some true
  | SText t =>
      if eol then Some false
      else if (tx_width t <=? rem)%N then k (rem - tx_width t)%N eol
      else Some false
  | SConcat a b => if head_fails b then None else fits_s a (fits_s b k) rem eol
  | SChoice _ b => fits_s b k rem eol
  | SChild _ _ s' => fits_s s' k rem eol
  end.

Definition obind {A B} (o : option A) (f : A -> option B) : option B :=
  match o with Some a => f a | None => None end.

(** u16 addition as compiled: [None] is an overflow panic. *)
Definition oadd16 (a b : N) : option N := to_option (X := unit) (add16 ovf a b).
Definition osum16 (ws : list N) : option N := to_option (X := unit) (sum16 ovf ws).

Definition indent_pos (ind : indentation) : option pos :=
  obind (osum16 (map seg_width (rev ind))) (fun w => Some (w, false)).

Definition text_pos (p : pos) (t : textual) : option pos :=
  let '(len, eol) := p in
  if eol : bool then None else obind (oadd16 len (tx_width t)) (fun w => Some (w, false)).

(** Does a choice whose first option is [a] pick it? *)
Definition picks_first (width : N) (a : shape) (k : look) (p : pos) : option bool :=
  let '(len, eol) := p in
  if (len <=? width)%N then fits_s a k (width - len)%N eol else Some false.

(** The layout of [s], owned by the node with id [j], at position [p] and
    followed by [k]: the events and the position after them.  [None]: the
    layout cannot be computed. *)
Fixpoint rend (width : N) (s : shape) (j : Id) (k : look) (p : pos) : option (list event * pos) :=
  match s with
  | SFail _ => None
  | SEmpty => Some ([], p)
  | SMark => Some ([EMark j], p)
  | SEol => Some ([EEol], (fst p, true))
  | SNewline ind => obind (indent_pos ind) (fun p' => Some ([ENewline ind], p'))
  | SText t => obind (text_pos p t) (fun p' => Some ([EText j t], p'))
  | SConcat a b =>
      obind (rend width a j (fits_s b k) p) (fun '(e1, p1) =>
      obind (rend width b j k p1) (fun '(e2, p2) => Some (e1 ++ e2, p2)))
  | SChoice a b =>
      if head_fails a then None else
      obind (picks_first width a k p) (fun f =>
      if f : bool then rend width a j k p else rend width b j k p)
  | SChild n (Ok j') s' =>
      obind (rend width s' j' k p) (fun '(es, p') => Some (EEnter j n :: es ++ [EExit j n], p'))
  | SChild _ (Fail _) _ => None
  end.

(** The layout of a whole document: root id and content. *)
Definition layout (width : N) (root : pres Id * shape) : option (list event) :=
  match root with
  | (Ok j, s) => option_map fst (rend width s j look_end pos0)
  | (Fail _, _) => None
  end.

(** The lines of a trace. *)
Definition text_seg (t : textual) : segment := Segment (tx_str t) (tx_width t) (tx_style t).

Fixpoint lines_from (cur : list segment) (es : list event) : list (list segment) :=
  match es with
  | [] => [cur]
  | EText _ t :: es' => lines_from (cur ++ [text_seg t]) es'
  | ENewline ind :: es' => cur :: lines_from (rev ind) es'
  | _ :: es' => lines_from cur es'
  end.
Definition lines_of (es : list event) : list (list segment) := lines_from [] es.

(** Which child are we in?  The path (root first) of nodes entered and not yet
    left, kept innermost first in [stk]. *)
Fixpoint open_from (stk : list nat) (es : list event) : list nat :=
  match es with
  | [] => stk
  | EEnter _ n :: es' => open_from (n :: stk) es'
  | EExit _ _ :: es' => open_from (tl stk) es'
  | _ :: es' => open_from stk es'
  end.
Definition open_path (es : list event) : list nat := rev (open_from [] es).

(** A document's delayed notation unfolds, by repeated evaluation, to a tree:
    [den i s r]: the evaluation result [r], of a node whose id is [i], unfolds
    to [s]. *)
Fixpoint den (i : pres Id) (s : shape) (r : pres cnote) : Prop :=
  match s, r with
  | SFail f, Fail f' => f = f'
  | SEmpty, Ok CEmpty => True
  | SEol, Ok CEndOfLine => True
  | SNewline ind, Ok (CNewline ind') => ind = ind'
  | SText t, Ok (CTextual t') => t = t'
  | SConcat a b, Ok (CConcat da db) =>
      (lift (m_id (dl_doc da)) = i /\ den i a (eval da)) /\
      (lift (m_id (dl_doc db)) = i /\ den i b (eval db))
  | SChoice a b, Ok (CChoice da db) =>
      (lift (m_id (dl_doc da)) = i /\ den i a (eval da)) /\
      (lift (m_id (dl_doc db)) = i /\ den i b (eval db))
  | SChild n i' s', Ok (CChild n' d) =>
      n = n' /\ lift (m_id (dl_doc d)) = i' /\ den i' s' (eval d)
  | SMark, Ok CFocusMark => True
  | _, _ => False
  end.

Definition denotes (d : delayed) (root : pres Id * shape) : Prop :=
  lift (m_id (dl_doc d)) = fst root /\ den (fst root) (snd root) (eval d).

End SpecLayout.
