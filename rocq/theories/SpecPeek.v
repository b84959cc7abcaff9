(** Specification of laziness: what can be known of a layout when parts of the
    document cannot be looked at.

    The notation tree of such a document has holes ([SFail]).  [peek] computes
    the layout left to right as [rend] (SpecLayout.v) does, but it never gives
    up: where the layout cannot be computed it leaves a gap, and it continues
    after the gap as soon as a newline makes the position on the line known
    again. *)
From Verif Require Export SpecLayout Printer.

Set Implicit Arguments.

Section SpecPeek.
Context {pd : PrettyDoc} {env : Env}.

(** A part of the layout that is not known: child [n] of node [j], a choice of
    node [j], or something else. *)
Inductive gap : Type :=
| GapChild (j : Id) (n : nat)
| GapChoice (j : Id)
| GapOther.

(** A partial layout is a list of events and gaps. *)
Inductive pev : Type :=
| Ev (e : event)
| Gap (g : gap).

(** Can this piece of notation be opened, down to its children and choices?
    No part of it is a hole, and its indentations do not overflow a u16. *)
Fixpoint opens (s : shape) : bool :=
  match s with
  | SFail _ => false
  | SNewline ind => match indent_pos ind with Some _ => true | None => false end
  | SConcat a b => opens a && opens b
  | _ => true
  end.

(** The partial layout of [s], owned by node [j], followed by [k], at position
    [p] ([None]: not known), and the position after it.

    - A child is displayed where the position is known and its notation opens.
    - A choice is resolved where the position is known and everything that must
      be looked at to decide it is known. *)
Fixpoint peek (w : N) (s : shape) (j : Id) (k : look) (p : option pos) : list pev * option pos :=
  match s with
  | SFail _ => ([Gap GapOther], None)
  | SEmpty => ([], p)
  | SMark => ([Ev (EMark j)], p)
  | SEol => ([Ev EEol], option_map (fun q => (fst q, true)) p)
  | SNewline ind =>
      match indent_pos ind with
      | Some q => ([Ev (ENewline ind)], Some q)
      | None => ([Gap GapOther], None)
      end
  | SText t =>
      match obind p (fun q => text_pos q t) with
      | Some q => ([Ev (EText j t)], Some q)
      | None => ([Gap GapOther], None)
      end
  | SConcat a b =>
      let r1 := peek w a j (fits_s b k) p in
      let r2 := peek w b j k (snd r1) in
      (fst r1 ++ fst r2, snd r2)
  | SChoice a b =>
      let unknown := ([Gap (GapChoice j)], None) in
      match p with
      | None => unknown
      | Some q =>
          if head_fails a then unknown else
          match picks_first w a k q with
          | Some true => if opens a then peek w a j k p else unknown
          | Some false => if opens b then peek w b j k p else unknown
          | None => unknown
          end
      end
  | SChild n i s' =>
      let unknown := ([Gap (GapChild j n)], None) in
      match p, i with
      | Some _, Ok j' =>
          if opens s'
          then let r := peek w s' j' k p in (Ev (EEnter j n) :: fst r ++ [Ev (EExit j n)], snd r)
          else unknown
      | _, _ => unknown
      end
  end.

(** The partial layout of a whole document. *)
Definition peek_doc (w : N) (root : pres Id * shape) : list pev :=
  match root with
  | (Ok j, s) => if opens s then fst (peek w s j look_end (Some pos0)) else [Gap GapOther]
  | (Fail _, _) => [Gap GapOther]
  end.

(** How the node at a path is found in a partial layout.  [leads ids q l path b c a]:
    [l] is the content of the node at path [q]; its descendant along [path] has
    content [c], with [b] before it and [a] after it.  Up to where child [i] of
    node [j] is entered, there must be no gap that may contain it: no unknown
    choice of [j] and no other, unknown, copy of child [i]. *)
Inductive leads (ids : list nat -> option Id) :
  list nat -> list pev -> list nat -> list pev -> list pev -> list pev -> Prop :=
| leads_here q l : leads ids q l [] [] l []
| leads_down q l j i m c r path b c' a :
    ids q = Some j ->
    l = m ++ Ev (EEnter j i) :: c ++ Ev (EExit j i) :: r ->
    ~ In (Ev (EEnter j i)) m -> ~ In (Gap (GapChild j i)) m -> ~ In (Gap (GapChoice j)) m ->
    ~ In (Ev (EExit j i)) c ->
    leads ids (q ++ [i]) c path b c' a ->
    leads ids q l (i :: path) (m ++ Ev (EEnter j i) :: b) c' (a ++ Ev (EExit j i) :: r).

(** What is known above and to the left of the end of [x]: the last line of [x]
    is [left], and the [k] lines above it are [ups], nearest first.  Either the
    known events reach back to the start of the document (there may be fewer
    than [k] lines), or they start with a newline. *)
Definition above (x : list pev) (k : nat) (ups : list line) (left : line) : Prop :=
  (exists u all, x = map Ev u /\ lines_of u = rev all ++ [left] /\ ups = firstn k all) \/
  (exists z ind u, x = z ++ Ev (ENewline ind) :: map Ev u /\
     lines_from (rev ind) u = rev ups ++ [left] /\ length ups = k).

(** What is known to the right of the start of [x] and below: the first line of
    [x] is [right], and the [k] lines after it are [downs]. *)
Definition below (x : list pev) (k : nat) (right : line) (downs : list line) : Prop :=
  (exists d all, x = map Ev d /\ lines_from [] d = right :: all /\ downs = firstn k all) \/
  (exists d ind z, x = map Ev d ++ Ev (ENewline ind) :: z /\
     lines_from [] d = right :: downs /\ length downs = k).

(** What a notation tree with holes promises about a document: as [den]
    (SpecLayout.v), but a hole stands for anything whatsoever, and so does the
    identity of a child that is a hole. *)
Fixpoint pden (i : pres Id) (s : shape) (r : pres cnote) : Prop :=
  match s, r with
  | SFail _, _ => True
  | SEmpty, Ok CEmpty => True
  | SEol, Ok CEndOfLine => True
  | SNewline ind, Ok (CNewline ind') => ind = ind'
  | SText t, Ok (CTextual t') => t = t'
  | SConcat a b, Ok (CConcat da db) =>
      (lift (m_id (dl_doc da)) = i /\ pden i a (eval da)) /\
      (lift (m_id (dl_doc db)) = i /\ pden i b (eval db))
  | SChoice a b, Ok (CChoice da db) =>
      (lift (m_id (dl_doc da)) = i /\ pden i a (eval da)) /\
      (lift (m_id (dl_doc db)) = i /\ pden i b (eval db))
  | SChild n i' s', Ok (CChild n' d) =>
      n = n' /\ (head_fails s' = true \/ (lift (m_id (dl_doc d)) = i' /\ pden i' s' (eval d)))
  | SMark, Ok CFocusMark => True
  | _, _ => False
  end.

End SpecPeek.
