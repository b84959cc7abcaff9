(** Specification of where the focus is, in terms of the trace of the layout. *)
From Verif Require Export SpecLayout.

Set Implicit Arguments.

Section SpecFocus.
Context {pd : PrettyDoc} {env : Env}.

(** The node at path [q] is displayed: at some moment of the layout, the
    current node is the one at path [q]. *)
Definition displayed (es : list event) (q : list nat) : Prop :=
  exists a b, es = a ++ b /\ open_path a = q.

(** The children entered, in order. *)
Definition enters (es : list event) : list (Id * nat) :=
  flat_map (fun e => match e with EEnter j n => [(j, n)] | _ => [] end) es.

(** Each node is displayed at most once. *)
Definition linear (es : list event) : Prop := NoDup (enters es).

(** [a] is the part of the layout before the start of the node at path [q]. *)
Definition at_start (a : list event) (q : list nat) : Prop :=
  (q = [] /\ a = []) \/ (exists a' j n, a = a' ++ [EEnter j n] /\ open_path a' ++ [n] = q).

(** [b] is the part of the layout after the end of the node at path [q], what
    is before it being [a]. *)
Definition at_end (a b : list event) (q : list nat) : Prop :=
  (q = [] /\ b = []) \/ (exists b' j n, b = EExit j n :: b' /\ open_path a = q).

(** [a] ends with the first FocusMark of the node at path [q]. *)
Definition at_mark (a : list event) (q : list nat) : Prop :=
  exists a' j, a = a' ++ [EMark j] /\ open_path a' = q /\
    forall x j' y, a' = x ++ EMark j' :: y -> open_path x <> q.

(** Is a mark of the node at [q] displayed? *)
Definition mark_displayed (es : list event) (q : list nat) : Prop :=
  exists a j b, es = a ++ EMark j :: b /\ open_path a = q.

(** Ids are unique: [idat q] is the id of the node at path [q]. *)
Definition unique_ids (idat : list nat -> option Id) : Prop :=
  forall q q' j, idat q = Some j -> idat q' = Some j -> q = q'.

(** The ids in the tree [s] of the node at path [q] are those given by [idat]. *)
Fixpoint labelled (idat : list nat -> option Id) (q : list nat) (s : shape) : Prop :=
  match s with
  | SConcat a b | SChoice a b => labelled idat q a /\ labelled idat q b
  | SChild n i s' =>
      (forall j, i = Ok j -> idat (q ++ [n]) = Some j) /\ labelled idat (q ++ [n]) s'
  | _ => True
  end.

End SpecFocus.
