(** Specification of the first display of a node (C68), in terms of the trace of
    the layout: where a node is shown, when nodes may be shown several times. *)
From Verif Require Export SpecFocus.

Set Implicit Arguments.

Section SpecFirst.
Context {pd : PrettyDoc}.

(** [first_display es q before during after]: in the layout [es], [during] is
    the first display of the node at path [q].  The root is displayed once, by
    the whole layout.  The first display of child [i] of a node is within the
    first display of that node: it goes from the first time the node enters its
    child [i] to the first time that child is left. *)
Inductive first_display (es : list event) : list nat -> list event -> list event -> list event -> Prop :=
| fd_root : first_display es [] [] es []
| fd_child q before b1 j i b2 b3 after :
    first_display es q before (b1 ++ EEnter j i :: b2 ++ EExit j i :: b3) after ->
    open_path (before ++ b1) = q ->
    (forall x j' y, b1 = x ++ EEnter j' i :: y -> open_path (before ++ x) <> q) ->
    open_path (before ++ b1 ++ EEnter j i :: b2) = q ++ [i] ->
    (forall x j' y, b2 = x ++ EExit j' i :: y -> open_path (before ++ b1 ++ EEnter j i :: x) <> q ++ [i]) ->
    first_display es (q ++ [i]) (before ++ b1 ++ [EEnter j i]) b2 (EExit j i :: b3 ++ after).

(** The node at path [q] shows its child [i] between [before] and [before ++ during]. *)
Definition shows_child (before during : list event) (q : list nat) (i : nat) : Prop :=
  exists x j y, during = x ++ EEnter j i :: y /\ open_path (before ++ x) = q.

(** [mid] goes from [before] to the next mark of the node at [q]. *)
Definition next_mark (before mid : list event) (q : list nat) : Prop :=
  open_path (before ++ mid) = q /\ forall x j y, mid = x ++ EMark j :: y -> open_path (before ++ x) <> q.

End SpecFirst.
