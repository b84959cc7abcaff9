(** Documents, seen from outside: which nodes can be reached from a node by
    calling the [PrettyDoc] methods as documented, and finite documents. *)
From Verif Require Export PrettyDoc.

Set Implicit Arguments.

Section SpecDoc.
Context {pd : PrettyDoc}.

(** [child_handle d i x]: [x] was obtained as the child number [i] of [d], using
    the methods as documented (pretty_doc.rs:56-85). *)
Inductive child_handle (d : D) : nat -> D -> Prop :=
| ch_child n i x : m_num_children d = MOk (Some n) -> i < n -> m_unwrap_child d i = MOk x ->
    child_handle d i x
| ch_last n x : m_num_children d = MOk (Some (S n)) -> m_unwrap_last_child d = MOk x ->
    child_handle d n x
| ch_prev i y x : child_handle d (S i) y -> m_unwrap_prev_sibling y d i = MOk x ->
    child_handle d i x.

(** A finite document: going from child to child always ends.  The methods are
    otherwise unrestricted: they may fail, panic, or be inconsistent. *)
Inductive finite_doc (d : D) : Prop :=
| Finite : (forall i x, child_handle d i x -> finite_doc x) -> finite_doc d.

(** The nodes below a node. *)
Inductive reachable (d : D) : D -> Prop :=
| reach_self : reachable d d
| reach_child x i y : reachable d x -> child_handle x i y -> reachable d y.

(** Some method of the node returns the error [e]. *)
Definition method_fails (x : D) (e : Er) : Prop :=
  m_id x = MErr e \/ m_notation x = MErr e \/ (exists c, m_condition x c = MErr e) \/
  (exists l, m_lookup_style x l = MErr e) \/ m_node_style x = MErr e \/
  m_num_children x = MErr e \/ m_unwrap_text x = MErr e \/
  (exists i, m_unwrap_child x i = MErr e) \/ m_unwrap_last_child x = MErr e \/
  (exists p i, m_unwrap_prev_sibling x p i = MErr e).

End SpecDoc.
