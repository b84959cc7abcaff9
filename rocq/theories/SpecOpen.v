(** Specification of documents that are only partly there: some nodes are open
    (everything about them is known) and the others are closed (almost nothing
    is known about them: they may be broken, or unboundedly large). *)
From Verif Require Export SpecElab SpecPeek.

Set Implicit Arguments.

Section SpecOpen.
Context {pd : PrettyDoc} {env : Env}.

Inductive odoc : Type :=
| OText (i : info) (s : str)
| OBranch (i : info) (kids : list odoc)
| OClosed (i : info).

Definition o_info (o : odoc) : info := match o with OText i _ | OBranch i _ | OClosed i => i end.
Definition o_kids (o : odoc) : list odoc := match o with OBranch _ ks => ks | _ => [] end.
Definition o_open (o : odoc) : bool := match o with OClosed _ => false | _ => true end.

(** [orep o d]: the node [d] behaves as [o] says.  For open nodes this is
    [rep] (SpecElab.v).  A closed node only has to tell its notation, its style
    and its conditions when asked; all its other methods may do anything, and
    so may its children. *)
Inductive orep : odoc -> D -> Prop :=
| ORepText i s d : rep_info i d ->
    m_num_children d = MOk None -> m_unwrap_text d = MOk s ->
    orep (OText i s) d
| ORepBranch i ks d : rep_info i d ->
    m_num_children d = MOk (Some (length ks)) ->
    (forall n, n < length ks -> exists x, m_unwrap_child d n = MOk x) ->
    (ks <> [] -> exists x, m_unwrap_last_child d = MOk x) ->
    (forall n y, S n < length ks -> child_handle d (S n) y -> exists x, m_unwrap_prev_sibling y d n = MOk x) ->
    (forall n x k, child_handle d n x -> nth_error ks n = Some k -> orep k x) ->
    orep (OBranch i ks) d
| ORepClosed i d nt sty : m_notation d = MOk nt -> m_node_style d = MOk sty ->
    (forall c, m_condition d c = MOk (i_cond i c)) ->
    orep (OClosed i) d.

(** Every notation of an open node was accepted by [validate]. *)
Inductive ovalid : odoc -> Prop :=
| OVText i s : validate (i_note i) = Ok tt -> ovalid (OText i s)
| OVBranch i ks : validate (i_note i) = Ok tt -> (forall k, In k ks -> ovalid k) -> ovalid (OBranch i ks)
| OVClosed i : ovalid (OClosed i).

(** The open node at a path, and its id. *)
Fixpoint onode_at (o : odoc) (q : list nat) : option odoc :=
  match q with
  | [] => Some o
  | n :: q' => match nth_error (o_kids o) n with Some k => onode_at k q' | None => None end
  end.

Definition oid_at (o : odoc) (q : list nat) : option Id :=
  match onode_at o q with
  | Some x => if o_open x then Some (i_id (o_info x)) else None
  | None => None
  end.

(** No two open nodes have the same id. *)
Definition ounique (o : odoc) : Prop :=
  forall q q' j, oid_at o q = Some j -> oid_at o q' = Some j -> q = q'.

(** A closed node as a node of a plain tree: its contents are irrelevant. *)
Fixpoint forget (o : odoc) : rdoc :=
  match o with
  | OText i s => RText i s
  | OBranch i ks => RBranch i (map forget ks)
  | OClosed i => RBranch i []
  end.

(** The notation tree, with a hole for every closed node. *)
Fixpoint oelab (o : odoc) (c : ctx) : shape :=
  match o with
  | OText i _ => elab_note (forget o) [] (i_note i) None c
  | OBranch i ks => elab_note (forget o) (map (fun k => Kid (forget k) (oelab k)) ks) (i_note i) None c
  | OClosed _ => SFail (FErr NumChildrenChanged)
  end.

(** The partial layout of a document whose root is open. *)
Definition open_layout (w : N) (o : odoc) (st : option Sty) : list pev :=
  peek_doc w (Ok (i_id (o_info o)), oelab o (root_ctx (forget o) st)).

End SpecOpen.

Section Closes.
Context {pd : PrettyDoc} {env : Env}.

(** [closes o r]: [o] is the document [r] with some of its nodes closed. *)
Inductive closes : odoc -> rdoc -> Prop :=
| cl_text i s : closes (OText i s) (RText i s)
| cl_branch i ks ks' : Forall2 closes ks ks' -> closes (OBranch i ks) (RBranch i ks')
| cl_closed r : closes (OClosed (r_info r)) r.

(** Nothing is closed. *)
Fixpoint whole (r : rdoc) : odoc :=
  match r with
  | RText i s => OText i s
  | RBranch i ks => OBranch i (map whole ks)
  end.

(** A partial layout [x] is the layout [es] with gaps in the place of some of its parts. *)
Inductive fills : list pev -> list event -> Prop :=
| fi_nil : fills [] []
| fi_ev e x es : fills x es -> fills (Ev e :: x) (e :: es)
| fi_gap g x mid es : fills x es -> fills (Gap g :: x) (mid ++ es).

End Closes.
