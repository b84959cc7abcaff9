(** Model of src/doc_examples/tree.rs, and of the default methods of
    src/pretty_doc.rs. *)
From Verif Require Export Machine PrettyDoc BasicStyle.

Set Implicit Arguments.

(** pretty_doc.rs:68-73, the default [unwrap_last_child].  [n - 1] for [n = 0]
    is outside the contract: a panic with overflow checks, and otherwise a call
    of [unwrap_child(usize::MAX)].  Simplification: a panic. *)
Definition default_last_child {E T : Type} (num_children : T -> mres E (option nat))
    (unwrap_child : T -> nat -> mres E T) (self : T) : mres E T :=
  match num_children self with
  | MOk (Some (S n)) => unwrap_child self n
  | MOk (Some O) | MOk None | MPanic => MPanic
  | MErr e => MErr e
  end.

(** pretty_doc.rs:85-87, the default [unwrap_prev_sibling]. *)
Definition default_prev_sibling {E T : Type} (unwrap_child : T -> nat -> mres E T) (self parent : T) (i : nat) : mres E T :=
  unwrap_child parent i.

(** tree.rs:25-33 [TreeCondition]. *)
Inductive tree_condition : Type := NeedsSeparator | IsEmptyText | IsComment.

(** tree.rs:35 [TreeStyleLabel] is [&'static str]; tree.rs:36 [TreeNotation].
    A [ValidNotation] is a notation that was accepted by [validate]; that is a
    hypothesis of the theorems. *)
Definition tree_notation : Type := notation str tree_condition.

(** [S: Style + From<TreeStyleLabel> + Default] (tree.rs:42-44). *)
Class TreeStyle : Type := {
  TS : Type;
  ts_combine : TS -> TS -> TS;
  ts_from : str -> TS;
  ts_default : TS
}.

Section Tree.
Context {ts : TreeStyle}.

(** tree.rs:41-66 [Tree], without [contents]. *)
Record tree_fields : Type := TreeFields {
  t_id : N;
  t_notation : tree_notation;
  t_node_style : TS;
  t_style_overrides : list (str * TS);
  t_is_comment : bool;
  t_needs_separator : bool
}.

(** tree.rs:41-76 [Tree] and [Contents].  [TreeText f s] is a tree whose
    [contents] is [Text(s)], and [TreeKids f ks] one whose [contents] is
    [Children(ks)]. *)
Inductive tree : Type :=
| TreeText (f : tree_fields) (s : str)
| TreeKids (f : tree_fields) (kids : list tree).

Definition t_fields (t : tree) : tree_fields := match t with TreeText f _ | TreeKids f _ => f end.
Definition t_kids (t : tree) : list tree := match t with TreeText _ _ => [] | TreeKids _ ks => ks end.
Definition t_with (f : tree_fields -> tree_fields) (t : tree) : tree :=
  match t with TreeText x s => TreeText (f x) s | TreeKids x ks => TreeKids (f x) ks end.

(** ** Constructing trees

    The thread-local counter (tree.rs:14-16) is passed as a [u32]; every
    function returns the counter after it. *)
Section Make.
Variable checks : bool.   (* compiled with overflow checks? *)
Notation tres := (res Empty_set).

(** tree.rs:18-22 [next_id]: the id, and the new value of the counter. *)
Definition next_id (counter : N) : tres (N * N) :=
  counter' <- addM U32 checks counter 1%N ;; Ok (counter, counter').

(** tree.rs:83-93 [new_text]. *)
Definition tree_new_text (n : tree_notation) (text : str) (counter : N) : tres (tree * N) :=
  '(id, counter) <- next_id counter ;;
  Ok (TreeText (TreeFields id n ts_default [] false false) text, counter).

(** tree.rs:97-104: over the children in reverse order; [skipped] is whether a
    non-comment child has already been skipped. *)
Definition set_separator (t : tree) : tree :=
  t_with (fun f => TreeFields (t_id f) (t_notation f) (t_node_style f) (t_style_overrides f) (t_is_comment f) true) t.
Fixpoint mark_reversed (skipped : bool) (children : list tree) : list tree :=
  match children with
  | [] => []
  | child :: children' =>
      if t_is_comment (t_fields child) then child :: mark_reversed skipped children'
      else (if skipped then set_separator child else child) :: mark_reversed true children'
  end.
Definition mark_separators (children : list tree) : list tree := rev (mark_reversed false (rev children)).

(** tree.rs:96-115 [new_branch]. *)
Definition tree_new_branch (n : tree_notation) (children : list tree) (counter : N) : tres (tree * N) :=
  let children := mark_separators children in
  '(id, counter) <- next_id counter ;;
  Ok (TreeKids (TreeFields id n ts_default [] false false) children, counter).

End Make.

(** tree.rs:118-121 [into_comment]. *)
Definition tree_into_comment (t : tree) : tree :=
  t_with (fun f => TreeFields (t_id f) (t_notation f) (t_node_style f) (t_style_overrides f) true (t_needs_separator f)) t.
(** tree.rs:124-127 [with_style]. *)
Definition tree_with_style (s : TS) (t : tree) : tree :=
  t_with (fun f => TreeFields (t_id f) (t_notation f) s (t_style_overrides f) (t_is_comment f) (t_needs_separator f)) t.
(** tree.rs:130-133 [with_style_override]. *)
Definition tree_with_override (label : str) (s : TS) (t : tree) : tree :=
  t_with (fun f => TreeFields (t_id f) (t_notation f) (t_node_style f) (t_style_overrides f ++ [(label, s)]) (t_is_comment f) (t_needs_separator f)) t.
(** tree.rs:140-142 [reset_id]: the new value of the counter. *)
Definition tree_reset_id : N := 0%N.

(** ** tree.rs:145-206 [PrettyDoc for &Tree]; [Error = Infallible]. *)

(** tree.rs:167-174 [lookup_style]. *)
Definition tree_lookup_style (t : tree) (label : str) : TS :=
  match find (fun o => str_eqb (fst o) label) (t_style_overrides (t_fields t)) with
  | Some o => snd o
  | None => ts_from label
  end.

(** tree.rs:176-181 [num_children]. *)
Definition tree_num_children (t : tree) : mres Empty_set (option nat) :=
  MOk (match t with TreeText _ _ => None | TreeKids _ ks => Some (length ks) end).

(** tree.rs:183-188 [unwrap_text]. *)
Definition tree_unwrap_text (t : tree) : mres Empty_set str :=
  match t with TreeText _ s => MOk s | TreeKids _ _ => MPanic end.

(** tree.rs:190-195 [unwrap_child]. *)
Definition tree_unwrap_child (t : tree) (i : nat) : mres Empty_set tree :=
  match t with
  | TreeText _ _ => MPanic
  | TreeKids _ ks => match nth_error ks i with Some k => MOk k | None => MPanic end
  end.

(** tree.rs:197-205 [condition]. *)
Definition tree_cond (t : tree) (c : tree_condition) : bool :=
  match c with
  | IsEmptyText => match t with TreeText _ [] => true | _ => false end
  | NeedsSeparator => t_needs_separator (t_fields t)
  | IsComment => t_is_comment (t_fields t)
  end.

Definition tree_doc : PrettyDoc := {|
  D := tree; Id := N; Sty := TS; Lbl := str; Cnd := tree_condition; Er := Empty_set;
  id_eqb := N.eqb;
  style_combine := ts_combine;
  m_id := fun t => MOk (t_id (t_fields t));
  m_notation := fun t => MOk (t_notation (t_fields t));
  m_condition := fun t c => MOk (tree_cond t c);
  m_lookup_style := fun t l => MOk (tree_lookup_style t l);
  m_node_style := fun t => MOk (t_node_style (t_fields t));
  m_num_children := tree_num_children;
  m_unwrap_text := tree_unwrap_text;
  m_unwrap_child := tree_unwrap_child;
  m_unwrap_last_child := default_last_child tree_num_children tree_unwrap_child;
  m_unwrap_prev_sibling := default_prev_sibling tree_unwrap_child
|}.

End Tree.

(** BasicStyle as the style of a tree. *)
#[export] Instance basic_tree_style : TreeStyle := {|
  TS := basic_style; ts_combine := bs_combine; ts_from := bs_from; ts_default := bs_default |}.
