(** Model of src/pretty_doc.rs (the [PrettyDoc] and [Style] traits) and of the
    external string-width functions of src/geometry.rs. *)
From Verif Require Export Notation.

Set Implicit Arguments.

(** Result of a [PrettyDoc] method: a value, an error of type [E], or a panic
    (pretty_doc.rs:50-85 allows methods to panic outside their contract). *)
Inductive mres (E A : Type) : Type :=
| MOk (a : A)
| MErr (e : E)
| MPanic.
Arguments MOk {E A}.
Arguments MErr {E A}.
Arguments MPanic {E A}.

(** [?] on a method result: consolidated_notation.rs:219-220
    [PrettyDoc(#[from] E)]. *)
Definition lift {E A : Type} (m : mres E A) : res (perr E) A :=
  match m with
  | MOk a => Ok a
  | MErr e => Err (PrettyDocErr e)
  | MPanic => Panic PMethod
  end.

(** pretty_doc.rs:16-88 [PrettyDoc] and pretty_doc.rs:92-96 [Style], as a class
    of methods over abstract types.  Simplification: methods are pure functions
    of the node (deterministic documents).  [m_unwrap_last_child] and
    [m_unwrap_prev_sibling] are overridable in Rust, so they are methods here too. *)
Class PrettyDoc : Type := {
  D : Type;
  Id : Type;
  Sty : Type;
  Lbl : Type;
  Cnd : Type;
  Er : Type;
  id_eqb : Id -> Id -> bool;
  style_combine : Sty -> Sty -> Sty;
  m_id : D -> mres Er Id;
  m_notation : D -> mres Er (notation Lbl Cnd);
  m_condition : D -> Cnd -> mres Er bool;
  m_lookup_style : D -> Lbl -> mres Er Sty;
  m_node_style : D -> mres Er Sty;
  m_num_children : D -> mres Er (option nat);
  m_unwrap_text : D -> mres Er str;
  m_unwrap_child : D -> nat -> mres Er D;
  m_unwrap_last_child : D -> mres Er D;
  m_unwrap_prev_sibling : D -> D -> nat -> mres Er D  (* self, parent, i *)
}.

(** [Id : Eq] (pretty_doc.rs:18). *)
Class IdEq (pd : PrettyDoc) : Prop :=
  id_eqb_spec : forall a b : Id, id_eqb a b = true <-> a = b.

(** The environment the crate is compiled and linked against: the
    [unicode_width] tables (geometry.rs:90-97) and the overflow-check switch. *)
Class Env : Type := {
  usize_width : str -> N;          (* unicode_width::UnicodeWidthStr::width *)
  char_full_width : char -> bool;  (* geometry.rs:95-97 is_char_full_width *)
  ovf : bool                       (* compiled with overflow checks? *)
}.

(** geometry.rs:90-92 [str_width]: [as Width] truncates to 16 bits. *)
Definition str_width `{Env} (s : str) : N := (usize_width s mod U16)%N.
