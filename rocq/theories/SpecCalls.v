(** How deep the notations of a document are nested, for the calls made while
    evaluating them. *)
From Verif Require Export SpecDoc Consolidated Valid.

Set Implicit Arguments.

Section SpecCalls.
Context {pd : PrettyDoc}.

(** How many notations are nested in each other, concatenations apart. *)
Fixpoint nesting (n : note) : nat :=
  match n with
  | Flat a | Indent _ _ a | Style _ a => S (nesting a)
  | Concat a b => Nat.max (nesting a) (nesting b)
  | Choice a b | Check _ _ a b | Fold a b => S (Nat.max (nesting a) (nesting b))
  | Count a b c => S (Nat.max (nesting a) (Nat.max (nesting b) (nesting c)))
  | _ => 1
  end.

(** [Left] can be reached from the top of the notation without passing a
    concatenation: the [join] of a fold, as in [check(hidden, Right, Left,
    Left + Right)], that can stand for its left side alone. *)
Fixpoint bare_left (n : note) : bool :=
  match n with
  | Left => true
  | Flat a | Indent _ _ a | Style _ a => bare_left a
  | Choice a _ => bare_left a
  | Check _ _ a b => bare_left a || bare_left b
  | Count a b c => bare_left a || (bare_left b || bare_left c)
  | _ => false
  end.

(** No fold in the notation has such a [join]. *)
Fixpoint no_bare_left (n : note) : Prop :=
  match n with
  | Flat a | Indent _ _ a | Style _ a => no_bare_left a
  | Concat a b | Choice a b | Check _ _ a b => no_bare_left a /\ no_bare_left b
  | Count a b c => no_bare_left a /\ no_bare_left b /\ no_bare_left c
  | Fold first join => bare_left join = false
  | _ => True
  end.

(** The notations of the document are valid, nested at most [H] deep, and have
    no fold with a bare [Left] in its [join], but for nodes that have at most
    [S k] children. *)
Definition shallow (H k : nat) (doc : D) : Prop :=
  forall x n, reachable doc x -> m_notation x = MOk n ->
  validate n = Ok tt /\ nesting n <= H /\
  (no_bare_left n \/ forall c, m_num_children x = MOk (Some c) -> c <= S k).

End SpecCalls.
