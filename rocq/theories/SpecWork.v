(** The size of a document, as the work of printing it is measured. *)
From Verif Require Export SpecElab Cost.

Set Implicit Arguments.

Section SpecWork.
Context {pd : PrettyDoc} {env : Env}.

(** The number of parts of a notation tree that can be displayed at once: of two
    options only one is. *)
Fixpoint parts (s : shape) : nat :=
  match s with
  | SConcat a b => 1 + parts a + parts b
  | SChoice a b => 1 + Nat.max (parts a) (parts b)
  | SChild _ _ a => 1 + parts a
  | _ => 1
  end.

(** A fold over [n] more children: [join m acc] for the [m]th child. *)
Fixpoint folded (join : nat -> nat -> nat) (m n acc : nat) : nat :=
  match n with
  | O => acc
  | S n' => folded join (S m) n' (join (S m) acc)
  end.

(** The parts of the notation of a node that has [k] children, not counting
    those of the children.  [left]: of what [Left] stands for. *)
Fixpoint note_parts (k : nat) (n : note) (left : nat) : nat :=
  match n with
  | Flat a | Indent _ _ a | Style _ a => note_parts k a left
  | Concat a b => 1 + note_parts k a left + note_parts k b left
  | Choice a b => 1 + Nat.max (note_parts k a left) (note_parts k b left)
  | Check _ _ a b => Nat.max 1 (Nat.max (note_parts k a left) (note_parts k b left))
  | Count zero one many =>
      match k with
      | 0 => Nat.max 1 (note_parts k zero left)
      | 1 => note_parts k one left
      | _ => note_parts k many left
      end
  | Fold first join => folded (fun _ acc => note_parts k join acc) 0 (k - 1) (Nat.max 1 (note_parts k first 1))
  | Left => left
  | _ => 1
  end.

(** How many times the notation of a node that has [k] children displays its
    child [i], at most. *)
Fixpoint note_uses (k i : nat) (n : note) (left right : nat) : nat :=
  match n with
  | Flat a | Indent _ _ a | Style _ a => note_uses k i a left right
  | Concat a b => note_uses k i a left right + note_uses k i b left right
  | Choice a b | Check _ _ a b => Nat.max (note_uses k i a left right) (note_uses k i b left right)
  | Count zero one many =>
      match k with
      | 0 => note_uses k i zero left right
      | 1 => note_uses k i one left right
      | _ => note_uses k i many left right
      end
  | Fold first join =>
      folded (fun m acc => note_uses k i join acc (if Nat.eqb m i then 1 else 0)) 0 (k - 1) (note_uses k i first 0 0)
  | Child j => match kid_number j k with Some m => if Nat.eqb m i then 1 else 0 | None => 0 end
  | Left => left
  | Right => right
  | _ => 0
  end.

(** No node displays one of its children twice. *)
Inductive displays_once : rdoc -> Prop :=
| once_text i s : displays_once (RText i s)
| once_branch i ks : (forall m, note_uses (length ks) m (i_note i) 0 0 <= 1) ->
    (forall k, In k ks -> displays_once k) -> displays_once (RBranch i ks).

(** The size of a document: the parts of the notations of all its nodes. *)
Fixpoint doc_parts (r : rdoc) : nat :=
  match r with
  | RText i _ => note_parts 0 (i_note i) 1
  | RBranch i ks => note_parts (length ks) (i_note i) 1 + list_sum (map doc_parts ks)
  end.

End SpecWork.
