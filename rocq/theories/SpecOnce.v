(** Specification for C52: notations that show everything exactly once. *)
From Verif Require Export SpecElab.
From Coq Require Export Permutation.

Set Implicit Arguments.

Section SpecOnce.
Context {pd : PrettyDoc} {env : Env}.

(** What a node's notation can show of the node: its child number [n], or its
    own text. *)
Inductive sight : Type := Sub (n : nat) | Own.

(** All the ways in which a notation can be displayed, whichever options of its
    choices and checks are taken: what is shown in each of them, in order.
    [text]: is it the notation of a text node?  [m]: its number of children.
    [lr]: inside [Fold.join], what [Left] can show, and the number of [Right]. *)
Fixpoint note_views (text : bool) (m : nat) (n : note) (lr : option (list (list sight) * nat)) : list (list sight) :=
  match n with
  | Empty | Newline | EndOfLine | Literal _ | FocusMark => [[]]
  | Text => if text then [[Own]] else []
  | Flat x | Indent _ _ x | Style _ x => note_views text m x lr
  | Concat a b => flat_map (fun l => map (app l) (note_views text m b lr)) (note_views text m a lr)
  | Choice a b | Check _ _ a b => note_views text m a lr ++ note_views text m b lr
  | Child k => match kid_number k m with Some i => [[Sub i]] | None => [] end
  | Count zero one many =>
      match m with
      | 0 => note_views text m zero lr
      | 1 => note_views text m one lr
      | _ => note_views text m many lr
      end
  | Fold first join =>
      match m with
      | 0 => [[]]
      | S m' => fold_left (fun acc i => note_views text m join (Some (acc, i))) (seq 1 m') (note_views text m first None)
      end
  | Left => match lr with Some (l, _) => l | None => [] end
  | Right => match lr with Some (_, i) => [[Sub i]] | None => [] end
  end.

(** Everything there is to show of a node. *)
Definition everything (x : rdoc) : list sight :=
  match x with
  | RText _ _ => [Own]
  | RBranch _ ks => map Sub (seq 0 (length ks))
  end.

(** The notation of [x] shows everything of [x] exactly once, whichever options
    are taken. *)
Definition shows_once (x : rdoc) : Prop :=
  let text := match x with RText _ _ => true | RBranch _ _ => false end in
  forall l, In l (note_views text (length (r_kids x)) (i_note (r_info x)) None) -> Permutation l (everything x).

(** ... and so do the notations of all the nodes of the document. *)
Definition all_once (r : rdoc) : Prop := forall q x, node_at r q = Some x -> shows_once x.

End SpecOnce.
