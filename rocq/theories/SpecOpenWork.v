(** The size of the open part of a document. *)
From Verif Require Export SpecOpen SpecWork.

Set Implicit Arguments.

Section SpecOpenWork.
Context {pd : PrettyDoc} {env : Env}.

(** The parts of the notations of the open nodes; a closed node counts as one. *)
Fixpoint open_parts (o : odoc) : nat :=
  match o with
  | OText i _ => note_parts 0 (i_note i) 1
  | OBranch i ks => note_parts (length ks) (i_note i) 1 + list_sum (map open_parts ks)
  | OClosed _ => 1
  end.

(** No open node displays one of its children twice. *)
Inductive open_once : odoc -> Prop :=
| oo_text i s : open_once (OText i s)
| oo_branch i ks : (forall m, note_uses (length ks) m (i_note i) 0 0 <= 1) ->
    (forall k, In k ks -> open_once k) -> open_once (OBranch i ks)
| oo_closed i : open_once (OClosed i).

End SpecOpenWork.
