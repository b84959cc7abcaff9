(** Documents that are printed one leaf per line. *)
From Verif Require Export SpecElab.

Set Implicit Arguments.

Section SpecStack.
Context {pd : PrettyDoc} {env : Env}.

(** A tree of height at most [h] whose nodes have at most [B] children: leaves
    are displayed as their text, and the children of a node one below the other. *)
Inductive stacked (B : nat) : nat -> rdoc -> Prop :=
| sk_leaf h i s : i_note i = Text -> stacked B h (RText i s)
| sk_node h i ks : i_note i = Fold (Child 0) (n_xor Left Right) -> ks <> [] -> length ks <= B ->
    (forall k, In k ks -> stacked B h k) -> stacked B (S h) (RBranch i ks).

(** The number of leaves. *)
Fixpoint leaves (r : rdoc) : nat :=
  match r with
  | RText _ _ => 1
  | RBranch _ ks => list_sum (map leaves ks)
  end.

End SpecStack.
