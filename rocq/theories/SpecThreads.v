(** Vocabulary for trees made by several threads (C77). *)
From Verif Require Export Threads SpecTree.

Set Implicit Arguments.

Section SpecThreads.
Context {ts : TreeStyle}.

(** What a thread does, in a schedule. *)
Definition program_of (who : nat) (schedule : list (nat * tree_op)) : list tree_op :=
  map snd (filter (fun e => fst e =? who) schedule).

(** The number of nodes that a thread makes. *)
Definition makes (op : tree_op) : bool := match op with OText _ _ | OBranch _ _ => true | _ => false end.
Definition nodes_made (who : nat) (schedule : list (nat * tree_op)) : nat :=
  length (filter makes (program_of who schedule)).

(** All the nodes that a thread has, in its trees and in those that wait for it: their ids. *)
Definition thread_ids (th : thread) : list N := flat_map tree_ids (th_trees th ++ th_inbox th).

(** The threads that have made more than [i] nodes. *)
Definition made_more_than (i : N) (schedule : list (nat * tree_op)) (threads : list nat) : list nat :=
  filter (fun who => (i <? N.of_nat (nodes_made who schedule))%N) threads.

(** No tree is cloned, no id counter is reset. *)
Definition no_clone_no_reset (schedule : list (nat * tree_op)) : Prop :=
  forall who op, In (who, op) schedule -> op <> OClone /\ op <> OReset.

(** The counters do not overflow, or overflow is checked. *)
Definition no_wrap (checks : bool) (schedule : list (nat * tree_op)) : Prop :=
  checks = true \/ forall who, (N.of_nat (nodes_made who schedule) <= U32)%N.
End SpecThreads.
