(** Cases of C61. *)
From Verif Require Import Properties28 Examples Properties2Ex Properties27Ex.
From Coq Require Import String.
Open Scope string_scope.
Open Scope list_scope.
Local Notation length := List.length.

#[local] Existing Instance spd.
#[local] Instance senv1 : Env := senv false.

(** A list of [N] lines: the recursion is never more than four calls deep. *)
Lemma flat_shallow N : shallow_tree 2 1 (s_tree (flat N)).
Proof.
  intros [|i [|j path]] x Hx; cbn [node_at] in Hx.
  - injection Hx as <-. simpl. auto.
  - cbn [flat s_tree r_kids] in Hx. rewrite map_map, nth_error_map in Hx.
    destruct (nth_error (seq 0 N) i); [|discriminate]. injection Hx as <-. simpl. auto.
  - cbn [flat s_tree r_kids] in Hx. rewrite map_map, nth_error_map in Hx.
    destruct (nth_error (seq 0 N) i); [|discriminate]. simpl in Hx. destruct j; discriminate.
Qed.

Lemma flat_valid N : valid_doc (s_tree (flat N)).
Proof.
  constructor; [reflexivity|]. intros k Hk. apply in_map_iff in Hk as (x & <- & Hx).
  apply in_map_iff in Hx as (i & <- & _). constructor. reflexivity.
Qed.

Example C61_case_depth N st d : evaluated (flat N) st d -> eval_calls 0 d <= 4.
Proof. apply (@C61_eval_depth spd senv1 2 1 (flat N) (le_n 1)). eapply tree_shallow; [apply s_rep|apply flat_valid|apply flat_shallow]. Qed.

(** Calls of [eval], those and the calls of methods, and iterations. *)
Example C61_case_calls : window_calls 0 100 (flat 3) 80 [] FStart None 0 3 = 15 /\
  window_calls 1 100 (flat 3) 80 [] FStart None 0 3 = 46 /\ window_cost 100 (flat 3) 80 [] FStart None 0 3 = 25.
Proof. vm_compute. auto. Qed.

(** A list whose [N] items are all skipped. *)
Definition skipping (N : nat) : sdoc :=
  Node 0 (Fold (Child 0) (Check 1 RightChild Left (Concat Left Right))) (map (fun i => Leaf (S i) Text (codes "x")) (seq 0 N)).

Example C61_case_skipped N d : with_optional_style (skipping N) None = Ok d -> 2 * N <= eval_calls 0 d + 2.
Proof.
  intros Hd. pose proof (@C61_skipped_children_lower spd senv1 (s_info (skipping N)) (map s_tree (map (fun i => Leaf (S i) Text (codes "x")) (seq 0 N)))
    (skipping N) None d (Child 0) 1 (Concat Left Right) (s_rep (skipping N)) eq_refl) as H.
  rewrite !map_length, seq_length in H. apply H; [|exact Hd].
  intros x Hx. apply in_map_iff in Hx as (y & <- & Hy). apply in_map_iff in Hy as (i & <- & _). reflexivity.
Qed.

(** Such a list does meet the hypotheses of [C61_eval_depth], with [k] its length. *)
Example C61_case_bounded N : shallow_tree 3 N (s_tree (skipping N)).
Proof.
  intros [|i [|j path]] x Hx; cbn [node_at] in Hx.
  - injection Hx as <-. cbn [skipping s_tree r_kids r_info]. rewrite !map_length, seq_length. simpl. auto.
  - cbn [skipping s_tree r_kids] in Hx. rewrite map_map, nth_error_map in Hx.
    destruct (nth_error (seq 0 N) i); [|discriminate]. injection Hx as <-. simpl. auto.
  - cbn [skipping s_tree r_kids] in Hx. rewrite map_map, nth_error_map in Hx.
    destruct (nth_error (seq 0 N) i); [|discriminate]. simpl in Hx. destruct j; discriminate.
Qed.

Example C61_case_deep : match with_optional_style (skipping 100) None with Ok d => eval_calls 0 d | Fail _ => 0 end = 200.
Proof. vm_compute. reflexivity. Qed.
