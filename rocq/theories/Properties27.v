(** C60: the work of printing a few lines of a long document. *)
From Verif Require Export PVertical Properties2.

Set Implicit Arguments.

Section Stack.
Context {pd : PrettyDoc} {env : Env} {ideq : IdEq pd}.

(** A stack has one line per leaf. *)
Theorem C60_stack_lines B h r d : stacked B h r -> rep r d ->
  forall w st path ft ups fl downs, is_text_target ft = false -> printed d w path ft st ups fl downs ->
  length (all_lines ups fl downs) = leaves r.
Proof.
  intros Hs Hr w st path ft ups fl downs Hft Hp.
  destruct (@C01_printed_has_layout _ _ _ r d Hr (stacked_valid Hs) w st path ft ups fl downs Hft Hp) as (es & He & ->).
  pose proof (leaves_pos Hs) as Hpos.
  pose proof (closes_layout w _ (opn_closes 0 (leaves r) r 0) He) as Hf.
  destruct (@PStack.content _ _ w 0 (leaves r) B r h 0 st Hs) as (H & _ & _); [apply far_false; lia|].
  destruct H as (u & E & Hu); [lia|lia|]. rewrite E in Hf. apply fills_ev in Hf. subst u.
  unfold lines_of. pose proof (nl_lines es []) as Hn. unfold line in *. lia.
Qed.

(** C60.  To print a line of a stack with [ku] lines above it and [kd] lines
    below it takes work that depends on [ku] and [kd], on the height of the tree
    and on its branching, but not on the number of lines. *)
Theorem C60_stack_window B h r d w st path i s ku kd :
  stacked B h r -> rep r d -> unique_ids (id_at r) -> node_at r path = Some (RText i s) ->
  forall n,
    window_cost n d w path FStart st ku kd <= 36 * ((ku + kd + 1) * (5 * B * h + 1) + 2) ^ 2 /\
    window_cost n d w path FEnd st ku kd <= 36 * ((ku + kd + 1) * (5 * B * h + 1) + 2) ^ 2.
Proof. intros H1 H2 H3 H4 n. split; eapply stack_work; eauto. Qed.

(** ... and in general no better: whatever is shown of a vertical list, all of
    its items are gone through, even to show a single line of it.  [n] only has
    to be large enough not to stop the printer in the middle of this. *)
Theorem C60_flat_list_lower i ks d :
  i_note i = Fold (Child 0) (n_xor Left Right) -> rep (RBranch i ks) d ->
  forall w path ft st ku kd n, 4 * length ks <= n ->
  4 * length ks <= window_cost n d w path ft st ku kd + 3.
Proof. apply list_lower. Qed.

End Stack.
