(** C60: the work of printing a window does not depend on what is far away. *)
From Verif Require Export PTag2.

Set Implicit Arguments.

Section Peephole.
Context {pd : PrettyDoc} {env : Env} {ideq : IdEq pd}.

(** C60.  Suppose that, as in C57, the open nodes of [o] determine the lines that
    are asked for.  Then printing them takes at most quadratically many steps in
    the size of the open part, whatever the closed nodes contain: they may be
    arbitrarily large, or infinite. *)
Theorem C60_window_at_start o d w st path ku kd ups downs l r b c a :
  orep o d -> ovalid o -> ounique o -> open_once o ->
  leads (oid_at o) [] (open_layout w o st) path b c a ->
  above b ku ups l -> below (c ++ a) kd r downs ->
  forall n, window_cost n d w path FStart st ku kd <= 36 * (open_parts o + 2) ^ 2.
Proof.
  intros H1 H2 H3 H0 H4 H5 H6 n.
  eapply Nat.le_trans; [eapply peephole_cost with (ft := FStart); eauto; eapply root_open with (ft := FStart); eauto|].
  pose proof (open_parts_bound H0 (root_ctx (forget o) st)). apply Nat.mul_le_mono_l, Nat.pow_le_mono_l. lia.
Qed.

Theorem C60_window_at_end o d w st path ku kd ups downs l r b c a :
  orep o d -> ovalid o -> ounique o -> open_once o ->
  leads (oid_at o) [] (open_layout w o st) path b c a ->
  above (b ++ c) ku ups l -> below a kd r downs ->
  forall n, window_cost n d w path FEnd st ku kd <= 36 * (open_parts o + 2) ^ 2.
Proof.
  intros H1 H2 H3 H0 H4 H5 H6 n.
  eapply Nat.le_trans; [eapply peephole_cost with (ft := FEnd); eauto; eapply root_open with (ft := FEnd); eauto|].
  pose proof (open_parts_bound H0 (root_ctx (forget o) st)). apply Nat.mul_le_mono_l, Nat.pow_le_mono_l. lia.
Qed.

End Peephole.
