(** C60, the other two focus targets: a focus mark, and a position in a text. *)
From Verif Require Export PTag3 Properties26.

Set Implicit Arguments.

Section Peephole3.
Context {pd : PrettyDoc} {env : Env} {ideq : IdEq pd}.

(** C60.  As C60_window_at_start, with the focus at the first mark of the node at
    [path] (the hypotheses are those of C57_window_at_mark): finding the mark does
    not make the work depend on the closed nodes either. *)
Theorem C60_window_at_mark o d w st path j ku kd ups downs l r b c a mid rest :
  orep o d -> ovalid o -> ounique o -> open_once o ->
  leads (oid_at o) [] (open_layout w o st) path b c a -> oid_at o path = Some j ->
  c ++ a = map Ev mid ++ Ev (EMark j) :: rest -> ~ In (EMark j) mid ->
  above (b ++ map Ev mid ++ [Ev (EMark j)]) ku ups l -> below rest kd r downs ->
  forall n, window_cost n d w path FMark st ku kd <= 36 * (open_parts o + 2) ^ 2.
Proof.
  intros H1 H2 H3 H0 H4 H5 H6 H7 H8 H9 n.
  eapply Nat.le_trans; [eapply mark_cost; eauto|].
  pose proof (open_parts_bound H0 (root_ctx (forget o) st)). apply Nat.mul_le_mono_l, Nat.pow_le_mono_l. lia.
Qed.

Theorem C60_window_in_text o d w st path k ku kd ups downs l r b c a mid j t rest :
  orep o d -> ovalid o -> ounique o -> open_once o ->
  leads (oid_at o) [] (open_layout w o st) path b c a ->
  c ++ a = map Ev mid ++ Ev (EText j t) :: rest ->
  (forall j' t', In (EText j' t') mid -> tx_from_text t' = false) -> tx_from_text t = true ->
  (str_width (firstn k (tx_str t)) + str_width (skipn k (tx_str t)) = tx_width t)%N ->
  above (b ++ map Ev mid ++ [Ev (EText j (fst (split_at t k)))]) ku ups l ->
  below (Ev (EText j (snd (split_at t k))) :: rest) kd r downs ->
  forall n, window_cost n d w path (FText k) st ku kd <= 36 * (open_parts o + 2) ^ 2.
Proof.
  intros H1 H2 H3 H0 H4 H5 H6 H7 H8 H9 H10 n.
  eapply Nat.le_trans; [eapply text_cost; eauto|].
  - destruct (existsb tftext mid) eqn:E; auto. apply existsb_exists in E as (e & Hin & He).
    destruct e; try discriminate. simpl in He. rewrite (H6 _ _ Hin) in He. discriminate.
  - pose proof (open_parts_bound H0 (root_ctx (forget o) st)). apply Nat.mul_le_mono_l, Nat.pow_le_mono_l. lia.
Qed.

End Peephole3.
