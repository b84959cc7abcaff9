(** The size of the open part of a stack of lines, and the work of printing a
    few of its lines. *)
From Verif Require Export PStack2 PPeek10 Properties26.

Set Implicit Arguments.

Section Sizes.
Context {pd : PrettyDoc} {env : Env}.
Variable B : nat.

Lemma fold_parts k : note_parts k (Fold (Child 0) (n_xor Left Right)) 1 = 1 + 4 * (k - 1).
Proof.
  cbn [note_parts Nat.max].
  assert (G : forall n m acc, folded (fun _ acc0 => note_parts k (n_xor Left Right) acc0) m n acc = acc + 4 * n).
  { induction n as [|n IH]; intros m acc; cbn [folded]; [lia|]. rewrite IH. cbn. lia. }
  rewrite G. lia.
Qed.

Lemma fold_uses k m : note_uses k m (Fold (Child 0) (n_xor Left Right)) 0 0 <= 1.
Proof.
  cbn [note_uses].
  assert (G : forall n s acc, folded (fun x acc0 => note_uses k m (n_xor Left Right) acc0 (if Nat.eqb x m then 1 else 0)) s n acc =
    acc + (if (s <? m) && (m <=? s + n) then 1 else 0)).
  { induction n as [|n IH]; intros s acc; cbn [folded].
    - destruct (s <? m) eqn:E1; destruct (m <=? s + 0) eqn:E2; cbn [andb]; try lia.
      apply Nat.ltb_lt in E1. apply Nat.leb_le in E2. lia.
    - rewrite IH. cbn [note_uses n_xor].
      destruct (Nat.eqb (S s) m) eqn:E0; destruct (S s <? m) eqn:E1; destruct (m <=? S s + n) eqn:E2;
        destruct (s <? m) eqn:E3; destruct (m <=? s + S n) eqn:E4; cbn [andb];
        rewrite ?Nat.eqb_eq, ?Nat.eqb_neq, ?Nat.ltb_lt, ?Nat.ltb_ge, ?Nat.leb_le, ?Nat.leb_gt in *; lia. }
  rewrite G. unfold kid_number.
  destruct k as [|k]; [simpl; destruct (0 <? m) eqn:E; destruct (m <=? 0) eqn:E'; cbn [andb]; lia|].
  replace (0 <? Z.of_nat (S k))%Z with true by (symmetry; apply Z.ltb_lt; lia).
  cbn [Z.leb Z.compare Z.to_nat andb].
  destruct (Nat.eqb 0 m) eqn:E0; destruct (0 <? m) eqn:E1; cbn [andb]; rewrite ?Nat.eqb_eq, ?Nat.ltb_lt in *; try lia;
  match goal with |- context[if ?b then _ else _] => destruct b end; lia.
Qed.

Lemma stacked_valid h r : stacked B h r -> valid_doc r.
Proof.
  revert h. induction r as [i s|i ks IH] using rdoc_ind'; intros h H; inversion H as [h' i' s' Hn|h' i' ks' Hn Hne Hl Hk]; subst; constructor;
    try (rewrite Hn; reflexivity). intros k Hin. eapply IH; eauto.
Qed.

Lemma stacked_le h h' r : stacked B h r -> h <= h' -> stacked B h' r.
Proof.
  intros H. revert h'. induction H as [h i s Hn|h i ks Hn Hne Hl Hk IH]; intros h' Hle; [constructor; auto|].
  destruct h' as [|h']; [lia|]. constructor; auto. intros k Hin. apply IH; auto. lia.
Qed.

Variables lo hi : nat.
Notation opn := (opn lo hi).
Notation opns := (opns lo hi).
Notation total ks := (list_sum (map leaves ks)).

(** How many of the [n] leaves from [a] on are open. *)
Definition seen (a n : nat) : nat := Nat.min hi (a + n) - Nat.max lo a.

Lemma seen_far a n : far lo hi a n = true -> seen a n = 0.
Proof. rewrite far_true. unfold seen. lia. Qed.
Lemma seen_near a n : lo < hi -> 1 <= n -> far lo hi a n = false -> 1 <= seen a n.
Proof. rewrite far_false. unfold seen. lia. Qed.
Lemma seen_add a n m : seen a (n + m) = seen a n + seen (a + n) m.
Proof. unfold seen. lia. Qed.

Lemma open_once_opn r : forall h a, stacked B h r -> open_once (opn r a).
Proof.
  induction r as [i s|i ks IH] using rdoc_ind'; intros h a Hs.
  - cbn [PStack.opn]. destruct (far lo hi a _); constructor.
  - destruct (far lo hi a (leaves (RBranch i ks))) eqn:E.
    + cbn [PStack.opn]. rewrite E. constructor.
    + rewrite (opn_branch _ _ _ _ _ E). inversion Hs as [|h' i' ks' Hn Hne Hl Hk]; subst.
      constructor; [intros m; rewrite Hn; apply fold_uses|].
      clear - IH Hk. revert a. induction ks as [|k ks IHk]; intros a x; cbn [PStack.opns]; [intros []|].
      intros [<-|Hx].
      * apply IH with (h := h'); [left; reflexivity|]. apply Hk. left. reflexivity.
      * apply IHk with (a := a + leaves k); auto; intros k' H'; [apply IH|apply Hk]; right; exact H'.
Qed.

Lemma opn_parts r : forall h a, lo < hi -> stacked B h r ->
  open_parts (opn r a) <= if far lo hi a (leaves r) then 1 else seen a (leaves r) * (5 * B * h + 1).
Proof.
  induction r as [i s|i ks IH] using rdoc_ind'; intros h a Hlt Hs; pose proof (leaves_pos Hs) as Hp.
  - inversion Hs as [h' i' s' Hn|]; subst. cbn [PStack.opn].
    destruct (far lo hi a (leaves (RText i s))) eqn:E; cbn [open_parts]; [lia|]. rewrite Hn. cbn [note_parts].
    pose proof (seen_near _ Hlt Hp E). nia.
  - destruct (far lo hi a (leaves (RBranch i ks))) eqn:E.
    + cbn [PStack.opn]. rewrite E. cbn [open_parts]. lia.
    + pose proof (seen_near _ Hlt Hp E) as Hn1. rewrite (opn_branch _ _ _ _ _ E). inversion Hs as [|h' i' ks' Hn Hne Hl Hk]; subst.
      cbn [open_parts]. rewrite Hn, fold_parts, opns_length.
      assert (G : forall ks0 b, (forall k, In k ks0 -> In k ks) ->
        list_sum (map open_parts (opns ks0 b)) <= length ks0 + seen b (total ks0) * (5 * B * h' + 1)).
      { induction ks0 as [|k ks0 IHk]; intros b Hin; cbn [PStack.opns map length]; [simpl; lia|].
        change (list_sum (leaves k :: map leaves ks0)) with (leaves k + total ks0).
        change (list_sum (open_parts (opn k b) :: map open_parts (opns ks0 (b + leaves k))))
          with (open_parts (opn k b) + list_sum (map open_parts (opns ks0 (b + leaves k)))).
        specialize (IHk (b + leaves k) ltac:(intros k' H'; apply Hin; right; exact H')).
        pose proof (IH k ltac:(apply Hin; left; reflexivity) h' b Hlt (Hk k ltac:(apply Hin; left; reflexivity))) as H.
        rewrite (seen_add b (leaves k) (total ks0)), Nat.mul_add_distr_r.
        destruct (far lo hi b (leaves k)) eqn:Efar; [rewrite (seen_far _ _ Efar)|]; lia. }
      specialize (G ks a ltac:(auto)). cbn [leaves] in *.
      set (x := 5 * B * h') in *. replace (5 * B * S h') with (5 * B + x) by (unfold x; nia).
      set (y := seen a (total ks)) in *. rewrite (Nat.mul_add_distr_l y), (Nat.mul_add_distr_l y (5 * B)). rewrite (Nat.mul_add_distr_l y x) in G.
      assert (5 * B <= y * (5 * B)) by nia. assert (1 <= length ks) by (destruct ks; [congruence|simpl; lia]). lia.
Qed.
End Sizes.

Section Known.
Context {pd : PrettyDoc} {env : Env}.

Lemma split_last {X} (l : list X) n : length l = S n -> exists all x, l = rev all ++ [x] /\ length all = n.
Proof.
  destruct l as [|y l] using rev_ind; [discriminate|]. intros H. rewrite app_length in H. simpl in H.
  exists (rev l), y. rewrite rev_involutive, rev_length. split; auto. lia.
Qed.

Lemma kall_above x m k : kall x m -> exists ups l, above x k ups l.
Proof.
  intros (u & -> & Hn). unfold above, lines_of. destruct (@split_last _ (lines_from [] u) m) as (all & l & E & Hl).
  { rewrite nl_lines. congruence. }
  exists (firstn k all), l. left. exists u, all. auto.
Qed.

Lemma kend_above x m k : kend x m -> k <= m -> exists ups l, above x k ups l.
Proof.
  intros (z & u & -> & Hn) Hk. destruct (@split_last _ (lines_from (rev []) u) m) as (all & l & E & Hl).
  { rewrite nl_lines. congruence. }
  exists (firstn k all), l. apply above_le with (all := all); auto. lia.
Qed.

Lemma kall_below x m k : kall x m -> exists r downs, below x k r downs.
Proof.
  intros (u & -> & Hn). pose proof (nl_lines u []) as H. destruct (lines_from [] u) as [|r all] eqn:E; [discriminate|].
  exists r, (firstn k all). left. exists u, all. auto.
Qed.

Lemma kbeg_below x m k : kbeg x m -> k <= m -> exists r downs, below x k r downs.
Proof.
  intros (u & z & -> & Hn) Hk. pose proof (nl_lines u []) as H. destruct (lines_from [] u) as [|r all] eqn:E; [discriminate|].
  simpl in H. exists r, (firstn k all). apply below_le; auto. lia.
Qed.
End Known.

Section Work.
Context {pd : PrettyDoc} {env : Env} {ideq : IdEq pd}.

Theorem stack_work B h r d w st path i s ft ku kd : ft = FStart \/ ft = FEnd ->
  stacked B h r -> rep r d -> unique_ids (id_at r) -> node_at r path = Some (RText i s) ->
  forall n, window_cost n d w path ft st ku kd <= 36 * ((ku + kd + 1) * (5 * B * h + 1) + 2) ^ 2.
Proof.
  intros Hft Hs Hr Hu Hn n. pose proof (leaf_no_lt _ Hs Hn) as Hlt.
  set (t := leaf_no r path) in *. set (lo := t - ku). set (hi := t + kd + 1).
  set (o := opn lo hi r 0).
  pose proof (opn_closes lo hi r 0) as Hc. fold o in Hc.
  pose proof (closes_orep Hc Hr) as Ho. pose proof (closes_valid Hc (stacked_valid Hs)) as Hv.
  pose proof (closes_unique Hc Hu) as Hou.
  pose proof (@open_once_opn _ B lo hi r h 0 Hs) as Hoo. fold o in Hoo.
  assert (Hfar : far lo hi 0 (leaves r) = false) by (apply far_false; unfold lo, hi; lia).
  assert (Hparts : open_parts o <= (ku + kd + 1) * (5 * B * h + 1)).
  { pose proof (@opn_parts _ B lo hi r h 0 ltac:(unfold lo, hi; lia) Hs) as H. fold o in H. rewrite Hfar in H.
    eapply Nat.le_trans; [exact H|]. apply Nat.mul_le_mono_r. unfold seen, lo, hi. lia. }
  destruct (@path_leads _ _ w lo hi B o Hv Hou path r h 0 [] st i s Hs eq_refl Hn) as (b & c & a & Hl & Kc & Kb1 & Kb2 & Ka1 & Ka2).
  { cbn [Nat.add]. unfold lo. lia. }
  { cbn [Nat.add]. unfold hi. lia. }
  fold o in Hl. cbn [Nat.add] in *. fold t in Kb1, Kb2, Ka1, Ka2.
  assert (Hab : exists ups l, above (pre_of ft b c) ku ups l).
  { destruct Hft as [->| ->]; cbn [pre_of].
    - destruct (le_lt_dec lo 0) as [H|H]; [eapply kall_above; apply Kb1; exact H|].
      eapply kend_above; [apply Kb2; exact H|]. unfold lo in *. lia.
    - destruct (le_lt_dec lo 0) as [H|H].
      + eapply kall_above. apply kall_app; [apply Kb1; exact H|exact Kc].
      + eapply kend_above; [eapply kend_kall; [apply Kb2; exact H|exact Kc]|]. unfold lo in *. lia. }
  assert (Hbe : exists rr downs, below (post_of ft c a) kd rr downs).
  { destruct Hft as [->| ->]; cbn [post_of].
    - destruct (le_lt_dec (leaves r) hi) as [H|H].
      + eapply kall_below. apply kall_app; [exact Kc|apply Ka1; exact H].
      + eapply kbeg_below; [apply kall_kbeg; [exact Kc|apply Ka2; exact H]|]. unfold hi. lia.
    - destruct (le_lt_dec (leaves r) hi) as [H|H]; [eapply kall_below; apply Ka1; exact H|].
      eapply kbeg_below; [apply Ka2; exact H|]. unfold hi. lia. }
  destruct Hab as (ups & l & Hab). destruct Hbe as (rr & downs & Hbe).
  assert (H : window_cost n d w path ft st ku kd <= 36 * (open_parts o + 2) ^ 2).
  { destruct Hft as [->| ->]; [eapply C60_window_at_start|eapply C60_window_at_end]; eauto. }
  eapply Nat.le_trans; [exact H|]. apply Nat.mul_le_mono_l, Nat.pow_le_mono_l. lia.
Qed.
End Work.
