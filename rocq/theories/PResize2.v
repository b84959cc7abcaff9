(** What is printed is determined by the layout (and the focus), whatever the
    width was. *)
From Verif Require Import PStyle.

Set Implicit Arguments.

Lemma first_split A (f : A -> bool) u x v u' x' v' :
  existsb f u = false -> f x = true -> existsb f u' = false -> f x' = true ->
  u ++ x :: v = u' ++ x' :: v' -> u = u' /\ x = x' /\ v = v'.
Proof.
  revert u'. induction u as [|y u IH]; intros [|y' u']; simpl; intros H1 H2 H3 H4 E; injection E as -> E; subst; auto.
  - rewrite H2 in H3. discriminate.
  - rewrite H4 in H1. discriminate.
  - apply orb_false_iff in H1 as [_ H1]. apply orb_false_iff in H3 as [_ H3].
    destruct (IH u' H1 H2 H3 H4 E) as (-> & -> & ->). auto.
Qed.

Section Same.
Context {pd : PrettyDoc} {env : Env} {ideq : IdEq pd}.
Variables (r : rdoc) (doc : D).
Hypothesis Hrep : rep r doc.
Hypothesis Hv : valid_doc r.
Hypothesis Hu : unique_ids (id_at r).

Lemma split_len A (a b a' b' : list A) : a ++ b = a' ++ b' -> length a = length a' -> a = a' /\ b = b'.
Proof.
  revert a'. induction a as [|x a IH]; intros [|x' a']; simpl; intros E H; try discriminate; auto.
  injection E as -> E. injection H as H. destruct (IH a' E H) as [-> ->]. auto.
Qed.

Lemma mark_split (j : Id) a b a' b' : ~ In (EMark j) a -> ~ In (EMark j) a' ->
  a ++ EMark j :: b = a' ++ EMark j :: b' -> a = a' /\ b = b'.
Proof.
  revert a'. induction a as [|x a IH]; intros [|x' a']; simpl; intros H1 H2 E.
  - injection E as ->. auto.
  - injection E as <- E. destruct H2; auto.
  - injection E as -> E. destruct H1; auto.
  - injection E as -> E. destruct (IH a') as [-> ->]; auto.
Qed.

Lemma divided_unique w st es ft q pre post pre' post' : layout w (doc_shape r st) = Some es -> linear es ->
  divided (NPL r) ft q es pre post -> divided (NPL r) ft q es pre' post' -> pre = pre' /\ post = post'.
Proof.
  intros Hes Hlin D D'. destruct (layout_good Hv _ _ Hes) as [G O].
  assert (S : forall a b a' b', es = a ++ b -> es = a' ++ b' -> start_at (NPL r) q a -> start_at (NPL r) q a' -> a = a' /\ b = b').
  { intros a b a' b' E E' H H'.
    assert (at_start a q) by (eapply start_at_start; eauto). assert (at_start a' q) by (eapply start_at_start; eauto).
    apply split_len; [congruence|]. eapply start_unique; eauto. }
  destruct ft as [| | |n]; simpl in D, D'.
  - destruct D as [E H], D' as [E' H']. eapply S; eauto.
  - destruct D as [E H], D' as [E' H'].
    assert (at_end pre post q) by (eapply end_at_end; eauto). assert (at_end pre' post' q) by (eapply end_at_end; eauto).
    apply split_len; [congruence|]. eapply end_unique; eauto.
  - destruct D as [E (a & mid & j & -> & H & Hj & Hn)], D' as [E' (a' & mid' & j' & -> & H' & Hj' & Hn')].
    rewrite <- !app_assoc in E, E'. destruct (S _ _ _ _ E E' H H') as [-> Em].
    unfold NPL in Hj, Hj'. rewrite Hj in Hj'. injection Hj' as <-. simpl in Em.
    destruct (@mark_split _ _ _ _ _ Hn Hn' Em) as [-> ->]. auto.
  - destruct D as (a & mid & j & t & rest & E & -> & -> & H & Hn & Ht), D' as (a' & mid' & j' & t' & rest' & E' & -> & -> & H' & Hn' & Ht').
    destruct (S _ _ _ _ E E' H H') as [-> Em].
    destruct (@first_split _ is_ftext mid (EText j t) rest mid' (EText j' t') rest') as (-> & [= -> ->] & ->); auto.
Qed.

(** Two widths with the same layout. *)
Lemma same_layout w w' st es path ft ups fl downs :
  layout w (doc_shape r st) = Some es -> layout w' (doc_shape r st) = Some es -> linear es ->
  (is_text_target ft = true -> splittable r) ->
  printed doc w path ft st ups fl downs -> printed doc w' path ft st ups fl downs.
Proof.
  intros Hes Hes' Hlin Hs (up & down & H1 & H2 & H3).
  destruct (@lab_spec _ _ _ r doc Hrep Hv Hu w path ft st Hs) as (res & Hev & H).
  pose proof (ev_det Hev H1). subst res. destruct H as (ru & rd & Hru & Hrd & _ & _ & H). rewrite Hes in H.
  destruct H as (ups0 & downs0 & pre & post & -> & -> & D & L1 & L2).
  pose proof (ev_det Hru H2) as [= ->]. pose proof (ev_det Hrd H3) as [= ->].
  assert (Hd : displayed es path) by (eapply divided_displayed; eauto).
  destruct (@path_accepted _ _ _ r doc Hrep Hv Hu w' st es path ft Hes' Hlin Hs Hd)
    as [(ups' & fl' & downs' & pre' & post' & Hp' & D' & L1' & L2')|[(-> & _ & j & a & mid & E & Hst & Hj & Hn)|(Ht & _ & a & mid & E & Hst & Hn)]].
  - destruct (@divided_unique w st es ft path _ _ _ _ Hes Hlin D D') as [<- <-].
    rewrite L1 in L1'. apply app_inj_tail in L1' as [Eu El].
    rewrite L2 in L2'. injection L2' as Er Ed. apply (f_equal (@rev _)) in Eu. rewrite !rev_involutive in Eu.
    destruct fl, fl'. simpl in *. subst. exact Hp'.
  - exfalso. destruct D as [E' (a' & mid' & j' & -> & H' & Hj' & Hn')]. rewrite <- !app_assoc in E'.
    assert (D1 : divided (NPL r) FStart path es a mid) by (split; auto).
    assert (D2 : divided (NPL r) FStart path es a' (mid' ++ [EMark j'] ++ post)) by (split; auto).
    destruct (@divided_unique w st es FStart path _ _ _ _ Hes Hlin D1 D2) as [_ ->].
    unfold NPL in Hj, Hj'. rewrite Hj in Hj'. injection Hj' as <-. apply Hn. apply in_or_app. right. simpl. auto.
  - exfalso. destruct ft; try discriminate. destruct D as (a' & mid' & j' & t' & rest' & E' & -> & -> & H' & Hn' & Ht').
    assert (D1 : divided (NPL r) FStart path es a mid) by (split; auto).
    assert (D2 : divided (NPL r) FStart path es a' (mid' ++ EText j' t' :: rest')) by (split; auto).
    destruct (@divided_unique w st es FStart path _ _ _ _ Hes Hlin D1 D2) as [_ ->].
    rewrite existsb_app in Hn. apply orb_false_iff in Hn as [_ Hn]. simpl in Hn. rewrite Ht' in Hn. discriminate.
Qed.

End Same.
