(** First displays: where they lie in the layout. *)
From Verif Require Export POrder Properties35.

Set Implicit Arguments.

Section Traces.
Context {pd : PrettyDoc} {env : Env}.

(** All of the first display of a node is inside the node. *)
Lemma fd_inside (idat : list nat -> option Id) (es : list event) (G : good idat [] es) q a b c :
  first_display es q a b c -> forall u v, b = u ++ v -> in_node (a ++ u) q.
Proof.
  intros H. pose proof (fd_parts H) as E. destruct H as [|q a b1 j i b2 b3 c H H1 H2 H3 H4].
  - intros u v _. exists (open_path ([] ++ u)). reflexivity.
  - intros u. induction u as [|e u IH] using rev_ind; intros v Ev.
    + exists []. rewrite !app_nil_r, app_assoc, open_enter, H1. reflexivity.
    + assert (Ev' : b2 = u ++ (e :: v)) by (rewrite Ev, <- app_assoc; reflexivity).
      destruct (IH _ Ev') as [q' Hq']. rewrite app_assoc.
      set (s := (a ++ b1 ++ [EEnter j i]) ++ u) in *.
      assert (Gs : good idat (open_from [] s) [e]).
      { assert (Ex : es = (s ++ [e]) ++ v ++ EExit j i :: b3 ++ c).
        { rewrite E, Ev. unfold s. rewrite <- !app_assoc. reflexivity. }
        rewrite Ex in G. apply good_app in G as [G _]. apply good_app in G as [_ G]. exact G. }
      destruct e as [j' t| |ind|j'|j' n|j' n]; try (exists q'; rewrite open_same by discriminate; exact Hq').
      * exists (q' ++ [n]). rewrite open_enter, Hq', app_assoc. reflexivity.
      * unfold in_node. rewrite open_exit. destruct q' as [|z q' _] using rev_ind.
        -- exfalso. rewrite app_nil_r in Hq'. simpl in Gs. destruct Gs as (stk' & Es & _).
           assert (n = i).
           { unfold open_path in Hq'. rewrite Es in Hq'. simpl in Hq'. apply app_inj_tail in Hq' as [_ ->]. reflexivity. }
           subst n. apply (H4 u j' v Ev'). rewrite <- Hq'. f_equal. unfold s. rewrite <- !app_assoc. reflexivity.
        -- exists q'. rewrite Hq', app_assoc, removelast_last. reflexivity.
Qed.

Lemma fd_nested es q k : forall a b c, first_display es (q ++ k) a b c ->
  exists a0 x y c0, first_display es q a0 (x ++ b ++ y) c0 /\ a = a0 ++ x /\ c = y ++ c0.
Proof.
  induction k as [|i k IH] using rev_ind; intros a b c H.
  - rewrite app_nil_r in H. exists a, [], [], c. rewrite !app_nil_r. auto.
  - rewrite app_assoc in H. apply fd_inv in H as (a0 & b1 & j & b3 & c0 & H & _ & _ & _ & _ & -> & ->).
    destruct (IH _ _ _ H) as (a1 & x & y & c1 & H1 & -> & ->).
    exists a1, (x ++ b1 ++ [EEnter j i]), (EExit j i :: b3 ++ y), c1. rewrite <- !app_assoc. split.
    + rewrite <- !app_assoc in H1. cbn [app] in H1 |- *. rewrite <- !app_assoc in H1. cbn [app] in H1.
      rewrite <- ?app_assoc. cbn [app]. exact H1.
    + split; [reflexivity|]. cbn [app]. rewrite <- app_assoc. reflexivity.
Qed.

Lemma fd_open es q a b c : first_display es q a b c -> open_path a = q.
Proof. intros [|q' a' b1 j i b2 b3 c' H H1 _ _ _]; [reflexivity|]. rewrite app_assoc, open_enter, H1. reflexivity. Qed.

(** A place that is not inside a node is before or after the node's first display. *)
Lemma fd_outside (idat : list nat -> option Id) (es : list event) (G : good idat [] es) q a b c d e :
  first_display es q a b c -> es = d ++ e -> ~ in_node d q ->
  (exists x, a = d ++ x) \/ (exists x, d = (a ++ b) ++ x).
Proof.
  intros H Ed Hd. pose proof (fd_parts H) as E. rewrite Ed in E.
  destruct (app_compare _ _ _ _ E) as [Hx|(y & x & ->)]; [left; exact Hx|]. right.
  rewrite <- app_assoc in E. apply app_inv_head in E.
  destruct (app_compare _ _ _ _ E) as [[z Hz]|(z & l & Hz)].
  - exfalso. apply Hd. exact (fd_inside _ G H _ _ Hz).
  - rewrite Hz. exists (z :: l). rewrite <- !app_assoc. reflexivity.
Qed.

(** Paths, neither of which continues the other, part somewhere. *)
Lemma paths_part : forall (q1 q2 : list nat), (forall x, q2 <> q1 ++ x) -> (forall x, q1 <> q2 ++ x) ->
  exists p i j k1 k2, q1 = (p ++ [i]) ++ k1 /\ q2 = (p ++ [j]) ++ k2 /\ i <> j.
Proof.
  induction q1 as [|i q1 IH]; intros q2 H1 H2; [destruct (H1 q2); reflexivity|].
  destruct q2 as [|j q2]; [destruct (H2 (i :: q1)); reflexivity|].
  destruct (Nat.eq_dec i j) as [<-|Hne].
  - destruct (IH q2) as (p & i' & j' & k1 & k2 & -> & -> & Hij).
    + intros x E. apply (H1 x). rewrite E. reflexivity.
    + intros x E. apply (H2 x). rewrite E. reflexivity.
    + exists (i :: p), i', j', k1, k2. auto.
  - exists [], i, j, q1, q2. auto.
Qed.

Lemma fd_apart (idat : list nat -> option Id) (es : list event) (G : good idat [] es) p i j a b c a' b' c' :
  i <> j -> first_display es (p ++ [i]) a b c -> first_display es (p ++ [j]) a' b' c' ->
  (exists x, a' = (a ++ b) ++ x) \/ (exists x, a = (a' ++ b') ++ x).
Proof.
  intros Hij H H'.
  assert (Hd : forall i j a b c, i <> j -> first_display es (p ++ [i]) a b c -> ~ in_node a (p ++ [j])).
  { clear. intros i j a b c Hij H [q' E]. rewrite (fd_open H), <- app_assoc in E. apply app_inv_head in E. injection E as -> _. contradiction. }
  destruct (fd_outside _ G _ H (fd_parts H') (Hd j i a' b' c' (not_eq_sym Hij) H')) as [[x Hx]|Hx]; [|left; exact Hx].
  destruct (fd_outside _ G _ H' (fd_parts H) (Hd i j a b c Hij H)) as [[y Hy]|Hy]; [|right; exact Hy].
  exfalso. assert (Ea : a = a').
  { rewrite Hy in Hx. rewrite <- app_assoc in Hx. rewrite <- (app_nil_r a) in Hx at 1. apply app_inv_head in Hx.
    symmetry in Hx. apply app_eq_nil in Hx as [-> _]. rewrite Hy, app_nil_r. reflexivity. }
  apply Hij. pose proof (fd_open H) as O. pose proof (fd_open H') as O'. rewrite Ea, O' in O. apply app_inj_tail in O as [_ ->]. reflexivity.
Qed.

End Traces.
