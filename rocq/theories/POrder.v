(** The order of the focuses. *)
From Verif Require Export SpecOrder Properties2.

Set Implicit Arguments.

Lemma not_after_trans p q r : not_after p q -> not_after q r -> not_after p r.
Proof.
  intros [H1|[H1 [m1 E1]]] [H2|[H2 [m2 E2]]]; try (left; lia).
  right. split; [congruence|]. exists (m1 ++ m2). rewrite E2, E1, app_assoc. reflexivity.
Qed.

Section Traces.
Context {pd : PrettyDoc} {env : Env}.

Definition in_node (a : list event) (q : list nat) : Prop := exists q', open_path a = q ++ q'.

Lemma in_node_dec a q : in_node a q \/ ~ in_node a q.
Proof.
  destruct (list_eq_dec Nat.eq_dec (firstn (length q) (open_path a)) q) as [E|E].
  - left. exists (skipn (length q) (open_path a)). rewrite <- E at 1. symmetry. apply firstn_skipn.
  - right. intros [q' H]. apply E. rewrite H, firstn_app, firstn_all, Nat.sub_diag. cbn. apply app_nil_r.
Qed.

Lemma open_enter a j n : open_path (a ++ [EEnter j n]) = open_path a ++ [n].
Proof. unfold open_path. rewrite open_from_app. reflexivity. Qed.
Lemma open_exit a j n : open_path (a ++ [EExit j n]) = removelast (open_path a).
Proof.
  unfold open_path. rewrite open_from_app. cbn. destruct (open_from [] a) as [|x l]; [reflexivity|]. cbn. symmetry. apply removelast_last.
Qed.
Lemma open_same a e : (forall j n, e <> EEnter j n) -> (forall j n, e <> EExit j n) -> open_path (a ++ [e]) = open_path a.
Proof.
  intros H1 H2. unfold open_path. rewrite open_from_app. destruct e; try reflexivity; [destruct (H1 j n)|destruct (H2 j n)]; reflexivity.
Qed.

(** To be in a node, one has to enter it. *)
Lemma entering q a x : ~ in_node a q -> in_node (a ++ x) q ->
  exists x1 j n x2, x = x1 ++ EEnter j n :: x2 /\ open_path (a ++ x1) ++ [n] = q.
Proof.
  intros Ha. induction x as [|e x IH] using rev_ind; intros H.
  - rewrite app_nil_r in H. contradiction.
  - destruct (in_node_dec (a ++ x) q) as [Hx|Hx].
    + destruct (IH Hx) as (x1 & j & n & x2 & -> & E). exists x1, j, n, (x2 ++ [e]). rewrite <- app_assoc. auto.
    + rewrite app_assoc in H. destruct H as [q' H].
      assert (Hno : open_path ((a ++ x) ++ [e]) <> open_path (a ++ x)) by (intros E; apply Hx; exists q'; congruence).
      destruct e as [j t| |ind|j|j n|j n]; try (exfalso; apply Hno, open_same; discriminate).
      * rewrite open_enter in H. destruct q' as [|z q' _] using rev_ind.
        -- rewrite app_nil_r in H. exists x, j, n, []. auto.
        -- rewrite app_assoc in H. apply app_inj_tail in H as [H _]. exfalso. apply Hx. exists q'. exact H.
      * rewrite open_exit in H. exfalso. destruct (open_path (a ++ x)) as [|z p _] eqn:E using rev_ind.
        -- apply Hx. exists []. cbn in H. destruct q; [exact E|discriminate].
        -- rewrite removelast_last in H. apply Hx. exists (q' ++ [z]). rewrite E, H, app_assoc. reflexivity.
Qed.

Lemma not_in_root q : q <> [] -> ~ in_node [] q.
Proof. intros H [q' E]. cbn in E. destruct q; [contradiction|discriminate]. Qed.

Lemma app_compare A (a : list A) : forall b c d, a ++ b = c ++ d -> (exists x, c = a ++ x) \/ (exists y x, a = c ++ y :: x).
Proof.
  induction a as [|y a IH]; intros b c d H; [left; exists c; reflexivity|].
  destruct c as [|z c]; [right; exists y, a; reflexivity|]. injection H as -> H.
  destruct (IH _ _ _ H) as [[x ->]|(y' & x & ->)]; [left; exists x; reflexivity|right; exists y', x; reflexivity].
Qed.

Section Good.
Variables (idat : list nat -> option Id) (es : list event).
Hypothesis G : good idat [] es.
Hypothesis Hlin : linear es.

Lemma enter_once a1 j1 n1 b1 a2 j2 n2 b2 : es = a1 ++ EEnter j1 n1 :: b1 -> es = a2 ++ EEnter j2 n2 :: b2 ->
  open_path a1 ++ [n1] = open_path a2 ++ [n2] -> a1 = a2.
Proof.
  intros E1 E2 E. apply app_inj_tail in E as [E ->].
  assert (J : forall a j b n, es = a ++ EEnter j n :: b -> idat (open_path a) = Some j).
  { intros a j b n ->. apply good_app in G as [_ G']. cbn in G'. apply G'. }
  pose proof (J _ _ _ _ E1) as J1. pose proof (J _ _ _ _ E2) as J2. rewrite E, J2 in J1. injection J1 as ->. clear J J2.
  assert (X : forall a b c d, es = a ++ EEnter j1 n2 :: b -> es = c ++ EEnter j1 n2 :: d -> (exists x, c = a ++ x) -> a = c).
  { intros a b c d Ea Ec [x ->]. rewrite <- app_assoc in Ec. destruct x as [|e x]; [symmetry; apply app_nil_r|exfalso].
    rewrite Ec in Ea. apply app_inv_head in Ea. injection Ea as -> Ea.
    rewrite Ec in Hlin. change (a ++ (EEnter j1 n2 :: x) ++ EEnter j1 n2 :: d) with (a ++ ([EEnter j1 n2] ++ x) ++ EEnter j1 n2 :: d) in Hlin.
    rewrite app_assoc in Hlin. eapply linear_disjoint; [exact Hlin| |left; reflexivity]. apply in_or_app. right. left. reflexivity. }
  pose proof E1 as E0. rewrite E2 in E0. destruct (app_compare _ _ _ _ E0) as [H|(y & x & H)]; [symmetry; eauto|]. eauto.
Qed.

Lemma after_start a b q c d : es = a ++ b -> at_start a q -> es = c ++ d -> in_node c q -> exists x, c = a ++ x.
Proof.
  intros Ea [[-> ->]|(a' & j & n & -> & Eq)] Ec Hc; [exists c; reflexivity|].
  destruct (@entering q [] c) as (c1 & j' & n' & c2 & -> & E'); [apply not_in_root; destruct (open_path a'); subst q; discriminate|exact Hc|].
  cbn [app] in E'. rewrite <- app_assoc in Ec, Ea. cbn [app] in Ea, Ec.
  assert (a' = c1) by (eapply enter_once; [exact Ea|exact Ec|congruence]). subst c1.
  rewrite Ea in Ec. apply app_inv_head in Ec. injection Ec as <- <- Ec. exists c2. rewrite <- app_assoc. reflexivity.
Qed.

Lemma before_end a b q c d : es = a ++ b -> at_end a b q -> es = c ++ d -> in_node c q -> exists x, a = c ++ x.
Proof.
  intros Ea Hend Ec Hc.
  assert (E0 : c ++ d = a ++ b) by congruence.
  destruct (app_compare _ _ _ _ E0) as [H|(y & x & ->)]; [exact H|exfalso].
  rewrite Ea, <- app_assoc in Ec. apply app_inv_head in Ec.
  destruct Hend as [[_ ->]|(b' & j & n & -> & Eq)]; [discriminate|]. injection Ec as <- Ec.
  assert (Hq : q <> []).
  { intros ->. rewrite Ea in G. apply good_app in G as [_ G']. cbn in G'. destruct G' as (stk' & E & _). unfold open_path in Eq. rewrite E in Eq. cbn in Eq. destruct (rev stk'); discriminate. }
  assert (Hout : ~ in_node (a ++ [EExit j n]) q).
  { intros [q' H]. rewrite open_exit, Eq in H. assert (length (removelast q) = length (q ++ q')) by congruence.
    rewrite app_length in H0. destruct q as [|z q _] using rev_ind; [contradiction|]. rewrite removelast_last in H0. rewrite app_length in H0. cbn [length] in H0. lia. }
  destruct (@entering q (a ++ [EExit j n]) x Hout) as (x1 & j1 & n1 & x2 & -> & E1); [rewrite <- app_assoc; exact Hc|].
  destruct (@entering q [] a) as (a1 & j2 & n2 & a2 & -> & E2); [apply not_in_root; exact Hq|exists []; rewrite app_nil_r; exact Eq|].
  cbn [app] in E2.
  assert (X : a1 = ((a1 ++ EEnter j2 n2 :: a2) ++ [EExit j n]) ++ x1).
  { eapply (@enter_once _ _ _ _ _ j1 n1); [rewrite Ea, <- app_assoc; reflexivity| |rewrite E2; symmetry; exact E1].
    rewrite Ea, Ec, <- !app_assoc. cbn [app]. rewrite <- ?app_assoc. reflexivity. }
  apply (f_equal (@length _)) in X. rewrite !app_length in X. cbn [length] in X. lia.
Qed.

Lemma start_open a q : at_start a q -> open_path a = q.
Proof. intros [[-> ->]|(a' & j & n & -> & <-)]; [reflexivity|apply open_enter]. Qed.
Lemma end_open a b q : es = a ++ b -> at_end a b q -> open_from [] es = [] -> open_path a = q.
Proof.
  intros E [[-> ->]|(b' & j & n & -> & Eq)] Ho; [|exact Eq]. rewrite app_nil_r in E. unfold open_path. rewrite <- E, Ho. reflexivity.
Qed.

(** A place that is not in a node is before or after it. *)
Lemma outside a b a' b' q c d : open_from [] es = [] -> es = a ++ b -> at_start a q -> es = a' ++ b' -> at_end a' b' q -> es = c ++ d ->
  ~ in_node c q -> (exists x, c = a' ++ x) \/ (exists x, a = c ++ x).
Proof.
  intros Ho Ea Hs Ea' He Ec Hc. assert (E0 : a' ++ b' = c ++ d) by congruence.
  destruct (app_compare _ _ _ _ E0) as [H|(y & x & E)]; [left; exact H|right].
  assert (Hw : in_node a' q) by (exists []; rewrite app_nil_r; eapply end_open; eauto).
  rewrite E in Hw. destruct (@entering q c (y :: x) Hc Hw) as (x1 & j & n & x2 & Ex & E1).
  destruct Hs as [[-> ->]|(a0 & j0 & n0 & -> & E2)].
  { exfalso. apply Hc. exists (open_path c). reflexivity. }
  assert (X : a0 = c ++ x1).
  { eapply (@enter_once _ _ _ _ _ j n); [rewrite Ea, <- app_assoc; reflexivity| |rewrite E2; symmetry; exact E1].
    rewrite Ea', E, Ex, <- !app_assoc. cbn [app]. rewrite <- ?app_assoc. reflexivity. }
  rewrite X. exists (x1 ++ [EEnter j0 n0]). rewrite <- app_assoc. reflexivity.
Qed.
End Good.

Lemma lines_order a x ups1 l1 ups2 l2 :
  lines_of a = rev ups1 ++ [l1] -> lines_of (a ++ x) = rev ups2 ++ [l2] ->
  not_after (length ups1, segs_to_string l1) (length ups2, segs_to_string l2).
Proof.
  intros H1 H2. unfold lines_of in *. destruct (lines_app a x []) as (l & ls & A1 & A2). rewrite A1 in H1. rewrite A2 in H2.
  apply app_inj_tail in H1 as [-> ->]. destruct (lines_cur x l1) as (r & rs & B1 & B2).
  specialize (B2). rewrite B2 in H2. destruct rs as [|y rs _] using rev_ind.
  - apply app_inj_tail in H2 as [H2 <-]. right. split; [apply (f_equal (@length _)) in H2; rewrite !rev_length in H2; exact H2|].
    exists (segs_to_string r). cbn [fst snd]. unfold segs_to_string. rewrite map_app, concat_app. reflexivity.
  - left. cbn [fst]. apply (f_equal (@length _)) in H2. rewrite !app_length, !rev_length in H2. cbn [length] in H2. rewrite app_length in H2. cbn [length] in H2. lia.
Qed.
End Traces.
