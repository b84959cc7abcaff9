(** Traces of trees with unique ids. *)
From Verif Require Export SpecFocus PLayout.

Set Implicit Arguments.

Section Lab.
Context {pd : PrettyDoc} {env : Env}.
Variable idat : list nat -> option Id.
Hypothesis uniq : unique_ids idat.

(** [stk]: the current path, innermost first. *)
Fixpoint good (stk : list nat) (es : list event) : Prop :=
  match es with
  | [] => True
  | EEnter j n :: es' => idat (rev stk) = Some j /\ good (n :: stk) es'
  | EExit j n :: es' => exists stk', stk = n :: stk' /\ idat (rev stk') = Some j /\ good stk' es'
  | EMark j :: es' => idat (rev stk) = Some j /\ good stk es'
  | EText j _ :: es' => idat (rev stk) = Some j /\ good stk es'
  | _ :: es' => good stk es'
  end.

Lemma open_from_app stk a b : open_from stk (a ++ b) = open_from (open_from stk a) b.
Proof. revert stk; induction a as [|[] a IH]; intros stk; simpl; auto. Qed.

Lemma good_app stk a b : good stk (a ++ b) <-> good stk a /\ good (open_from stk a) b.
Proof.
  revert stk; induction a as [|[] a IH]; intros stk; simpl; try rewrite IH; try tauto.
  split.
  - intros (stk' & -> & H1 & H2). apply IH in H2 as [H2 H3]. split; [eauto|]. exact H3.
  - intros [(stk' & -> & H1 & H2) H3]. exists stk'. split; auto. split; auto. apply IH. auto.
Qed.

Lemma rend_good w s : forall j k p es p' q,
  rend w s j k p = Some (es, p') -> labelled idat q s -> idat q = Some j ->
  good (rev q) es /\ open_from (rev q) es = rev q.
Proof.
  induction s as [f| | |ind|t|a IHa b IHb|a IHa b IHb|n i s IH|]; intros j k p es p' q; simpl; intros H Hl Hq.
  - discriminate.
  - injection H as <- <-. simpl. auto.
  - injection H as <- <-. simpl. auto.
  - apply obind_some in H as [x [_ [= <- <-]]]. simpl. auto.
  - apply obind_some in H as [x [_ [= <- <-]]]. simpl. rewrite rev_involutive. auto.
  - apply obind_some in H as [[e1 p1] [H1 H]]. apply obind_some in H as [[e2 p2] [H2 [= <- <-]]].
    destruct Hl as [Hla Hlb].
    destruct (IHa _ _ _ _ _ _ H1 Hla Hq) as [G1 O1]. destruct (IHb _ _ _ _ _ _ H2 Hlb Hq) as [G2 O2].
    rewrite good_app, open_from_app, O1. auto.
  - destruct (head_fails a); [discriminate|].
    apply obind_some in H as [f [_ H]]. destruct Hl as [Hla Hlb]. destruct f; eauto.
  - destruct i as [j'|]; [|discriminate]. destruct Hl as [Hi Hl].
    apply obind_some in H as [[e1 p1] [H1 [= <- <-]]].
    destruct (IH _ _ _ _ _ _ H1 Hl (Hi _ eq_refl)) as [G1 O1].
    rewrite rev_app_distr in *. simpl in *. rewrite good_app, open_from_app, O1. simpl.
    rewrite rev_involutive. repeat split; auto. exists (rev q). rewrite rev_involutive. auto.
  - injection H as <- <-. simpl. rewrite rev_involutive. auto.
Qed.

Lemma good_enter es a j n b q : good [] es -> es = a ++ EEnter j n :: b -> idat q = Some j -> open_path a = q.
Proof.
  intros G -> Hq. apply good_app in G as [_ G]. simpl in G. destruct G as [G _].
  eapply uniq; eauto.
Qed.

Lemma good_mark es a j b q : good [] es -> es = a ++ EMark j :: b -> idat q = Some j -> open_path a = q.
Proof.
  intros G -> Hq. apply good_app in G as [_ G]. simpl in G. destruct G as [G _].
  eapply uniq; eauto.
Qed.

Lemma good_exit es a j n b q : good [] es -> es = a ++ EExit j n :: b -> idat q = Some j ->
  open_path a = q ++ [n].
Proof.
  intros G -> Hq. apply good_app in G as [_ G]. simpl in G. destruct G as (stk' & E & G & _).
  unfold open_path. rewrite E. simpl. f_equal. eapply uniq; eauto.
Qed.

(** A node being open means it was entered. *)
Lemma opened : forall l es stk m stk', length es <= l -> good stk es ->
  open_from stk es = m :: stk' ->
  (exists a j b, es = a ++ EEnter j m :: b /\ open_from stk a = stk' /\ idat (rev stk') = Some j) \/
  (exists k, stk = k ++ m :: stk').
Proof.
  induction l as [|l IH]; intros es stk m stk' Hl G O.
  - destruct es; [|simpl in Hl; lia]. simpl in O. right. exists []. auto.
  - destruct es as [|e0 es0] using rev_ind; [right; exists []; auto|]. clear IHes0.
    rewrite app_length in Hl. simpl in Hl.
    apply good_app in G as [G G2]. rewrite open_from_app in O.
    assert (Hkeep : open_from stk es0 = m :: stk' ->
      (exists a j b, es0 ++ [e0] = a ++ EEnter j m :: b /\ open_from stk a = stk' /\ idat (rev stk') = Some j) \/
      (exists k, stk = k ++ m :: stk')).
    { intros O'. destruct (IH es0 stk m stk') as [(a & j & b & -> & H1 & H2)|H]; auto; try lia.
      left. exists a, j, (b ++ [e0]). rewrite <- app_assoc. auto. }
    destruct e0; simpl in O; auto.
    + injection O as -> O. left. exists es0, j, []. split; auto. split; auto.
      simpl in G2. rewrite <- O. apply G2.
    + simpl in G2. destruct G2 as (stk2 & E2 & G3 & _). rewrite E2 in O. simpl in O. subst stk2.
      destruct (IH es0 stk n (m :: stk')) as [(a & j2 & b & -> & H1 & H2)|[k H]]; auto; try lia.
      * rewrite app_length in Hl. apply good_app in G as [G _].
        destruct (IH a stk m stk') as [(a' & j' & b' & -> & H3 & H4)|H]; auto; try lia.
        left. exists a', j', (b' ++ EEnter j2 n :: b ++ [EExit j n]). split; auto.
        rewrite <- !app_assoc. reflexivity.
      * right. exists (k ++ [n]). rewrite <- app_assoc. auto.
Qed.

(** Within a piece of the tree of the node at [q], reaching a node at [q1] means
    passing through the last step of its path, or that it is the node itself. *)
Lemma rend_reach w s j k p es p' q a e b q1 :
  rend w s j k p = Some (es, p') -> labelled idat q s -> idat q = Some j ->
  es = a ++ e :: b -> rev (open_from (rev q) a) = q1 ->
  (exists k', q = q1 ++ k') \/
  (exists q0 m j0, q1 = q0 ++ [m] /\ idat q0 = Some j0 /\ In (EEnter j0 m) es).
Proof.
  intros H Hl Hq -> Ho.
  edestruct rend_good as [G _]; [exact H|exact Hl|exact Hq|]. apply good_app in G as [G _].
  destruct (open_from (rev q) a) as [|m stk'] eqn:O.
  - left. exists q. subst q1. reflexivity.
  - destruct (@opened (length a) a (rev q) m stk' (le_n _) G O) as [(a' & j' & b' & -> & H1 & H2)|[k' H1]].
    + right. exists (rev stk'), m, j'. split; [rewrite <- Ho; reflexivity|]. split; auto.
      rewrite <- app_assoc. apply in_or_app. right. left. reflexivity.
    + left. exists (rev k'). apply (f_equal (@rev _)) in H1. rewrite rev_involutive, rev_app_distr in H1.
      rewrite H1, <- Ho. reflexivity.
Qed.

Lemma enters_app a b : enters (a ++ b) = enters a ++ enters b.
Proof. unfold enters. apply flat_map_app. Qed.

Lemma in_enters j n es : In (j, n) (enters es) <-> In (EEnter j n) es.
Proof.
  unfold enters. rewrite in_flat_map. split.
  - intros (e & He & H). destruct e; simpl in H; try contradiction. destruct H as [[= -> ->]|[]]. auto.
  - intros H. exists (EEnter j n). simpl. auto.
Qed.

Lemma linear_disjoint a b j n : linear (a ++ b) -> In (EEnter j n) a -> In (EEnter j n) b -> False.
Proof.
  unfold linear. rewrite enters_app. rewrite <- !in_enters. generalize (enters a) (enters b). clear.
  intros x y. induction x as [|e x IH]; simpl; intros H Ha Hb; [contradiction|].
  inversion H as [|? ? Hn Hd]; subst. destruct Ha as [->|Ha]; auto.
  apply Hn, in_or_app. auto.
Qed.

Lemma displayed_enter es q i j : good [] es -> idat q = Some j ->
  (displayed es (q ++ [i]) <-> In (EEnter j i) es).
Proof.
  intros G Hq. split.
  - intros (a & b & -> & O). apply good_app in G as [G _].
    unfold open_path in O. apply (f_equal (@rev _)) in O. rewrite rev_involutive, rev_app_distr in O. simpl in O.
    destruct (@opened (length a) a [] i (rev q) (le_n _) G O) as [(a' & j' & b' & -> & H1 & H2)|[k' H1]].
    + rewrite rev_involutive in H2. replace j' with j in * by congruence.
      rewrite <- app_assoc. apply in_or_app. right. left. reflexivity.
    + destruct k'; discriminate.
  - intros Hin. apply in_split in Hin as (a & b & ->).
    exists (a ++ [EEnter j i]), b. rewrite <- app_assoc. split; auto.
    unfold open_path. rewrite open_from_app. simpl. f_equal.
    eapply good_enter; [exact G|reflexivity|exact Hq].
Qed.

(** In a linear trace, nothing of a node occurs before its start. *)
Lemma not_before es q j a rest : good [] es -> linear es -> idat q = Some j ->
  es = a ++ rest ->
  ((q = [] /\ a = []) \/ exists q1 j1 m a', q = q1 ++ [m] /\ idat q1 = Some j1 /\ a = a' ++ [EEnter j1 m]) ->
  forall e x y, (exists i, e = EEnter j i) \/ e = EMark j -> a = x ++ e :: y -> False.
Proof.
  intros G Hlin Hq -> Hst e x y He Ha.
  destruct Hst as [[-> ->]|(q1 & j1 & m & a' & -> & Hq1 & ->)]; [destruct x; discriminate|].
  assert (Hop : open_path x = q1 ++ [m]).
  { destruct He as [[i ->]| ->].
    - eapply good_enter; [exact G| |exact Hq]. rewrite Ha, <- app_assoc. reflexivity.
    - eapply good_mark; [exact G| |exact Hq]. rewrite Ha, <- app_assoc. reflexivity. }
  assert (Gx : good [] x).
  { rewrite Ha in G. rewrite <- app_assoc in G. apply good_app in G. apply G. }
  unfold open_path in Hop. apply (f_equal (@rev _)) in Hop. rewrite rev_involutive, rev_app_distr in Hop. simpl in Hop.
  destruct (@opened (length x) x [] m (rev q1) (le_n _) Gx Hop) as [(b1 & j2 & b2 & -> & H1 & H2)|[k' H1]];
    [|destruct k'; discriminate].
  rewrite rev_involutive in H2. assert (j2 = j1) by congruence. subst j2.
  (* the last event of a is the same enter *)
  assert (Hy : y <> []).
  { intros ->. apply app_inj_tail in Ha as [_ Ha]. destruct He as [[i ->]| ->]; [|discriminate].
    injection Ha as -> ->. assert (E : q1 = q1 ++ [i]) by (eapply uniq; eauto).
    apply (f_equal (@length _)) in E. rewrite app_length in E. simpl in E. lia. }
  destruct (exists_last Hy) as (y' & e' & ->).
  rewrite app_comm_cons, app_assoc in Ha. apply app_inj_tail in Ha as [Ha <-].
  rewrite Ha in Hlin. rewrite <- !app_assoc in Hlin. simpl in Hlin.
  apply linear_disjoint with (a := b1 ++ [EEnter j1 m]) (b := b2 ++ e :: y' ++ EEnter j1 m :: rest) (j := j1) (n := m).
  - repeat (rewrite <- app_assoc in Hlin; simpl in Hlin). repeat (rewrite <- app_assoc; simpl). exact Hlin.
  - apply in_or_app. right. left. reflexivity.
  - apply in_or_app. right. right. apply in_or_app. right. left. reflexivity.
Qed.

End Lab.
