(** Where the focus is, for well-behaved validated documents with unique ids. *)
From Verif Require Export PWhole.

Set Implicit Arguments.

(** ** Facts about traces *)
Section Traces.
Context {pd : PrettyDoc} {env : Env}.

(** Within the layout of a piece of tree, the nodes around it stay open. *)
Lemma rend_stack w s : forall j k p es p', rend w s j k p = Some (es, p') ->
  forall stk, open_from stk es = stk /\ forall a b, es = a ++ b -> exists k', open_from stk a = k' ++ stk.
Proof.
  assert (H1 : forall (e : event) stk, (forall s', open_from s' [e] = s') ->
    open_from stk [e] = stk /\ forall a b, [e] = a ++ b -> exists k', open_from stk a = k' ++ stk).
  { intros e stk He. split; auto. intros a b E. exists []. destruct a as [|e' [|]]; [reflexivity| |discriminate].
    injection E as -> _. apply He. }
  induction s as [f| | |ind|t|a IHa b IHb|a IHa b IHb|n i s IH|]; intros j k p es p'; simpl; intros H stk.
  - discriminate.
  - injection H as <- <-. split; auto. intros a b E. destruct a; [|discriminate]. exists []. auto.
  - injection H as <- <-. apply H1; reflexivity.
  - apply obind_some in H as [x [_ [= <- <-]]]. apply H1; reflexivity.
  - apply obind_some in H as [x [_ [= <- <-]]]. apply H1; reflexivity.
  - apply obind_some in H as [[e1 p1] [Ha H]]. apply obind_some in H as [[e2 p2] [Hb [= <- <-]]].
    destruct (IHa _ _ _ _ _ Ha stk) as [A1 A2]. destruct (IHb _ _ _ _ _ Hb stk) as [B1 B2].
    split; [rewrite open_from_app, A1; auto|]. intros x y E.
    apply app_eq_app in E as (l & [[-> ->]|[-> ->]]).
    + eapply A2; reflexivity.
    + rewrite open_from_app, A1. eapply B2; reflexivity.
  - destruct (head_fails a); [discriminate|].
    apply obind_some in H as [f [_ H]]. destruct f; eauto.
  - destruct i as [j'|]; [|discriminate]. apply obind_some in H as [[e1 p1] [Hs [= <- <-]]].
    destruct (IH _ _ _ _ _ Hs (n :: stk)) as [A1 A2]. simpl. split.
    + rewrite open_from_app, A1. reflexivity.
    + intros x y E. destruct x as [|e x]; [exists []; reflexivity|]. injection E as <- E. simpl.
      apply app_eq_app in E as (l & [[-> ->]|[-> E]]).
      * destruct (A2 _ _ eq_refl) as (k' & ->). exists (k' ++ [n]). rewrite <- app_assoc. reflexivity.
      * rewrite open_from_app, A1. destruct l as [|e l]; [exists [n]; reflexivity|].
        injection E as <- E. destruct l; [|discriminate]. exists []. reflexivity.
  - injection H as <- <-. apply H1; reflexivity.
Qed.

(** Inside the layout of a child, the child is open. *)
Lemma child_inside w s j k p es p' n x y stk :
  rend w s j k p = Some (es, p') -> EEnter j n :: es ++ [EExit j n] = x ++ y -> x <> [] -> y <> [] ->
  exists k', open_from stk x = k' ++ n :: stk.
Proof.
  intros Hs E Hx Hy. destruct (rend_stack _ _ _ _ _ Hs (n :: stk)) as [A1 A2].
  destruct x as [|e x]; [congruence|]. injection E as <- E. simpl.
  apply app_eq_app in E as (l & [[-> ->]|[-> E]]).
  - eapply A2; reflexivity.
  - rewrite open_from_app, A1. destruct l as [|e l]; [exists []; reflexivity|].
    injection E as <- E. destruct l; [|discriminate]. simpl in E. congruence.
Qed.

Variable idat : list nat -> option Id.
Hypothesis uniq : unique_ids idat.

Lemma displayed_prefix es q n : good idat [] es -> displayed es (q ++ [n]) -> displayed es q.
Proof.
  intros G (a & b & -> & O). apply good_app in G as [G _].
  unfold open_path in O. apply (f_equal (@rev _)) in O. rewrite rev_involutive, rev_app_distr in O. simpl in O.
  destruct (@opened _ idat (length a) a [] n (rev q) (le_n _) G O) as [(a' & j' & b' & -> & H1 & H2)|[k' H1]].
  - exists a', (EEnter j' n :: b' ++ b). rewrite <- app_assoc. split; auto. unfold open_path. rewrite H1. apply rev_involutive.
  - destruct k'; discriminate.
Qed.

Lemma displayed_app es q q' : good idat [] es -> displayed es (q ++ q') -> displayed es q.
Proof.
  intros G. induction q' as [|n q' IH] using rev_ind; [rewrite app_nil_r; auto|].
  rewrite app_assoc. intros H. apply displayed_prefix in H; auto.
Qed.

(** The rest of the layout does not contain a child that was given up. *)
Lemma given_up w es a rest q j i :
  good idat [] es -> linear es -> es = a ++ rest -> idat q = Some j ->
  ((q = [] /\ a = []) \/ exists q1 j1 m a', q = q1 ++ [m] /\ idat q1 = Some j1 /\ a = a' ++ [EEnter j1 m]) ->
  (In (EEnter j i) rest ->
     exists j2 s2 k p es2 p', (exists q2, idat q2 = Some j2 /\ labelled idat q2 s2) /\ expanded s2 /\ irr_item j i (GI j2 s2) /\
       rend w s2 j2 k p = Some (es2, p') /\ incl es2 rest /\ In (EEnter j i) es2) ->
  ~ displayed es (q ++ [i]).
Proof.
  intros G Hlin -> Hq Hst Hrest Hd. apply (proj1 (@displayed_enter _ _ uniq _ q i j G Hq)) in Hd.
  apply in_app_or in Hd as [Hd|Hd].
  { apply in_split in Hd as (x & y & ->).
    eapply (not_before uniq) with (e := EEnter j i) (x := x) (y := y); eauto. }
  destruct (Hrest Hd) as (j2 & s2 & k & p & es2 & p' & (q2 & Hq2 & Hl) & Hex & Hirr & Hr & Hincl & Hin).
  apply in_split in Hin as (x & y & ->).
  destruct (rend_good _ _ _ _ _ _ Hr Hl Hq2) as [G2 _].
  destruct (rend_stack _ _ _ _ _ Hr (rev q2)) as [_ Hs]. destruct (Hs _ _ eq_refl) as (k' & Ho).
  pose proof G2 as G3. apply good_app in G3 as [Gx G3]. simpl in G3. destruct G3 as [G3 _].
  assert (Eq : rev (open_from (rev q2) x) = q) by (eapply uniq; eauto).
  destruct k' as [|m k'].
  - simpl in Ho. rewrite Ho, rev_involutive in Eq. subst q2.
    assert (j2 = j) by congruence. subst j2.
    destruct s2 as [| | | |t|? ?|s1 s2|n i' s'|]; simpl in Hex; try contradiction; cbn [rend] in Hr.
    + injection Hr as Hr _. destruct x as [|? [|]]; discriminate.
    + apply obind_some in Hr as [? [_ Hr]]. injection Hr as Hr _. destruct x as [|? [|]]; discriminate.
    + destruct i' as [j'|]; [|discriminate]. apply obind_some in Hr as [[e1 p1] [Hs' Hr]]. injection Hr as Hr _.
      destruct x as [|e x].
      * injection Hr as -> _. simpl in Hirr. tauto.
      * assert (exists k', open_from (rev q) (e :: x) = k' ++ n :: rev q) as [k' Hk].
        { clear - Hr Hs'.
          injection Hr as <- Hr. simpl.
          destruct (rend_stack _ _ _ _ _ Hs' (n :: rev q)) as [A1 A2].
          apply app_eq_app in Hr as (l & [[-> Hr]|[-> Hr]]).
          - eapply A2; reflexivity.
          - rewrite open_from_app, A1. destruct l as [|e l]; [exists []; reflexivity|].
            injection Hr as <- Hr. destruct l; discriminate. }
        rewrite Ho in Hk. apply (f_equal (@length _)) in Hk. rewrite app_length in Hk. simpl in Hk. lia.
    + injection Hr as Hr _. destruct x as [|? [|]]; discriminate.
  - simpl in Ho.
    destruct (@opened _ idat (length x) x (rev q2) m (k' ++ rev q2) (le_n _) Gx Ho) as [(a' & j' & b' & Ex & H1 & H2)|[k2 H1]].
    + destruct Hst as [[-> ->]|(q1 & j1 & m' & a1 & -> & Hq1 & ->)].
      * rewrite Ho in Eq. simpl in Eq. destruct (rev (k' ++ rev q2)); discriminate.
      * rewrite Ho in Eq. simpl in Eq. apply app_inj_tail in Eq as [<- <-].
        assert (j1 = j') by congruence. subst j1.
        apply (@linear_disjoint _ (a1 ++ [EEnter j' m]) rest j' m); auto.
        -- apply in_or_app. right. left. reflexivity.
        -- apply Hincl. rewrite Ex. apply in_or_app. left. apply in_or_app. right. left. reflexivity.
    + apply (f_equal (@length _)) in H1. rewrite !app_length in H1. simpl in H1. rewrite app_length in H1. lia.
Qed.

End Traces.
