(** Every finite document unfolds to a tree. *)
From Verif Require Export PEval PRefine SpecDoc PElab.

Set Implicit Arguments.

Section Tree.
Context {pd : PrettyDoc} {env : Env}.

Variable root : D.

(** Not out of fuel, and the errors of methods are errors of methods. *)
Definition nofuel (f : failure (perr Er)) : Prop :=
  f <> FFuel /\ forall e, f = FErr (PrettyDocErr e) -> exists x, reachable root x /\ method_fails x e.

Definition ht (doc : D) (r : pres cnote) : Prop :=
  exists s, den (lift (m_id doc)) s r /\ allf nofuel s.

Lemma lift_nofuel {A} x (m : mres Er A) f : reachable root x ->
  (forall e, m = MErr e -> method_fails x e) -> lift m = Fail f -> nofuel f.
Proof.
  intros Hx Hm. destruct m; simpl; try discriminate; intros [= <-]; (split; [discriminate|]);
    intros ? [=]; subst; eauto.
Qed.

Lemma ht_fail doc f : nofuel f -> ht doc (Fail f).
Proof. intros H. exists (SFail f). simpl. auto. Qed.

(** All trees of the node exist when it is displayed outside any fold. *)
Definition alone (x : D) : Prop :=
  forall n flat ind sty, ht x (eval (Delayed n x flat ind sty None)).

Definition join_fine (j : option joinpos) : Prop :=
  match j with
  | None => True
  | Some jp => reachable root (jp_parent jp) /\ child_handle (jp_parent jp) (jp_index jp) (jp_child jp) /\
               forall i x, child_handle (jp_parent jp) i x -> alone x
  end.

Definition always (x : D) : Prop :=
  forall j, join_fine j -> forall n flat ind sty, ht x (eval (Delayed n x flat ind sty j)).

Ltac fine := split; [discriminate|intros ? [=]].
Ltac mfail := unfold method_fails; eauto 20.
Ltac method m := destruct m as [?x|?e|] eqn:?E; cbn [lift bind];
  [|apply ht_fail; split; [discriminate|intros ? [=]; subst; eexists; split; [|solve [mfail]]; eauto using reach_child]
   |apply ht_fail; fine].

Section Node.
Variable doc : D.
Hypothesis Hdoc : reachable root doc.
Hypothesis kids : forall i x, child_handle doc i x -> always x.

Lemma kids_alone i x : child_handle doc i x -> alone x.
Proof. intros H n flat ind sty. apply (kids H). exact I. Qed.

Definition left_fine (j : option joinpos) : Prop :=
  forall flat ind sty, ht doc (eval (Delayed Left doc flat ind sty j)).

Definition note_fine (n : note) : Prop :=
  forall j, join_fine j -> left_fine j -> forall flat ind sty, ht doc (eval (Delayed n doc flat ind sty j)).

Lemma left_none : left_fine None.
Proof. intros flat ind sty. rewrite eval_eqn. simpl. apply ht_fail. fine. Qed.

Lemma left_join f jn : note_fine f -> note_fine jn ->
  forall k jp, jp_index jp = k -> jp_first jp = f -> jp_join jp = jn ->
  join_fine (Some jp) -> left_fine (Some jp).
Proof.
  intros Hf Hj. induction k as [|k IH]; intros jp Hk Ef Ej Hjf flat ind sty; rewrite eval_eqn; simpl; rewrite Hk.
  - apply ht_fail. fine.
  - destruct (Nat.eqb (S k) 1).
    + rewrite Ef. apply Hf; [exact I|apply left_none].
    + assert (Hr : reachable root (jp_child jp)) by (destruct Hjf as (? & ? & ?); eauto using reach_child).
      destruct (m_unwrap_prev_sibling (jp_child jp) (jp_parent jp) k) as [c|e|] eqn:Ec; simpl.
      2: { apply ht_fail. split; [discriminate|]. intros ? [=]; subst. exists (jp_child jp). split; auto. mfail. }
      2: { apply ht_fail. fine. }
      rewrite Ej.
      assert (Hjf' : join_fine (Some (JoinPos (jp_parent jp) c k (jp_first jp) (jp_join jp)))).
      { destruct Hjf as (H0 & H1 & H2). split; [|split]; simpl; auto. eapply ch_prev; [|exact Ec]. rewrite <- Hk. auto. }
      rewrite Ej in Hjf'. apply Hj; auto. apply IH; auto.
Qed.

Lemma note_all n : note_fine n.
Proof.
  induction n as [| | |s| |n IH|pre l n IH|a IHa b IHb|a IHa b IHb|c ps a IHa b IHb|i|l n IH| |z IHz o IHo m IHm|f IHf jn IHj| |];
    intros j Hj HL flat ind sty; rewrite eval_eqn; cbn [dl_note dl_doc dl_flat dl_indent dl_style dl_join].
  - exists SEmpty. simpl. auto.
  - exists (SNewline ind). simpl. auto.
  - exists SEol. simpl. auto.
  - eexists (SText _). simpl. auto.
  - method (m_num_children doc). destruct x; [apply ht_fail; fine|].
    method (m_unwrap_text doc). eexists (SText _). simpl. auto.
  - apply IH; auto.
  - destruct l as [l|]; [method (m_lookup_style doc l)|cbn [bind]]; apply IH; auto.
  - destruct (IHa j Hj HL flat ind sty) as (sa & Ha & Fa). destruct (IHb j Hj HL flat ind sty) as (sb & Hb & Fb).
    exists (SConcat sa sb). simpl. auto.
  - destruct flat; [apply IHa; auto|].
    destruct (IHa j Hj HL false ind sty) as (sa & Ha & Fa). destruct (IHb j Hj HL false ind sty) as (sb & Hb & Fb).
    exists (SChoice sa sb). simpl. auto.
  - assert (Hd : match doc_to_inspect (Delayed (Check c ps a b) doc flat ind sty j) ps with
                 | Ok x => reachable root x | Fail f => nofuel f end).
    { assert (HF : forall f, f <> FFuel -> (forall e, f <> FErr (PrettyDocErr e)) -> nofuel f)
        by (intros f H1 H2; split; auto; intros e H; destruct (H2 e H)).
      destruct ps; simpl; auto.
      - destruct (m_num_children doc) as [[len|]|e|] eqn:E; simpl; try (apply HF; discriminate).
        2: { split; [discriminate|]. intros ? [=]; subst. exists doc. split; auto. mfail. }
        destruct (normalize_child_index i len) as [idx|] eqn:En; simpl; try (apply HF; discriminate).
        apply normalize_lt in En.
        destruct (m_unwrap_child doc idx) as [x|e|] eqn:E2; simpl; try (apply HF; discriminate).
        + eapply reach_child; [exact Hdoc|]. eapply ch_child; eauto.
        + split; [discriminate|]. intros ? [=]; subst. exists doc. split; auto. mfail.
      - destruct j as [jp|]; simpl; try (apply HF; discriminate). destruct Hj as (H0 & H1 & H2).
        destruct (jp_index jp) as [|k] eqn:Ek; simpl; try (apply HF; discriminate).
        rewrite ?Nat.sub_0_r. destruct (m_unwrap_prev_sibling (jp_child jp) (jp_parent jp) k) as [x|e|] eqn:E2; simpl; try (apply HF; discriminate).
        + eapply reach_child; [exact H0|]. eapply ch_prev; eauto.
        + split; [discriminate|]. intros ? [=]; subst. exists (jp_child jp). split; [eauto using reach_child|]. mfail.
      - destruct j as [jp|]; simpl; try (apply HF; discriminate). destruct Hj as (H0 & H1 & H2).
        eauto using reach_child. }
    destruct (doc_to_inspect _ ps) as [x|f]; [|apply ht_fail; auto]. cbn [bind].
    method (m_condition x c). destruct x0; [apply IHa|apply IHb]; auto.
  - method (m_num_children doc). destruct x as [len|]; [|apply ht_fail; fine].
    destruct (normalize_child_index i len) as [idx|] eqn:En; [|apply ht_fail; fine]. apply normalize_lt in En.
    method (m_unwrap_child doc idx). assert (Hch : child_handle doc idx x) by (eapply ch_child; eauto). method (m_notation x). method (m_node_style x).
    destruct (kids Hch j Hj x0 flat ind (style_combine sty x1)) as (s & Hs & Fs).
    exists (SChild idx (lift (m_id x)) s). simpl. split; auto. split; auto.
    destruct (lift (m_id x)) eqn:El; auto. eapply (@lift_nofuel _ x); [| |exact El]; [eauto using reach_child|]. intros; mfail.
  - method (m_lookup_style doc l). apply IH; auto.
  - exists SMark. simpl. auto.
  - method (m_num_children doc). destruct x as [[|[|]]|]; [apply IHz|apply IHo|apply IHm|apply ht_fail]; auto; fine.
  - method (m_num_children doc). destruct x as [[|[|m]]|]; try (apply ht_fail; fine).
    + exists SEmpty. simpl. auto.
    + apply IHf; auto.
    + method (m_unwrap_last_child doc).
      assert (Hjf : join_fine (Some (JoinPos doc x (S m) f jn))).
      { split; [|split]; simpl; [auto|eapply ch_last; eauto|apply kids_alone]. }
      apply IHj; auto. apply (@left_join f jn IHf IHj (S m)); auto.
  - specialize (HL flat ind sty). rewrite eval_eqn in HL.
    cbn [dl_note dl_doc dl_flat dl_indent dl_style dl_join] in HL. exact HL.
  - destruct j as [jp|]; [|apply ht_fail; fine].
    destruct Hj as (Hp & Hc & Ha). assert (Hr : reachable root (jp_child jp)) by eauto using reach_child.
    method (m_notation (jp_child jp)). method (m_node_style (jp_child jp)).
    destruct (Ha _ _ Hc x flat ind (style_combine sty x0)) as (s & Hs & Fs).
    exists (SChild (jp_index jp) (lift (m_id (jp_child jp))) s). simpl. split; auto. split; auto.
    destruct (lift (m_id (jp_child jp))) eqn:El; auto. eapply lift_nofuel; [exact Hr| |exact El]. intros; mfail.
Qed.

Lemma node_always : always doc.
Proof.
  intros j Hj n flat ind sty. apply note_all; auto.
  destruct j as [jp|]; [|apply left_none].
  apply (@left_join (jp_first jp) (jp_join jp) (note_all _) (note_all _) (jp_index jp)); auto.
Qed.

End Node.

Theorem finite_always doc : finite_doc doc -> reachable root doc -> always doc.
Proof. induction 1 as [doc H IH]. intros Hr. apply node_always; eauto using reach_child. Qed.

End Tree.
