(** What Fold, Child, Count and Check mean (C17, C19), and the algebra of
    notations (C26). *)
From Verif Require Export PRewrite PShown Properties4.

Set Implicit Arguments.

(** What it means for two documents to be printed the same at width [w]: the
    lines around any focus (not inside a text) of one are the lines of the
    other, and if one cannot be printed, neither can the other. *)
Definition printed_as {pd : PrettyDoc} {env : Env} (w : N) (st : option Sty) (doc doc' : D) : Prop :=
  (forall path ft ups fl downs, is_text_target ft = false -> printed doc w path ft st ups fl downs ->
    exists fl' downs', printed doc' w [] FStart st [] fl' downs' /\ all_lines ups fl downs = all_lines [] fl' downs') /\
  (forall f, print_fails doc w [] FStart st f -> exists f', print_fails doc' w [] FStart st f').

Section Same.
Context {pd : PrettyDoc} {env : Env} {ideq : IdEq pd}.
Variables (r r' : rdoc) (doc doc' : D).
Hypothesis Hrep : rep r doc.
Hypothesis Hv : valid_doc r.
Hypothesis Hrep' : rep r' doc'.
Hypothesis Hv' : valid_doc r'.

Lemma same_layout_printed w st : layout w (doc_shape r' st) = layout w (doc_shape r st) -> printed_as w st doc doc'.
Proof.
  intros Hl. split.
  - intros path ft ups fl downs Hft Hp. destruct (C01_printed_has_layout Hrep Hv Hft Hp) as (es & Hes & E).
    rewrite <- Hl in Hes. destruct (C01_layout_is_printed Hrep' Hv' _ _ Hes) as (fl' & downs' & Hp' & E').
    exists fl', downs'. split; auto. congruence.
  - intros f Hf. pose proof (@full_root _ _ _ _ (val_eol) (@val_ovf _ _) doc st _ (rep_tree Hrep Hv st) (rep_root_ok Hv st) w) as H.
    pose proof (@full_root _ _ _ _ (val_eol) (@val_ovf _ _) doc' st _ (rep_tree Hrep' Hv' st) (rep_root_ok Hv' st) w) as H'.
    rewrite Hl in H'. destruct (layout w (doc_shape r st)) as [es|].
    + destruct H as (fl & downs & Hp & _). destruct (printed_not_fails Hp Hf).
    + destruct H' as (f' & H' & _). eauto.
Qed.

(** ** C17: Fold *)

(** C17.  Replacing Folds in the notations of a document by their unfoldings
    (for a node with children c0 ... cn, [join] with [Left] replaced by the
    unfolding for c0 ... c(n-1), [Right] by cn, and LeftChild and RightChild by
    c(n-1) and cn; [first] for one child; nothing for none), or the other way
    round, does not change what is printed. *)
Theorem C17_fold_is_left_fold w st : rewritten fold_law r r' -> printed_as w st doc doc'.
Proof. intros H. apply same_layout_printed. rewrite (rewritten_exact st (fun x a b => @fold_law_el _ _ x a b) H). reflexivity. Qed.

(** ** C19: Child, Count, Check *)

(** C19.  The same for replacing Child(-k) by Child(n - k), a Count by its zero,
    one or many, and a Check by the option that the condition selects. *)
Theorem C19_selection w st : rewritten select_law r r' -> printed_as w st doc doc'.
Proof. intros H. apply same_layout_printed. rewrite (rewritten_exact st (fun x a b => @select_law_el _ _ x a b) H). reflexivity. Qed.

(** ** C26: algebra *)

(** C26.  Rewriting with any of the laws, anywhere, does not change what is
    printed, for documents whose notations match their nodes. *)
Theorem C26_notation_algebra w st : matched r -> rewritten any_law r r' -> printed_as w st doc doc'.
Proof.
  intros Hm H. apply same_layout_printed. apply rewritten_layout; auto. apply matched_no_fail; auto.
Qed.

Lemma rewritten_ids law q : forall x x', rewritten law x x' -> id_at x' q = id_at x q.
Proof.
  induction q as [|n q IH]; intros x x' H.
  - unfold id_at. simpl. destruct (rewritten_infos H) as (E & _). rewrite E. reflexivity.
  - destruct H as [i i' s _|i i' ks ks' _ Hks].
    + unfold id_at. simpl. destruct n; reflexivity.
    + assert (F : forall n, match nth_error ks n, nth_error ks' n with Some k, Some k' => rewritten law k k' | None, None => True | _, _ => False end).
      { clear -Hks. apply rewritten_all_F2 in Hks. induction Hks as [|k k' l l' Hk _ IHk]; intros [|m]; simpl; auto. apply IHk. }
      specialize (F n). unfold id_at in *. simpl. destruct (nth_error ks n) as [k|], (nth_error ks' n) as [k'|]; try contradiction; auto.
Qed.

Lemma start_unique es a b a' b' q : good (id_at r) [] es -> linear es -> es = a ++ b -> es = a' ++ b' ->
  at_start a q -> at_start a' q -> a = a'.
Proof.
  intros G L E E' [[-> ->]|(x & j & n & -> & <-)] [[H1 ->]|(x' & j' & n' & -> & H)]; auto.
  - destruct (app_cons_not_nil _ _ _ (eq_sym H)).
  - destruct (app_cons_not_nil _ _ _ (eq_sym H1)).
  - apply app_inj_tail in H as [H ->].
    assert (Hj : j = j').
    { pose proof G as G'. rewrite E in G. rewrite E' in G'. rewrite <- app_assoc in G, G'. apply good_app in G as [_ G]. apply good_app in G' as [_ G'].
      simpl in G, G'. destruct G as [G _]. destruct G' as [G' _]. unfold open_path in H. rewrite H in G'. congruence. }
    subst j'. f_equal. unfold linear in L. rewrite E in L, E'. rewrite <- !app_assoc in E'. rewrite <- app_assoc in L. simpl in E', L. clear E H G.
    assert (HnotIn : forall u v, u ++ EEnter j n :: v = x ++ EEnter j n :: b -> u = x).
    { intros u v Huv. revert u Huv. unfold enters in L. clear E'. revert L. induction x as [|e x IH]; intros L u Huv.
      - destruct u as [|e' u]; auto. exfalso. injection Huv as -> Huv. simpl in L. apply NoDup_cons_iff in L as [L _]. apply L. rewrite <- Huv.
        rewrite flat_map_app. apply in_or_app. right. simpl. auto.
      - destruct u as [|e' u].
        + exfalso. injection Huv as <- ->. simpl in L. apply NoDup_cons_iff in L as [L _]. apply L. rewrite flat_map_app. apply in_or_app. right. simpl. auto.
        + injection Huv as -> Huv. f_equal. apply IH; auto. simpl in L. destruct e; simpl in L; auto. apply NoDup_cons_iff in L. apply L. }
    symmetry. eapply HnotIn. symmetry. exact E'.
Qed.

(** C26.  The focus is also at the same place (at the start of any node, when
    ids are distinct and no node is displayed twice). *)
Theorem C26_same_focus w st path ups fl downs es :
  unique_ids (id_at r) -> matched r -> rewritten any_law r r' ->
  layout w (doc_shape r st) = Some es -> linear es ->
  printed doc w path FStart st ups fl downs -> printed doc' w path FStart st ups fl downs.
Proof.
  intros Hu Hm H Hes Hlin Hp. destruct (C03_start_focus Hrep Hv Hu Hes Hlin Hp) as (a & b & E & Ha & H1 & H2).
  assert (Hu' : unique_ids (id_at r')).
  { intros q q' j. rewrite !(rewritten_ids _ H). apply Hu. }
  assert (Hes' : layout w (doc_shape r' st) = Some es) by (rewrite (rewritten_layout st w H); [auto|apply matched_no_fail; auto]).
  assert (Hd : displayed es path) by (apply (@C06_accepted_iff_displayed _ _ _ r doc Hrep Hv Hu w st es Hes Hlin path FStart (or_introl eq_refl)); eauto).
  destruct (@C06_displayed_accepted _ _ _ r' doc' Hrep' Hv' Hu' w st es Hes' Hlin path FStart Hd (or_introl eq_refl)) as (ups' & fl' & downs' & Hp').
  destruct (C03_start_focus Hrep' Hv' Hu' Hes' Hlin Hp') as (a' & b' & E' & Ha' & H1' & H2').
  destruct (layout_good Hv _ _ Hes) as [G _].
  pose proof (start_unique _ _ G Hlin E E' Ha Ha') as <-. rewrite E in E'. apply app_inv_head in E' as <-.
  rewrite H1 in H1'. rewrite H2 in H2'. apply app_inj_tail in H1' as [H1' H3]. injection H2' as H4 ->.
  apply (f_equal (@rev _)) in H1'. rewrite !rev_involutive in H1'. destruct fl, fl'. simpl in *. congruence.
Qed.

End Same.

Section Select.
Context {pd : PrettyDoc} {env : Env} {ideq : IdEq pd}.
Variables (r : rdoc) (doc : D).
Hypothesis Hrep : rep r doc.
Hypothesis Hv : valid_doc r.

(** C19.  Which child [Child i] displays, on a node with [n] children. *)
Theorem C19_child_index i n m :
  normalize_child_index i n = Some m <->
  ((0 <= i < Z.of_nat n)%Z /\ Z.of_nat m = i) \/ ((- Z.of_nat n <= i < 0)%Z /\ Z.of_nat m = (Z.of_nat n + i)%Z).
Proof.
  unfold normalize_child_index. split.
  - intros H. destruct (i <? 0)%Z eqn:E.
    + apply Z.ltb_lt in E. destruct (_ || _)%bool eqn:E2; [discriminate|]. apply orb_false_iff in E2 as [E2 E3]. apply Z.ltb_ge in E2. apply Z.leb_gt in E3. injection H as <-. right. lia.
    + apply Z.ltb_ge in E. destruct (_ || _)%bool eqn:E2; [discriminate|]. apply orb_false_iff in E2 as [E2 E3]. apply Z.ltb_ge in E2. apply Z.leb_gt in E3. injection H as <-. left. lia.
  - intros [[H1 H2]|[H1 H2]].
    + replace (i <? 0)%Z with false by (symmetry; apply Z.ltb_ge; lia). replace (i <? 0)%Z with false by (symmetry; apply Z.ltb_ge; lia).
      replace (Z.of_nat n <=? i)%Z with false by (symmetry; apply Z.leb_gt; lia). simpl. f_equal. lia.
    + replace (i <? 0)%Z with true by (symmetry; apply Z.ltb_lt; lia).
      replace (i + Z.of_nat n <? 0)%Z with false by (symmetry; apply Z.ltb_ge; lia).
      replace (Z.of_nat n <=? i + Z.of_nat n)%Z with false by (symmetry; apply Z.leb_gt; lia). simpl. f_equal. lia.
Qed.

(** C19.  Every child displayed is displayed by a [Child] with its index, from
    the front or from the back, or (inside a Fold) by a [Right] standing for it. *)
Theorem C19_displayed_children w path ft st ups fl downs :
  is_text_target ft = false -> printed doc w path ft st ups fl downs ->
  exists es, layout w (doc_shape r st) = Some es /\ all_lines ups fl downs = lines_of es /\
    forall a j m b, es = a ++ EEnter j m :: b ->
    exists fs x o, path_of fs = open_path a /\
      ((exists i, reach r fs x o (Child i) /\ m < length (r_kids x) /\ (Z.of_nat m = i \/ Z.of_nat m = Z.of_nat (length (r_kids x)) + i)%Z) \/
       (exists f, o = Some f /\ reach r fs x o Right /\ m = f_index f)).
Proof.
  intros Hft Hp. destruct (C01_printed_has_layout Hrep Hv Hft Hp) as (es & Hes & E). exists es. split; auto. split; auto.
  intros a j m b Ees. destruct (@layout_origins _ _ r st _ _ _ _ _ Hes Ees) as (fs & x & o & H1 & [(i & H2 & H3)|H2]); exists fs, x, o; split; auto.
  left. exists i. split; auto. rewrite <- kid_number_eq in H3. apply C19_child_index in H3. lia.
Qed.

(** The failures of a document: mismatches, text after EndOfLine, overflow. *)
Definition doc_fail (f : failure (perr Er)) : Prop :=
  (exists fs x o n e, reach r fs x o n /\ mismatch x n = Some e /\ f = FErr e) \/
  f = FErr TextAfterEndOfLine \/ (f = FPanic POverflow /\ ovf = true).

Lemma mismatch_root_ok st : root_ok doc_fail top topN (doc_shape r st).
Proof.
  split; [|exact I]. split; [|exact I].
  pose proof (@origins_allf _ _ r st _ _ (root_origins r st)) as H1.
  assert (H2 : allf val_fail (elab r (root_ctx r st))) by (apply elab_allf; auto).
  unfold doc_shape, snd in H1. revert H1 H2. generalize (elab r (root_ctx r st)).
  assert (Hf : forall f, ((exists fs x o n e, reach r fs x o n /\ mismatch x n = Some e /\ f = FErr e) \/ exists p, f = FPanic p) -> val_fail f -> doc_fail f).
  { intros f [H|(p & ->)] H2; [left; exact H|]. destruct H2 as [-> H2]. right. right. auto. }
  induction s as [f| | |ind|t|a IHa b IHb|a IHa b IHb|n i s IH|]; simpl; intros H1 H2; try exact I; intuition.
  destruct i; auto. 
Qed.

(** C19.  Whatever is reported as a mismatch between a notation and a node is
    one ([mismatch], SpecSpine: for example Child i on a node with n children,
    with i < -n or n <= i, is reported as ChildIndexOutOfBounds). *)
Theorem C19_reported_mismatches w path ft st e :
  print_fails doc w path ft st (FErr e) -> mismatch_error e ->
  exists fs x o n, reach r fs x o n /\ mismatch x n = Some e.
Proof.
  intros Hp He.
  assert (P_eol : doc_fail (FErr TextAfterEndOfLine)) by (right; left; reflexivity).
  assert (P_ovf : ovf = true -> doc_fail (FPanic POverflow)) by (intros; right; right; auto).
  assert (Hd : forall f, f = FErr e -> doc_fail f -> exists fs x o n, reach r fs x o n /\ mismatch x n = Some e).
  { intros f -> [(fs & x & o & n & e' & H1 & H2 & [= <-])|[[= ->]|[H _]]]; eauto 10; [destruct He|discriminate]. }
  destruct (@total_root _ _ _ doc_fail P_eol P_ovf doc st _ (rep_tree Hrep Hv st) (mismatch_root_ok st) w path ft) as (res & Hev & H).
  destruct Hp as [Hp|(up & fl & down & Hp & Hc)].
  - pose proof (ev_det Hev Hp). subst res. destruct H as [H|[(i & _ & [= ->])|[(_ & [= ->])|(n & _ & [= ->])]]]; try (destruct He). eauto.
  - pose proof (ev_det Hev Hp). subst res. destruct H as (ru & rd & H1 & H2 & H3 & H4).
    destruct Hc as [Hc|Hc]; [pose proof (ev_det H1 Hc)|pose proof (ev_det H2 Hc)]; subst; eauto.
Qed.

(** C19.  A mismatch that is displayed whatever the choices makes printing
    fail. *)
Theorem C19_mismatch_fails w st fs x o n e :
  shown r fs x o n -> mismatch x n = Some e ->
  exists f, print_fails doc w [] FStart st f /\
    ((exists fs x o n e, reach r fs x o n /\ mismatch x n = Some e /\ f = FErr e) \/
     f = FErr TextAfterEndOfLine \/ (f = FPanic POverflow /\ ovf = true)).
Proof.
  intros Hs Hm.
  assert (P_eol : doc_fail (FErr TextAfterEndOfLine)) by (right; left; reflexivity).
  assert (P_ovf : ovf = true -> doc_fail (FPanic POverflow)) by (intros; right; right; auto).
  pose proof (@full_root _ _ _ doc_fail P_eol P_ovf doc st _ (rep_tree Hrep Hv st) (mismatch_root_ok st) w) as H.
  rewrite (shown_mismatch st w Hs Hm) in H. exact H.
Qed.

End Select.
