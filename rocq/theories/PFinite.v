(** Finite documents, overflow checks, and the properties stated about them. *)
From Verif Require Export PText.

Set Implicit Arguments.

Section Finite.
Context {pd : PrettyDoc} {env : Env} {ideq : IdEq pd}.

Lemma finite_tree doc st : finite_doc doc ->
  exists root, doc_tree doc st root /\ root_ok (nofuel doc) top topN root.
Proof.
  intros Hf. unfold doc_tree, with_optional_style.
  assert (Hl : forall A (m : mres Er A) f, (forall e, m = MErr e -> method_fails doc e) -> lift m = Fail f -> nofuel doc f).
  { intros A m f Hm. apply lift_nofuel with (x := doc); auto. constructor. }
  destruct (lift (m_notation doc)) as [n|f] eqn:E1; cbn [bind].
  2: { exists (Fail f, SEmpty). split; [reflexivity|]. eapply Hl; [|exact E1]. unfold method_fails. auto. }
  destruct (lift (m_node_style doc)) as [s|f] eqn:E2; cbn [bind].
  2: { exists (Fail f, SEmpty). split; [reflexivity|]. eapply Hl; [|exact E2]. unfold method_fails. auto 10. }
  destruct (@finite_always _ _ doc doc Hf (reach_self _) None I n false [] (match st with Some st => style_combine st s | None => s end))
    as (sh & Hd & Ha).
  exists (lift (m_id doc), sh). split; [split; simpl; auto|].
  destruct (lift (m_id doc)) as [j|f] eqn:E3; simpl.
  - split; [split; [exact Ha|exact I]|exact I].
  - eapply Hl; [|exact E3]. unfold method_fails. auto.
Qed.

Lemma nofuel_eol doc : nofuel doc (FErr TextAfterEndOfLine).
Proof. split; [discriminate|]. intros e [=]. Qed.
Lemma nofuel_ovf doc : ovf = true -> nofuel doc (FPanic POverflow).
Proof. intros _. split; [discriminate|]. intros e [=]. Qed.

Lemma handle_lt d i x n : child_handle d i x -> m_num_children d = MOk (Some n) -> i < n.
Proof.
  intros H Hn. induction H as [m i x H1 H2 H3|m x H1 H2|i y x H1 IH H2].
  - rewrite Hn in H1. injection H1 as <-. exact H2.
  - rewrite Hn in H1. injection H1 as ->. lia.
  - lia.
Qed.

Lemma handle_text d i x : child_handle d i x -> m_num_children d = MOk None -> False.
Proof. intros H Hn. induction H; auto; congruence. Qed.

Lemma rep_finite r : forall d, rep r d -> finite_doc d.
Proof.
  induction r as [i s|i ks IH] using rdoc_ind'; intros d Hr; constructor; intros n x Hx.
  - exfalso. eapply handle_text; eauto. apply (rep_num Hr).
  - pose proof (handle_lt Hx (rep_num Hr)) as Hn. inversion Hr as [|? ? ? H1 H2 H3 H4 H5 H6]; subst.
    destruct (nth_error ks n) as [k|] eqn:E; [|apply nth_error_None in E; lia].
    apply (IH k); [eapply nth_error_In; eauto|]. eapply H6; eauto.
Qed.

End Finite.

(** ** Overflow checks: a layout with only narrow lines needs no overflow. *)
Section Overflow.
Context {pd : PrettyDoc}.
Variables (uw : str -> N) (cf : char -> bool).
Notation E b := (Build_Env uw cf b).

Definition sumw (l : list segment) : N := fold_right N.add 0%N (map seg_width l).
Definition narrow (l : list segment) : Prop := (sumw l < U16)%N.

Lemma sumw_app a b : sumw (a ++ b) = (sumw a + sumw b)%N.
Proof. unfold sumw. induction a as [|x a IH]; simpl; auto. rewrite IH. lia. Qed.

Lemma sum16_exact {X} b ws : forall acc, (acc + fold_right N.add 0%N ws < U16)%N ->
  sum16_from (X := X) b acc ws = Ok (acc + fold_right N.add 0%N ws)%N.
Proof.
  induction ws as [|x ws IH]; simpl; intros acc H; [f_equal; lia|].
  unfold add16. replace (acc + x <? U16)%N with true by (symmetry; apply N.ltb_lt; lia). simpl.
  rewrite IH by lia. f_equal. lia.
Qed.

Lemma lines_first_ge es cur : exists l ls, lines_from cur es = l :: ls /\ (sumw cur <= sumw l)%N.
Proof.
  destruct (lines_cur es cur) as (r & ls & _ & ->). exists (cur ++ r), ls. split; auto. rewrite sumw_app. lia.
Qed.

Lemma rend_debug w s : forall j k p es p' cur,
  @rend pd (E false) w s j k p = Some (es, p') -> Forall narrow (lines_from cur es) -> sumw cur = fst p ->
  @rend pd (E true) w s j k p = Some (es, p') /\
  exists ls l, lines_from cur es = ls ++ [l] /\ sumw l = fst p'.
Proof.
  induction s as [f| | |ind|t|a IHa b IHb|a IHa b IHb|n i s IH|]; intros j k p es p' cur; cbn [rend]; intros H Hn Hc.
  - discriminate.
  - injection H as <- <-. split; auto. exists [], cur. auto.
  - injection H as <- <-. split; auto. exists [], cur. auto.
  - apply obind_some in H as [x [Hx [= <- <-]]]. simpl in Hn. inversion Hn as [|? ? H1 H2]; subst.
    inversion H2 as [|? ? H3 _]; subst. unfold narrow, sumw in H3.
    unfold indent_pos, osum16, sum16 in *.
    rewrite sum16_exact in Hx by (simpl; exact H3). rewrite sum16_exact by (simpl; exact H3).
    cbn [to_option obind] in *. injection Hx as <-. split; auto. simpl. exists [cur], (rev ind). auto.
  - apply obind_some in H as [x [Hx [= <- <-]]]. simpl in Hn. inversion Hn as [|? ? H1 _]; subst.
    unfold narrow in H1. rewrite sumw_app in H1. unfold sumw in H1 at 2. simpl in H1. rewrite N.add_0_r in H1.
    destruct p as [len eol]. simpl in *. destruct eol; [discriminate|].
    unfold oadd16, add16 in *. rewrite Hc in H1.
    replace (len + tx_width t <? U16)%N with true in * by (symmetry; apply N.ltb_lt; lia).
    cbn [to_option obind] in *. injection Hx as <-. split; auto. exists [], (cur ++ [text_seg t]). split; auto.
    rewrite sumw_app. unfold sumw at 2. simpl. lia.
  - apply obind_some in H as [[e1 p1] [H1 H]]. apply obind_some in H as [[e2 p2] [H2 [= <- <-]]].
    destruct (lines_app e1 e2 cur) as (l & ls & A1 & A2). rewrite A2 in Hn. apply Forall_app in Hn as [N1 N2].
    destruct (IHa _ _ _ _ _ cur H1) as [R1 (ls1 & l1 & B1 & B2)]; auto.
    { rewrite A1. apply Forall_app. split; auto. constructor; auto.
      destruct (lines_first_ge e2 l) as (l' & ls' & E1 & E2). rewrite E1 in N2. inversion N2; subst. unfold narrow in *. lia. }
    rewrite A1 in B1. apply app_inj_tail in B1 as [<- <-].
    destruct (IHb _ _ _ _ _ l H2 N2 B2) as [R2 (ls2 & l2 & B3 & B4)].
    split.
    { change (@fits_s pd) with (@fits_s pd). rewrite R1. cbn [obind]. rewrite R2. reflexivity. }
    exists (ls ++ ls2), l2. rewrite A2, B3, app_assoc. auto.
  - destruct (head_fails a); [discriminate|].
    apply obind_some in H as [f [Hf H]].
    destruct f; [destruct (IHa _ _ _ _ _ cur H Hn Hc) as [R1 R2]|destruct (IHb _ _ _ _ _ cur H Hn Hc) as [R1 R2]];
      (split; [|exact R2]); rewrite Hf; cbn [obind]; exact R1.
  - destruct i as [j'|]; [|discriminate]. apply obind_some in H as [[e1 p1] [H1 [= <- <-]]].
    assert (El : forall es' c, lines_from c (es' ++ [EExit j n]) = lines_from c es').
    { clear. induction es' as [|e es' IH]; intros c; simpl; auto. destruct e; simpl; rewrite ?IH; auto. }
    simpl in Hn. rewrite El in Hn. destruct (IH _ _ _ _ _ cur H1 Hn Hc) as [R1 R2].
    split; [rewrite R1; reflexivity|]. simpl. rewrite El. exact R2.
  - injection H as <- <-. split; auto. exists [], cur. auto.
Qed.

Lemma layout_debug w root es : @layout pd (E false) w root = Some es -> Forall narrow (lines_of es) ->
  @layout pd (E true) w root = Some es.
Proof.
  unfold layout. destruct root as [[j|] s]; [|discriminate].
  destruct (@rend pd (E false) w s j look_end pos0) as [[es' p']|] eqn:Er; [|discriminate].
  intros [= <-] Hn. destruct (@rend_debug w s j look_end pos0 es' p' [] Er Hn eq_refl) as [-> _]. reflexivity.
Qed.

End Overflow.
