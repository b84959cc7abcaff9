(** Lines are no wider than the width if the second options fit (C47). *)
From Verif Require Export SpecWide Properties4.

Set Implicit Arguments.

Section PWide.
Context {pd : PrettyDoc} {env : Env}.

(** The widths of the lines of a trace, the first of which starts at [len]. *)
Fixpoint widths (len : N) (es : list event) : list N :=
  match es with
  | [] => [len]
  | EText _ t :: es' => widths (len + tx_width t) es'
  | ENewline ind :: es' => len :: widths (indent_width ind) es'
  | _ :: es' => widths len es'
  end.
(** Those that are complete. *)
Fixpoint dones (len : N) (es : list event) : list N :=
  match es with
  | [] => []
  | EText _ t :: es' => dones (len + tx_width t) es'
  | ENewline ind :: es' => len :: dones (indent_width ind) es'
  | _ :: es' => dones len es'
  end.

Lemma widths_app e1 e2 : forall len, widths len (e1 ++ e2) = dones len e1 ++ widths (PLine2.adv len e1) e2.
Proof. induction e1 as [|[] e1 IH]; intros len; simpl; auto. rewrite IH. reflexivity. Qed.

Lemma widths_lines es : forall cur, map exact_width (lines_from cur es) = widths (exact_width cur) es.
Proof.
  induction es as [|[] es IH]; intros cur; simpl; auto.
  - rewrite IH. f_equal. change exact_width with sumw. rewrite sumw_app. unfold sumw at 2. simpl. lia.
  - rewrite IH. reflexivity.
Qed.

(** The widths of the lines after the first. *)
Lemma widths_head es len : exists l, widths len es = (len + total_width (first_line (items_of es)))%N :: l /\
  forall len', tl (widths len' es) = l.
Proof.
  revert len. induction es as [|[] es IH]; intros len; simpl.
  - exists []. split; [f_equal; lia|reflexivity].
  - destruct (IH (len + tx_width t)%N) as (l & E & H). exists l. split; [rewrite E; f_equal; lia|intros; apply H].
  - destruct (IH len) as (l & E & H). exists l. split; auto.
  - exists (widths (indent_width ind) es). split; [f_equal; lia|reflexivity].
  - destruct (IH len) as (l & E & H). exists l. split; auto.
  - destruct (IH len) as (l & E & H). exists l. split; auto.
  - destruct (IH len) as (l & E & H). exists l. split; auto.
Qed.

Lemma second_items s : no_fail s -> forall j, items_of (second_events j s) = seconds s.
Proof.
  unfold no_fail. induction s as [f| | |ind|t|a IHa b IHb|a IHa b IHb|n i s IH|]; simpl; intros Hf j; auto; try contradiction.
  - rewrite items_app, IHa, IHb; tauto.
  - apply IHb; tauto.
  - destruct Hf as [Hi Hs]. destruct i as [j'|f]; [|exfalso; eauto]. simpl. rewrite items_app, IH by auto. simpl. apply app_nil_r.
Qed.

Lemma free_second s : newline_free s -> forall j, has_nl (items_of (second_events j s)) = false.
Proof.
  induction s as [f| | |ind|t|a IHa b IHb|a IHa b IHb|n i s IH|]; simpl; intros Hf j; auto; try contradiction.
  - rewrite items_app, has_nl_app, IHa, IHb; tauto.
  - apply IHb; tauto.
  - destruct i as [j'|f]; [|reflexivity]. simpl. rewrite items_app, has_nl_app, IH by auto. reflexivity.
Qed.

Lemma free_single s : newline_free s -> single_line_firsts s.
Proof. induction s; simpl; tauto. Qed.

Lemma dones_free es : has_nl (items_of es) = false -> forall len, dones len es = [].
Proof. induction es as [|[] es IH]; simpl; intros H len; auto. discriminate. Qed.

(** The invariant: what is laid out so far, followed by the rest with all second
    options, fits. *)
Lemma lays_fit strict w j rest s p t p' : lays strict w j rest s p t p' ->
  forall R, rest = items_of R -> no_fail s -> single_line_firsts s ->
  Forall (fun x => x <= w)%N (widths (fst p) (second_events j s ++ R)) ->
  Forall (fun x => x <= w)%N (widths (fst p) (events t ++ R)).
Proof.
  unfold no_fail.
  induction 1 as [j rest p|j rest p|j rest len eol|j rest ind p|j rest x len eol He
    |j rest a b p p1 p2 t1 t2 L1 IH1 L2 IH2|j rest a b len eol t p' Hfit L IH|j rest a b len eol t p' Hfit L IH
    |j rest n j' s p t p' L IH]; intros R HR Hf Hs HF; simpl in *; subst rest; auto.
  - destruct Hf as [Hfa Hfb], Hs as [Hsa Hsb]. rewrite events_app, <- app_assoc. rewrite <- app_assoc in HF.
    specialize (IH1 (second_events j b ++ R)). rewrite items_app, second_items in IH1 by exact Hfb.
    specialize (IH1 eq_refl Hfa Hsa HF). rewrite widths_app in *. apply Forall_app in IH1 as [D1 D2].
    apply Forall_app. split; auto. rewrite (lays_adv L1) in *. apply IH2; auto.
  - destruct Hf as [Hfa Hfb], Hs as [Hsa Hsb]. apply IH; auto; [apply free_single; auto|].
    rewrite widths_app, (dones_free _ (free_second _ Hsa j)). simpl. rewrite adv_flat by (apply free_second; auto).
    rewrite second_items by exact Hfa.
    destruct (widths_head R (len + total_width (seconds a))%N) as (l & E & Hl). rewrite E.
    constructor.
    + destruct Hfit as [Hfit _]. rewrite first_line_app, total_app in Hfit.
      * lia.
      * rewrite <- (second_items a Hfa j). apply free_second; auto.
    + rewrite widths_app in HF. apply Forall_app in HF as [_ HF]. rewrite <- (Hl (PLine2.adv len (second_events j b))).
      destruct (widths (PLine2.adv len (second_events j b)) R); [constructor|]. inversion HF; auto.
  - destruct Hf as [Hfa Hfb], Hs as [Hsa Hsb]. apply IH; auto.
  - destruct Hf as [Hi Hf]. rewrite events_app, <- app_assoc. rewrite <- app_assoc in HF. simpl in *.
    rewrite widths_app in *. specialize (IH R eq_refl Hf Hs). rewrite !widths_app in IH. simpl in *. auto.
Qed.

(** There is always a layout that follows the rule for choices. *)
Lemma fits_dec w len eol l : line_fits w len eol l \/ ~ line_fits w len eol l.
Proof.
  unfold line_fits. destruct (N.le_gt_cases (len + total_width (first_line l)) w)%N as [H|H]; [|right; intros [H' _]; lia].
  destruct (text_after eol (first_line l)); [right; intros [_ H']; discriminate|left; auto].
Qed.

Lemma lays_total w s : no_fail s -> forall j rest p, exists t p', lays false w j rest s p t p'.
Proof.
  unfold no_fail. induction s as [f| | |ind|x|a IHa b IHb|a IHa b IHb|n i s IH|]; simpl; intros Hf j rest [len eol].
  - contradiction.
  - eexists _, _. constructor.
  - eexists _, _. constructor.
  - eexists _, _. constructor.
  - eexists _, _. constructor. discriminate.
  - destruct Hf as [Hfa Hfb]. destruct (IHa Hfa j (seconds b ++ rest) (len, eol)) as (t1 & p1 & L1).
    destruct (IHb Hfb j rest p1) as (t2 & p2 & L2). eexists _, _. econstructor; eauto.
  - destruct Hf as [Hfa Hfb]. destruct (fits_dec w len eol (seconds a ++ rest)) as [H|H].
    + destruct (IHa Hfa j rest (len, eol)) as (t1 & p1 & L1). eexists _, _. apply L_first; eauto.
    + destruct (IHb Hfb j rest (len, eol)) as (t1 & p1 & L1). eexists _, _. eapply L_second; eauto.
  - destruct Hf as [Hi Hf]. destruct i as [j'|f]; [|exfalso; eauto].
    destruct (IH Hf j' rest (len, eol)) as (t1 & p1 & L1). eexists _, _. constructor; eauto.
  - eexists _, _. constructor.
Qed.

End PWide.
