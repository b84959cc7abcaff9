(** pretty_print on well-behaved validated documents. *)
From Verif Require Export PFocus.

Set Implicit Arguments.

Section Doc.
Context {pd : PrettyDoc} {env : Env} {ideq : IdEq pd}.

(** How printing such a document can fail, apart from a bad path or target. *)
Definition val_fail (f : failure (perr Er)) : Prop :=
  match f with
  | FErr e => doc_error e \/ e = TextAfterEndOfLine
  | FPanic p => p = POverflow /\ ovf = true
  | FFuel => False
  end.

Fixpoint texts_in (T : list nat -> textual -> Prop) (q : list nat) (s : shape) : Prop :=
  match s with
  | SText t => T q t
  | SConcat a b | SChoice a b => texts_in T q a /\ texts_in T q b
  | SChild n _ s' => texts_in T (q ++ [n]) s'
  | _ => True
  end.

Lemma texts_in_mono (T T' : list nat -> textual -> Prop) s : (forall q t, T q t -> T' q t) ->
  forall q, texts_in T q s -> texts_in T' q s.
Proof. intros H. induction s; simpl; intuition. Qed.

Lemma elab_allf r c : valid_doc r -> allf val_fail (elab r c).
Proof.
  intros Hv. refine (@elab_closed _ _ (fun _ _ s => allf val_fail s) (fun _ => True) _ _ _ _ _ _ _ _ _ _ _ _ r Hv [] c I); simpl; auto.
Qed.

Lemma node_at_app r q n x : node_at r q = Some x -> node_at r (q ++ [n]) = nth_error (r_kids x) n.
Proof.
  revert r; induction q as [|m q IH]; simpl; intros r.
  - intros [= ->]. destruct (nth_error (r_kids x) n); reflexivity.
  - destruct (nth_error (r_kids r) m); [auto|discriminate].
Qed.

Lemma elab_labelled root r q c : valid_doc r -> node_at root q = Some r -> labelled (id_at root) q (elab r c).
Proof.
  intros Hv.
  refine (@elab_closed _ _ (fun q r s => node_at root q = Some r -> labelled (id_at root) q s) (fun _ => True) _ _ _ _ _ _ _ _ _ _ _ _ r Hv q c I); simpl; auto.
  intros q0 r0 n k s Hk Hs Hq. assert (E : node_at root (q0 ++ [n]) = Some k) by (rewrite (node_at_app root q0 n Hq); exact Hk).
  split; auto. intros j [= <-]. unfold id_at. rewrite E. reflexivity.
Qed.

(** The texts printed by [Text] notations are the texts of their nodes. *)
Definition own_text (root : rdoc) (q : list nat) (t : textual) : Prop :=
  tx_width t = str_width (tx_str t) /\
  (tx_from_text t = true -> exists i, node_at root q = Some (RText i (tx_str t))).

Lemma elab_texts root r q c : valid_doc r -> node_at root q = Some r -> texts_in (own_text root) q (elab r c).
Proof.
  intros Hv.
  refine (@elab_closed _ _ (fun q r s => node_at root q = Some r -> texts_in (own_text root) q s) (fun _ => True) _ _ _ _ _ _ _ _ _ _ _ _ r Hv q c I); simpl; auto.
  - intros q0 r0 c0 s f _ Hf Hq. split; auto. simpl. intros E. destruct (Hf E) as [i ->]. eauto.
  - intros q0 r0 n k s Hk Hs Hq. apply Hs. rewrite (node_at_app root q0 n Hq). exact Hk.
Qed.

Variables (r : rdoc) (doc : D).
Hypothesis Hrep : rep r doc.
Hypothesis Hv : valid_doc r.

Lemma rep_tree st : doc_tree doc st (doc_shape r st).
Proof.
  unfold doc_tree, with_optional_style.
  pose proof (rep_info_eqs (rep_info_of Hrep)) as (H1 & H2 & H3 & _).
  rewrite H2, H3. cbn [lift bind]. split; simpl.
  - rewrite H1. reflexivity.
  - apply (rep_unfolds Hv Hrep).
Qed.

Lemma rep_root_ok st : root_ok val_fail top topN (doc_shape r st).
Proof. split; [|exact I]. split; [apply elab_allf; auto|exact I]. Qed.

Lemma val_ovf : ovf = true -> val_fail (FPanic POverflow).
Proof. simpl. auto. Qed.
Lemma val_eol : val_fail (FErr TextAfterEndOfLine).
Proof. simpl. auto. Qed.

(** ** With unique ids *)
Hypothesis Hu : unique_ids (id_at r).

Definition tail_text (q : list nat) (t : textual) : Prop :=
  tx_from_text t = true -> tx_width t = str_width (tx_str t) /\
  exists i s pre, node_at r q = Some (RText i s) /\ s = pre ++ tx_str t.

Definition QL (j : Id) (s : shape) : Prop :=
  exists q, id_at r q = Some j /\ labelled (id_at r) q s /\ texts_in tail_text q s.
Definition NPL (q : list nat) (j : Id) : Prop := id_at r q = Some j.

Definition additive (s : str) : Prop :=
  forall a b c, s = a ++ b ++ c -> str_width (b ++ c) = (str_width b + str_width c)%N.

Definition splittable : Prop := forall q i s, node_at r q = Some (RText i s) -> additive s.

Lemma root_lab st : root_ok val_fail QL NPL (doc_shape r st).
Proof.
  split; [|reflexivity]. split; [apply elab_allf; auto|]. exists []. split; [reflexivity|].
  split; [apply elab_labelled; auto|].
  apply texts_in_mono with (T := own_text r).
  - intros q t [H1 H2] Ht. split; auto. destruct (H2 Ht) as [i Hi]. exists i, (tx_str t), []. auto.
  - apply elab_texts; auto.
Qed.

Lemma split_lab ft : (is_text_target ft = true -> splittable) -> splits QL ft.
Proof.
  intros Hs m -> j t n (q & Hq & _ & Ht) Hf. simpl in Ht. destruct (Ht Hf) as [Hw (i & s & pre & Hn & E)].
  simpl. rewrite Hw. rewrite <- (firstn_skipn n (tx_str t)) at 3. symmetry.
  eapply (Hs eq_refl q i s Hn pre). rewrite firstn_skipn. exact E.
Qed.

(** The generic statement for such documents. *)
Lemma lab_spec w path ft st : (is_text_target ft = true -> splittable) ->
  exists res, ev (fun n => pretty_print n doc w path ft st) res /\
    match res with
    | Ok (up, fl, down) =>
        exists ru rd, ev (fun n => collect n (up_next n) up) ru /\
                      ev (fun n => collect n (down_next n) down) rd /\
          (forall f, ru = Fail f -> val_fail f) /\ (forall f, rd = Fail f -> val_fail f) /\
          match layout w (doc_shape r st) with
          | Some es => exists ups downs pre post, ru = Ok ups /\ rd = Ok downs /\
              divided NPL ft path es pre post /\
              lines_of pre = rev ups ++ [left_segments fl] /\
              lines_from [] post = right_segments fl :: downs
          | None => is_ok ru = false \/ is_ok rd = false
          end
    | Fail f =>
        (val_fail f /\ layout w (doc_shape r st) = None) \/
        (exists path1 i path2, path = path1 ++ i :: path2 /\ f = FErr (InvalidPath i) /\
          missing_child val_fail QL NPL w path1 i (layout w (doc_shape r st))) \/
        (ft = FMark /\ f = FErr MissingFocusMark /\
           forall es, layout w (doc_shape r st) = Some es ->
           exists j a mid, es = a ++ mid /\ start_at NPL path a /\ NPL path j /\ ~ In (EMark j) mid) \/
        (exists n, ft = FText n /\ f = FErr MissingText /\
           forall es, layout w (doc_shape r st) = Some es ->
           exists a mid, es = a ++ mid /\ start_at NPL path a /\ existsb is_ftext mid = false)
    end.
Proof.
  intros Hs. apply pp_spec with (Q := QL).
  - apply val_eol.
  - apply val_ovf.
  - intros j a b (q & H1 & [H2 H3] & [H4 H5]). split; exists q; auto.
  - intros j a b (q & H1 & [H2 H3] & [H4 H5]). split; exists q; auto.
  - intros j n j' s (q & H1 & [H2 H3] & H4). exists (q ++ [n]). auto.
  - intros j t n (q & H1 & _ & H2). exists q. split; auto. split; [exact I|]. intros Hf. simpl in *.
    destruct (H2 Hf) as [_ (i & s & pre & Hn & E)]. split; auto.
    exists i, s, (pre ++ firstn n (tx_str t)). split; auto. rewrite <- app_assoc, firstn_skipn. exact E.
  - intros q j n j' s H1 (q' & H2 & [H3 _] & _). assert (q' = q) by (eapply Hu; eauto). subst q'. apply H3. reflexivity.
  - apply split_lab. exact Hs.
  - apply rep_tree.
  - apply root_lab.
Qed.

Lemma layout_good w st es : layout w (doc_shape r st) = Some es -> good (id_at r) [] es /\ open_from [] es = [].
Proof.
  unfold layout, doc_shape. intros H. destruct (rend w _ _ look_end pos0) as [[es' p']|] eqn:E; [|discriminate].
  injection H as <-. apply (@rend_good _ _ (id_at r) _ _ _ _ _ _ _ [] E); [|reflexivity].
  apply elab_labelled; auto.
Qed.

Lemma start_at_start w st es path a b : layout w (doc_shape r st) = Some es -> es = a ++ b ->
  start_at NPL path a -> at_start a path.
Proof.
  intros Hes -> [[-> ->]|(q1 & j1 & m & a' & -> & Hq & ->)]; [left; auto|].
  right. exists a', j1, m. split; auto. f_equal. destruct (layout_good _ _ Hes) as [G _].
  eapply good_enter; [exact Hu|exact G| |exact Hq]. rewrite <- app_assoc. reflexivity.
Qed.

Lemma end_at_end w st es path a b : layout w (doc_shape r st) = Some es -> es = a ++ b ->
  end_at NPL path b -> at_end a b path.
Proof.
  intros Hes -> [[-> ->]|(q1 & j1 & m & b' & -> & Hq & ->)]; [left; auto|].
  right. exists b', j1, m. split; auto. destruct (layout_good _ _ Hes) as [G _].
  eapply good_exit; [exact Hu|exact G|reflexivity|exact Hq].
Qed.

Lemma start_displayed a path b : at_start a path -> displayed (a ++ b) path.
Proof.
  intros [[-> ->]|(a' & j & n & -> & <-)].
  - exists [], b. auto.
  - exists (a' ++ [EEnter j n]), b. split; auto. unfold open_path. rewrite open_from_app. reflexivity.
Qed.

Lemma missing_not_displayed w st es path1 i : layout w (doc_shape r st) = Some es -> linear es ->
  missing_child val_fail QL NPL w path1 i (layout w (doc_shape r st)) ->
  displayed es path1 /\ ~ displayed es (path1 ++ [i]).
Proof.
  intros Hes Hlin Hm. destruct (Hm es Hes) as (a & rest & j & -> & Hst & Hj & Hrest).
  split. { apply start_displayed. eapply start_at_start; eauto. }
  destruct (layout_good _ _ Hes) as [G _].
  apply (@given_up _ _ (id_at r) Hu w (a ++ rest) a rest path1 j i); auto.
  intros Hin. destruct (Hrest Hin) as (j2 & s2 & k & p & es2 & p' & [_ (q2 & Hq2 & Hl & _)] & H1 & H2 & H3 & H4 & H5).
  exists j2, s2, k, p, es2, p'. eauto 10.
Qed.

Lemma divided_displayed w st es ft path pre post : layout w (doc_shape r st) = Some es ->
  divided NPL ft path es pre post -> displayed es path.
Proof.
  intros Hes Hd. destruct ft as [| | |n]; simpl in Hd.
  - destruct Hd as [-> Hst]. apply start_displayed. eapply start_at_start; eauto.
  - destruct Hd as [-> Hst]. destruct (@end_at_end _ _ _ _ _ _ Hes eq_refl Hst) as [[-> ->]|(b' & j & n & -> & H)].
    + exists [], (pre ++ []). auto.
    + exists pre, (EExit j n :: b'). auto.
  - destruct Hd as [-> (a & mid & j & -> & Hst & _)]. rewrite <- !app_assoc in *. apply start_displayed.
    eapply start_at_start; [exact Hes|reflexivity|exact Hst].
  - destruct Hd as (a & mid & j & t & rest & -> & _ & _ & Hst & _). apply start_displayed.
    eapply start_at_start; [exact Hes|reflexivity|exact Hst].
Qed.

(** A path to a node that is not displayed. *)
Lemma path_rejected w st es path1 i path2 ft : layout w (doc_shape r st) = Some es -> linear es ->
  (is_text_target ft = true -> splittable) ->
  displayed es path1 -> ~ displayed es (path1 ++ [i]) ->
  ev (fun n => pretty_print n doc w (path1 ++ i :: path2) ft st) (Fail (FErr (InvalidPath i))).
Proof.
  intros Hes Hlin Hs Hd1 Hd2. destruct (layout_good _ _ Hes) as [G _].
  assert (Hno : ~ displayed es (path1 ++ i :: path2)).
  { intros H. apply Hd2. apply (@displayed_app _ (id_at r) es (path1 ++ [i]) path2 G). rewrite <- app_assoc. exact H. }
  destruct (@lab_spec w (path1 ++ i :: path2) ft st Hs) as (res & Hev & Hr). rewrite Hes in Hr.
  destruct res as [[[up fl] down]|f].
  - exfalso. destruct Hr as (ru & rd & _ & _ & _ & _ & ups & downs & pre & post & _ & _ & Hdiv & _).
    apply Hno. eapply divided_displayed; eauto.
  - destruct Hr as [[_ H]|[(p1 & i' & p2 & E & -> & Hm)|[(-> & -> & Hm)|(n & -> & -> & Hm)]]].
    + discriminate.
    + rewrite <- Hes in Hm. destruct (missing_not_displayed _ Hes Hlin Hm) as [H1 H2].
      assert (i' = i) as ->; [|exact Hev].
      apply app_eq_app in E as (l & [[E1 E2]|[E1 E2]]).
      * destruct l as [|x l].
        { simpl in E2. congruence. }
        exfalso. injection E2 as -> E2. apply H2. subst path1.
        apply (@displayed_app _ (id_at r) es (p1 ++ [x]) l G). rewrite <- app_assoc. exact Hd1.
      * destruct l as [|x l].
        { simpl in E2. congruence. }
        exfalso. injection E2 as -> E2. apply Hd2. subst p1.
        apply (@displayed_app _ (id_at r) es (path1 ++ [x]) l G). rewrite <- app_assoc. exact H1.
    + exfalso. destruct (Hm es eq_refl) as (j & a & mid & E & Hst & _). apply Hno. rewrite E. apply start_displayed.
      eapply start_at_start; [exact Hes|exact E|exact Hst].
    + exfalso. destruct (Hm es eq_refl) as (a & mid & E & Hst & _). apply Hno. rewrite E. apply start_displayed.
      eapply start_at_start; [exact Hes|exact E|exact Hst].
Qed.

(** A path to a node that is displayed. *)
Lemma path_accepted w st es path ft : layout w (doc_shape r st) = Some es -> linear es ->
  (is_text_target ft = true -> splittable) -> displayed es path ->
  (exists ups fl downs pre post, printed doc w path ft st ups fl downs /\ divided NPL ft path es pre post /\
     lines_of pre = rev ups ++ [left_segments fl] /\ lines_from [] post = right_segments fl :: downs) \/
  (ft = FMark /\ ev (fun n => pretty_print n doc w path ft st) (Fail (FErr MissingFocusMark)) /\
     exists j a mid, es = a ++ mid /\ start_at NPL path a /\ NPL path j /\ ~ In (EMark j) mid) \/
  (is_text_target ft = true /\ ev (fun n => pretty_print n doc w path ft st) (Fail (FErr MissingText)) /\
     exists a mid, es = a ++ mid /\ start_at NPL path a /\ existsb is_ftext mid = false).
Proof.
  intros Hes Hlin Hs Hd. destruct (layout_good _ _ Hes) as [G _].
  destruct (@lab_spec w path ft st Hs) as (res & Hev & Hr). rewrite Hes in Hr.
  destruct res as [[[up fl] down]|f].
  - left. destruct Hr as (ru & rd & Hu' & Hd' & _ & _ & ups & downs & pre & post & -> & -> & Hdiv & H1 & H2).
    exists ups, fl, downs, pre, post. split; auto. exists up, down. auto.
  - destruct Hr as [[_ H]|[(p1 & i' & p2 & E & -> & Hm)|[(-> & -> & Hm)|(n & -> & -> & Hm)]]].
    + discriminate.
    + exfalso. rewrite <- Hes in Hm. destruct (missing_not_displayed _ Hes Hlin Hm) as [H1 H2].
      apply H2. apply (@displayed_app _ (id_at r) es (p1 ++ [i']) p2 G). rewrite <- app_assoc. simpl. rewrite <- E. exact Hd.
    + right; left. auto.
    + right; right. split; [reflexivity|]. auto.
Qed.

(** Marks. *)
Lemma marks_after w st es a mid path j : layout w (doc_shape r st) = Some es -> linear es ->
  (exists c, es = a ++ mid ++ c) -> start_at NPL path a -> NPL path j -> ~ In (EMark j) mid ->
  forall x j' y, a ++ mid = x ++ EMark j' :: y -> open_path x <> path.
Proof.
  intros Hes Hlin [c ->] Hst Hj Hmid x j' y E Hx. destruct (layout_good _ _ Hes) as [G _].
  pose proof G as G0. rewrite app_assoc, E, <- app_assoc in G. apply good_app in G as [_ G]. simpl in G. destruct G as [G _].
  change (rev (open_from [] x)) with (open_path x) in G. rewrite Hx in G.
  assert (j' = j) by (unfold NPL in Hj; congruence). subst j'.
  apply app_eq_app in E as (l & [[E1 E2]|[E1 E2]]).
  - destruct l as [|e l].
    + simpl in E2. apply Hmid. rewrite <- E2. left. reflexivity.
    + injection E2 as <- E2. subst a.
      eapply (@not_before _ (id_at r) Hu _ path j (x ++ EMark j :: l) (mid ++ c) G0 Hlin Hj eq_refl Hst (EMark j) x l); auto.
  - apply Hmid. rewrite E2. apply in_or_app. right. left. reflexivity.
Qed.

End Doc.
