(** [Flat] takes the first option of every choice; segments of the layout. *)
From Verif Require Export PLine2.

Set Implicit Arguments.

Section Flat.
Context {pd : PrettyDoc} {env : Env}.

Section Node.
Variable x : rdoc.
Hypothesis Hkids : forall k, In k (r_kids x) -> forall c, elab k (in_flat c) = drop_choices (elab k c).

Definition fe_flat (fe : option foldenv) : Prop :=
  match fe with
  | None => True
  | Some e => (forall c, fe_left e (in_flat c) = drop_choices (fe_left e c)) /\
      exists k, In k (r_kids x) /\ fe_right e = Kid k (elab k)
  end.

Lemma child_flat n k c : In k (r_kids x) -> child n (Kid k (elab k)) (in_flat c) = drop_choices (child n (Kid k (elab k)) c).
Proof. intros H. unfold child. simpl. rewrite <- Hkids by auto. reflexivity. Qed.

Lemma fold_flat (join : foldenv -> ctx -> shape) :
  (forall e c, fe_flat (Some e) -> join e (in_flat c) = drop_choices (join e c)) ->
  forall ks i prev acc c, (forall k, In k ks -> In k (r_kids x)) ->
  (forall c, acc (in_flat c) = drop_choices (acc c)) ->
  fold_kids join i prev (map (fun k => Kid k (elab k)) ks) acc (in_flat c) =
  drop_choices (fold_kids join i prev (map (fun k => Kid k (elab k)) ks) acc c).
Proof.
  intros Hj. induction ks as [|k ks IH]; intros i prev acc c Hk Ha; simpl; auto.
  apply IH; [intros; apply Hk; right; auto|]. intros c'. apply Hj. split; auto. exists k. split; auto. apply Hk. left. reflexivity.
Qed.

Lemma note_flat n : forall fe c, fe_flat fe ->
  elab_note x (kids_of x) n fe (in_flat c) = drop_choices (elab_note x (kids_of x) n fe c).
Proof.
  assert (Hget : forall m k, nth_error (kids_of x) m = Some k -> exists y, In y (r_kids x) /\ k = Kid y (elab y)).
  { intros m k. unfold kids_of. rewrite nth_error_map. destruct (nth_error (r_kids x) m) eqn:E; [|discriminate]. intros [= <-].
    apply nth_error_In in E. eauto. }
  assert (Hbr : forall (A A' : shape) e, A' = drop_choices A ->
    (match x with RBranch _ _ => A' | RText _ _ => SFail e end) = drop_choices (match x with RBranch _ _ => A | RText _ _ => SFail e end)).
  { intros A A' e. case x; auto. }
  assert (Hfold : forall (J : foldenv -> ctx -> shape) (F : ctx -> shape) c,
    (forall e c, fe_flat (Some e) -> J e (in_flat c) = drop_choices (J e c)) -> (forall c, F (in_flat c) = drop_choices (F c)) ->
    match kids_of x with [] => SEmpty | k :: ks => fold_kids J 0 k ks F (in_flat c) end =
    drop_choices (match kids_of x with [] => SEmpty | k :: ks => fold_kids J 0 k ks F c end)).
  { intros J F c HJ HF. pose proof (fold_flat J HJ) as H. unfold kids_of. destruct (r_kids x) as [|k1 ks] eqn:Ek; simpl; auto.
    apply H; auto. intros k Hk. right. exact Hk. }
  induction n as [| | |s| |n IH|pre l n IH|a IHa b IHb|a IHa b IHb|cd ps a IHa b IHb|i|l n IH| |z IHz u IHu m IHm|f IHf jn IHj| |];
    intros fe c Hf; cbn [elab_note]; cbv zeta; auto.
  - case x; reflexivity.
  - apply (IH fe (in_indent pre (option_map (i_lookup (r_info x)) l) c) Hf).
  - simpl. rewrite IHa, IHb; auto.
  - cbn [x_flat in_flat]. rewrite IHa by auto. destruct (x_flat c); reflexivity.
  - assert (Hgo : forall y, (if i_cond (r_info y) cd then elab_note x (kids_of x) a fe (in_flat c) else elab_note x (kids_of x) b fe (in_flat c))
      = drop_choices (if i_cond (r_info y) cd then elab_note x (kids_of x) a fe c else elab_note x (kids_of x) b fe c)).
    { intros y. destruct (i_cond _ _); auto. }
    destruct ps as [|k| |]; auto.
    + apply Hbr. destruct (kid_number k _) as [m|]; auto. destruct (nth_error (kids_of x) m); auto.
    + destruct fe; auto.
    + destruct fe; auto.
  - apply Hbr. destruct (kid_number i _) as [m|]; auto. destruct (nth_error (kids_of x) m) as [k|] eqn:E; auto.
    destruct (Hget _ _ E) as (y & Hy & ->). apply child_flat; auto.
  - apply (IH fe (in_style (i_lookup (r_info x) l) c) Hf).
  - apply Hbr. destruct (kids_of x) as [|k1 [|k2 ks]]; auto.
  - apply Hbr.
    apply Hfold.
    + intros e c' He. apply IHj. exact He.
    + intros c'. apply IHf. exact I.
  - destruct fe as [e|]; auto. apply Hf.
  - destruct fe as [e|]; auto. destruct Hf as (_ & k & Hk & ->). apply child_flat; auto.
Qed.

End Node.

Theorem elab_flat x : forall c, elab x (in_flat c) = drop_choices (elab x c).
Proof.
  induction x as [i s|i ks IH] using rdoc_ind'; intros c; rewrite !elab_eq.
  - apply note_flat; [|exact I]. intros k [].
  - apply note_flat; [|exact I]. intros k Hk. apply IH. exact Hk.
Qed.

(** ** Every choice of a document replaced by its first option *)
Lemma fo_info r : r_info (first_options r) = info_firsts (r_info r).
Proof. destruct r; reflexivity. Qed.
Lemma fo_kids r : r_kids (first_options r) = map first_options (r_kids r).
Proof. destruct r; reflexivity. Qed.

Section FirstNode.
Variable x : rdoc.
Hypothesis Hkids : forall k, In k (r_kids x) -> forall c, elab (first_options k) c = drop_choices (elab k c).

Definition fe_first (fe fe' : option foldenv) : Prop :=
  match fe, fe' with
  | None, None => True
  | Some e, Some e' => (forall c, fe_left e' c = drop_choices (fe_left e c)) /\ fe_index e' = fe_index e /\
      fe_ldoc e' = first_options (fe_ldoc e) /\
      exists k, In k (r_kids x) /\ fe_right e = Kid k (elab k) /\ fe_right e' = Kid (first_options k) (elab (first_options k))
  | _, _ => False
  end.

Lemma child_first n k c : In k (r_kids x) ->
  child n (Kid (first_options k) (elab (first_options k))) c = drop_choices (child n (Kid k (elab k)) c).
Proof. intros H. unfold child. simpl. rewrite fo_info. simpl. rewrite <- Hkids by auto. reflexivity. Qed.

Definition kidify (k : rdoc) : kid := Kid k (elab k).

Lemma fold_first (join join' : foldenv -> ctx -> shape) :
  (forall e e' c, fe_first (Some e) (Some e') -> join' e' c = drop_choices (join e c)) ->
  forall ks i prev acc acc' c, (forall k, In k ks -> In k (r_kids x)) ->
  (forall c, acc' c = drop_choices (acc c)) ->
  fold_kids join' i (kidify (first_options prev)) (map kidify (map first_options ks)) acc' c =
  drop_choices (fold_kids join i (kidify prev) (map kidify ks) acc c).
Proof.
  intros Hj. induction ks as [|k ks IH]; intros i prev acc acc' c Hk Ha; cbn [map fold_kids]; auto.
  apply IH; [intros; apply Hk; right; auto|]. intros c'. apply Hj. repeat split; auto. exists k. split; auto. apply Hk. left. reflexivity.
Qed.

Lemma note_first n : forall fe fe' c, fe_first fe fe' ->
  elab_note (first_options x) (kids_of (first_options x)) (note_firsts n) fe' c = drop_choices (elab_note x (kids_of x) n fe c).
Proof.
  assert (Hlen : length (kids_of (first_options x)) = length (kids_of x)).
  { unfold kids_of. rewrite fo_kids, !map_length. reflexivity. }
  assert (Hget : forall m, nth_error (kids_of (first_options x)) m =
     match nth_error (r_kids x) m with Some y => Some (kidify (first_options y)) | None => None end).
  { intros m. unfold kids_of. rewrite fo_kids, !nth_error_map. destruct (nth_error (r_kids x) m); reflexivity. }
  assert (Hget0 : forall m, nth_error (kids_of x) m =
     match nth_error (r_kids x) m with Some y => Some (kidify y) | None => None end).
  { intros m. unfold kids_of. rewrite !nth_error_map. destruct (nth_error (r_kids x) m); reflexivity. }
  assert (Hbr : forall (A A' : shape) e, A' = drop_choices A ->
    (match first_options x with RBranch _ _ => A' | RText _ _ => SFail e end) = drop_choices (match x with RBranch _ _ => A | RText _ _ => SFail e end)).
  { intros A A' e. case x; simpl; auto. }
  assert (Hfold : forall (J J' : foldenv -> ctx -> shape) (F F' : ctx -> shape) c,
    (forall e e' c, fe_first (Some e) (Some e') -> J' e' c = drop_choices (J e c)) -> (forall c, F' c = drop_choices (F c)) ->
    match kids_of (first_options x) with [] => SEmpty | k :: ks => fold_kids J' 0 k ks F' c end =
    drop_choices (match kids_of x with [] => SEmpty | k :: ks => fold_kids J 0 k ks F c end)).
  { intros J J' F F' c HJ HF. pose proof (fold_first J J' HJ) as H. unfold kids_of. rewrite fo_kids.
    destruct (r_kids x) as [|k1 ks] eqn:Ek; cbn [map]; auto.
    apply H; auto. intros k Hk. right. exact Hk. }
  induction n as [| | |s| |n IH|pre l n IH|a IHa b IHb|a IHa b IHb|cd ps a IHa b IHb|i|l n IH| |z IHz u IHu m IHm|f IHf jn IHj| |];
    intros fe fe' c Hf; cbn [elab_note note_firsts]; cbv zeta; auto.
  - case x; reflexivity.
  - rewrite fo_info. apply IH. exact Hf.
  - simpl. rewrite (IHa _ _ _ Hf), (IHb _ _ _ Hf). reflexivity.
  - rewrite (IHa _ _ _ Hf). destruct (x_flat c); reflexivity.
  - assert (Hgo : forall y, (if i_cond (r_info (first_options y)) cd then elab_note (first_options x) (kids_of (first_options x)) (note_firsts a) fe' c else elab_note (first_options x) (kids_of (first_options x)) (note_firsts b) fe' c)
      = drop_choices (if i_cond (r_info y) cd then elab_note x (kids_of x) a fe c else elab_note x (kids_of x) b fe c)).
    { intros y. rewrite fo_info. simpl. destruct (i_cond _ _); auto. }
    destruct ps as [|k| |]; auto.
    + apply Hbr. rewrite Hlen. destruct (kid_number k _) as [m|]; auto. rewrite Hget, Hget0.
      destruct (nth_error (r_kids x) m); auto. apply Hgo.
    + destruct fe as [e|], fe' as [e'|]; try contradiction; auto. destruct Hf as (_ & _ & -> & _). apply Hgo.
    + destruct fe as [e|], fe' as [e'|]; try contradiction; auto. destruct Hf as (_ & _ & _ & k & _ & -> & ->). apply Hgo.
  - apply Hbr. rewrite Hlen. destruct (kid_number i _) as [m|]; auto. rewrite Hget, Hget0.
    destruct (nth_error (r_kids x) m) as [k|] eqn:E; auto. apply child_first. eapply nth_error_In; eauto.
  - rewrite fo_info. apply IH. exact Hf.
  - apply Hbr. destruct (kids_of x) as [|k1 [|k2 ks]] eqn:E1, (kids_of (first_options x)) as [|k1' [|k2' ks']] eqn:E2; try discriminate Hlen; auto.
  - apply Hbr. apply Hfold.
    + intros e e' c' He. apply IHj. exact He.
    + intros c'. apply IHf. exact I.
  - destruct fe as [e|], fe' as [e'|]; try contradiction; auto. apply Hf.
  - destruct fe as [e|], fe' as [e'|]; try contradiction; auto. destruct Hf as (_ & -> & _ & k & Hk & -> & ->). apply child_first; auto.
Qed.

End FirstNode.

Theorem elab_first x : forall c, elab (first_options x) c = drop_choices (elab x c).
Proof.
  induction x as [i s|i ks IH] using rdoc_ind'; intros c; rewrite !elab_eq, fo_info.
  - apply note_first; [|exact I]. intros k [].
  - apply note_first; [|exact I]. intros k Hk. apply IH. exact Hk.
Qed.

Lemma first_items s : no_fail s -> forall j, items_of (first_events j s) = firsts s.
Proof.
  induction s as [f| | |ind|t|a IHa b IHb|a IHa b IHb|n i s IH|]; intros Hf j; simpl; auto.
  - destruct Hf. rewrite items_app, IHa, IHb; auto.
  - destruct Hf. auto.
  - destruct Hf as [Hi Hf]. destruct i; [|contradiction]. simpl. rewrite items_app. simpl. rewrite app_nil_r. auto.
Qed.

(** Without choices the width does not matter. *)
Lemma rend_flat s : forall w1 w2 j k1 k2 p, rend w1 (drop_choices s) j k1 p = rend w2 (drop_choices s) j k2 p.
Proof.
  induction s as [f| | |ind|t|a IHa b IHb|a IHa b IHb|n i s IH|]; intros w1 w2 j k1 k2 p; cbn [drop_choices rend]; auto.
  - rewrite (IHa w1 w2 j _ (fits_s (drop_choices b) k2) p).
    destruct (rend w2 (drop_choices a) j (fits_s (drop_choices b) k2) p) as [[e1 p1]|]; auto. cbn [obind].
    rewrite (IHb w1 w2 j k1 k2 p1). reflexivity.
  - destruct i; auto. rewrite (IH w1 w2 _ k1 k2 p). reflexivity.
Qed.

(** ** Segments *)
Lemma lines_segments (es : list event) : forall cur l s, In l (lines_from cur es) -> In s l ->
  In s cur \/ (exists a j t b, es = a ++ EText j t :: b /\ s = text_seg t) \/
  (exists a ind b, es = a ++ ENewline ind :: b /\ In s (rev ind)).
Proof.
  assert (Hcons : forall e (es : list event) cur cur' l s,
    (forall cur l s, In l (lines_from cur es) -> In s l ->
      In s cur \/ (exists a j t b, es = a ++ EText j t :: b /\ s = text_seg t) \/ (exists a ind b, es = a ++ ENewline ind :: b /\ In s (rev ind))) ->
    In l (lines_from cur' es) -> In s l ->
    (In s cur' -> In s cur \/ (exists j t, e = EText j t /\ s = text_seg t) \/ (exists ind, e = ENewline ind /\ In s (rev ind))) ->
    In s cur \/ (exists a j t b, e :: es = a ++ EText j t :: b /\ s = text_seg t) \/ (exists a ind b, e :: es = a ++ ENewline ind :: b /\ In s (rev ind))).
  { intros e es0 cur cur' l s IH Hl Hs Hc. destruct (IH _ _ _ Hl Hs) as [H|[(a & j & t & b & -> & H)|(a & ind & b & -> & H)]].
    - destruct (Hc H) as [H1|[(j & t & -> & H1)|(ind & -> & H1)]]; auto.
      + right. left. exists [], j, t, es0. auto.
      + right. right. exists [], ind, es0. auto.
    - right. left. exists (e :: a), j, t, b. auto.
    - right. right. exists (e :: a), ind, b. auto. }
  induction es as [|e es IH]; intros cur l s; simpl.
  - intros [->|[]]. auto.
  - destruct e; intros Hl Hs.
    + eapply Hcons; eauto. intros H. apply in_app_or in H as [H|[H|[]]]; eauto 10.
    + eapply Hcons; eauto.
    + destruct Hl as [->|Hl]; auto. eapply Hcons; eauto.
    + eapply Hcons; eauto.
    + eapply Hcons; eauto.
    + eapply Hcons; eauto.
Qed.

Lemma indents_width s fs x : In x (indents_from s fs) -> seg_width x = str_width (seg_str x).
Proof.
  revert s; induction fs as [|[] fs IH]; intros s; simpl; eauto. intros []. intros [<-|H]; eauto.
Qed.

(** No text after EndOfLine in a layout. *)
Lemma rend_clean w s : forall j k p es p', rend w s j k p = Some (es, p') ->
  text_after (snd p) (items_of es) = false /\ eol_after (snd p) (items_of es) = snd p'.
Proof.
  induction s as [f| | |ind|t|a IHa b IHb|a IHa b IHb|n i s IH|]; intros j k p es p'; cbn [rend]; intros H.
  - discriminate.
  - injection H as <- <-. auto.
  - injection H as <- <-. auto.
  - apply obind_some in H as [x [Hx [= <- <-]]]. apply obind_some in Hx as [y [_ [= <-]]]. auto.
  - apply obind_some in H as [x [Hx [= <- <-]]]. destruct p as [len eol]. simpl in Hx. destruct eol; [discriminate|].
    apply obind_some in Hx as [y [_ [= <-]]]. auto.
  - apply obind_some in H as [[e1 p1] [H1 H]]. apply obind_some in H as [[e2 p2] [H2 [= <- <-]]].
    destruct (IHa _ _ _ _ _ H1) as [A1 A2]. destruct (IHb _ _ _ _ _ H2) as [B1 B2].
    rewrite items_app, text_after_app, eol_after_app, A1, A2. auto.
  - destruct (head_fails a); [discriminate|]. apply obind_some in H as [f [Hf H]]. destruct f; eauto.
  - destruct i as [j'|]; [|discriminate]. apply obind_some in H as [[e1 p1] [H1 [= <- <-]]].
    destruct (IH _ _ _ _ _ H1) as [A1 A2]. simpl. rewrite items_app, text_after_app, eol_after_app, A1, A2. auto.
  - injection H as <- <-. auto.
Qed.

Lemma text_after_split eol a b x c : text_after eol (a ++ IEol :: b ++ ITxt x :: c) = false -> In INl b.
Proof.
  rewrite text_after_app. intros H. apply orb_false_iff in H as [_ H]. simpl in H.
  rewrite text_after_app in H. apply orb_false_iff in H as [_ H]. simpl in H. apply orb_false_iff in H as [H _].
  destruct (in_dec (fun a b : piece => ltac:(decide equality; apply N.eq_dec)) INl b) as [|Hn]; auto.
  exfalso. assert (E : has_nl b = false).
  { unfold has_nl. apply not_true_iff_false. intros E. apply existsb_exists in E as ([] & H1 & H2); try discriminate. auto. }
  rewrite (eol_keeps _ E) in H. discriminate.
Qed.

Lemma nl_event es : In INl (items_of es) -> exists ind, In (ENewline ind) es.
Proof.
  induction es as [|[] es IH]; simpl; try (intros H; destruct (IH H) as [ind0 ?]; eauto; fail).
  - intros []. - intros [H|H]; [discriminate|]. destruct (IH H); eauto.
  - intros [H|H]; [discriminate|]. destruct (IH H); eauto.
  - intros _. eauto.
Qed.

End Flat.
