(** Resizing (C53): a layout whose lines are all narrow enough for a smaller
    width is also the layout at that width. *)
From Verif Require Import SpecResize PLine PLine2 PWide PElab.

Set Implicit Arguments.

Section PResize.
Context {pd : PrettyDoc} {env : Env}.

Lemma fits_less w w' len eol l : (w' <= w)%N -> line_fits w' len eol l -> line_fits w len eol l.
Proof. unfold line_fits. intros H [H1 H2]. split; auto. lia. Qed.

Lemma fits_app w len eol pre l : has_nl pre = false ->
  line_fits w len eol (pre ++ l) <-> text_after eol pre = false /\ line_fits w (len + total_width pre) (eol_after eol pre) l.
Proof.
  intros H. unfold line_fits. rewrite first_line_app, total_app, text_after_app, orb_false_iff, N.add_assoc by auto. tauto.
Qed.

Lemma fits_app_nl w len eol pre l : has_nl pre = true ->
  line_fits w len eol (pre ++ l) <-> line_fits w len eol pre.
Proof. intros H. unfold line_fits. rewrite first_line_nl by auto. reflexivity. Qed.

(** [no_longer], for a fixed width and rest. *)
Definition shorter_at (w : N) (y x : list piece) : Prop :=
  forall len eol, line_fits w len eol x -> line_fits w len eol y.

Lemma shorter_at_pre w pre y x : shorter_at w y x -> shorter_at w (pre ++ y) (pre ++ x).
Proof.
  intros H len eol. destruct (has_nl pre) eqn:E.
  - rewrite !fits_app_nl by auto. auto.
  - rewrite !fits_app by auto. intros [H1 H2]. auto.
Qed.

(** The second options fit whenever any options do. *)
Lemma seconds_no_longer s x : obedient s -> displays s x -> no_longer (seconds s) x.
Proof.
  intros Ho Hd. induction Hd; simpl in *; try (intros w len eol rest H; exact H); auto.
  - destruct Ho as [Ha Hb]. intros w len eol rest. rewrite <- !app_assoc. intros H.
    apply (IHHd1 Ha). revert H. apply shorter_at_pre. intros l e. apply (IHHd2 Hb).
  - destruct Ho as (Ha & Hb & H). auto.
  - destruct Ho as (Ha & Hb & H). auto.
Qed.

Lemma lays_displays strict w j rest s p t p' : lays strict w j rest s p t p' -> displays s (items_of (events t)).
Proof.
  induction 1; try (constructor; auto; fail).
  - rewrite events_app, items_app. constructor; auto.
  - change (events (Ev (EEnter j n) :: t ++ [Ev (EExit j n)])) with (EEnter j n :: events (t ++ [Ev (EExit j n)])).
    rewrite events_app. cbn [items_of]. rewrite items_app. simpl. rewrite app_nil_r. constructor. auto.
Qed.

(** [widths]: the widths of the lines. *)
Lemma lays_narrower strict w w' j rest s p t p' : (w' <= w)%N -> lays strict w j rest s p t p' ->
  forall R, obedient s -> shorter_at w' rest (items_of R) ->
  Forall (fun x => x <= w')%N (widths (fst p) (events t ++ R)) ->
  text_after (snd p) (items_of (events t ++ R)) = false ->
  lays strict w' j rest s p t p'.
Proof.
  intros Hw L. induction L; intros R Ho Hr HF Ht; simpl in *; try (constructor; auto; fail).
  - destruct Ho as [Ha Hb]. rewrite events_app, <- app_assoc in HF, Ht.
    econstructor.
    + apply (IHL1 (events t2 ++ R)); auto. rewrite items_app. intros len eol H.
      apply (seconds_no_longer Hb (lays_displays L2)). revert H. apply shorter_at_pre. exact Hr.
    + apply (IHL2 R); auto.
      * rewrite widths_app, Forall_app in HF. rewrite <- (lays_adv L1). apply HF.
      * rewrite items_app, text_after_app, orb_false_iff in Ht. rewrite <- (lays_eol L1). apply Ht.
  - destruct Ho as (Ha & Hb & Hab). constructor; auto; [|apply (IHL R); auto].
    apply (seconds_no_longer Ha (lays_displays L)).
    assert (H0 : line_fits w' len eol (items_of (events t) ++ items_of R)).
    { rewrite <- items_app. split.
      - destruct (widths_head (events t ++ R) len) as (l & E & _). rewrite E in HF. inversion HF; auto.
      - revert Ht. generalize (items_of (events t ++ R)). clear. intros l. revert eol.
        induction l as [|[] l IH]; simpl; intros eol H; auto.
        rewrite orb_false_iff in *. split; [tauto|]. apply IH. tauto. }
    revert H0. apply shorter_at_pre. exact Hr.
  - destruct Ho as (Ha & Hb & Hab). apply L_second; auto; [|apply (IHL R); auto].
    intros Hf. apply H. eapply fits_less; eauto.
  - fold (events (t ++ [Ev (EExit j n)])) in HF, Ht. rewrite events_app, <- app_assoc in HF, Ht.
    constructor. apply (IHL (EExit j n :: R)); auto.
Qed.

Definition txts (ls : list str) : list piece := map (fun s => ITxt (str_width s)) ls.

Lemma same_start ls y x : no_longer (txts ls ++ INl :: y) (txts ls ++ x).
Proof.
  intros w len eol rest H. rewrite <- app_assoc in *.
  assert (Hn : has_nl (txts ls) = false) by (clear; induction ls; simpl; auto).
  apply fits_app in H as [H1 H2]; auto. apply fits_app; auto. split; auto.
  simpl. apply fits_nl. apply fits_le in H2. exact H2.
Qed.

End PResize.

Section Elab.
Context {pd : PrettyDoc} {env : Env}.

Definition tail_ok (k : after_literals) (y : list piece) : Prop :=
  match k with Nothing => y = [] | Break => exists y', y = INl :: y' | Other => True end.

Lemma opening_displays self kids fe n : forall c x, displays (elab_note self kids n fe c) x ->
  exists y, x = txts (fst (opening n)) ++ y /\ tail_ok (snd (opening n)) y.
Proof.
  induction n; intros cx x; simpl; intros H; eauto;
    try (inversion H; subst; simpl; eauto; fail).
  - inversion H; subst.
    match goal with H1 : displays _ ?a, H2 : displays _ ?b |- context [?a ++ ?b] => rename H1 into D1, H2 into D2 end.
    destruct (IHn1 _ _ D1) as (y1 & -> & T1). destruct (IHn2 _ _ D2) as (y2 & -> & T2).
    destruct (opening n1) as [l1 k1], (opening n2) as [l2 k2]. simpl in *. destruct k1; simpl in *.
    + subst y1. exists y2. split; auto. unfold txts. rewrite app_nil_r, map_app, app_assoc. reflexivity.
    + destruct T1 as [y' ->]. eexists. rewrite <- app_assoc. split; [reflexivity|]. simpl. eauto.
    + rewrite <- app_assoc. eauto.
Qed.

Lemma opening_seconds self kids fe n : forall c,
  exists y, seconds (elab_note self kids n fe c) = txts (fst (opening n)) ++ y /\ tail_ok (snd (opening n)) y.
Proof.
  induction n; intros cx; simpl; eauto.
  - destruct (IHn1 cx) as (y1 & -> & T1). destruct (IHn2 cx) as (y2 & -> & T2).
    destruct (opening n1) as [l1 k1], (opening n2) as [l2 k2]. simpl in *. destruct k1; simpl in *.
    + subst y1. exists y2. split; auto. unfold txts. rewrite app_nil_r, map_app, app_assoc. reflexivity.
    + destruct T1 as [y' ->]. eexists. rewrite <- app_assoc. split; [reflexivity|]. simpl. eauto.
    + rewrite <- app_assoc. eauto.
Qed.

Definition env_obedient (fe : option foldenv) : Prop :=
  match fe with Some e => (forall c, obedient (fe_left e c)) /\ forall c, obedient (k_tree (fe_right e) c) | None => True end.

Lemma fold_obedient (join : foldenv -> ctx -> shape) :
  (forall e c, env_obedient (Some e) -> obedient (join e c)) ->
  forall ks i prev acc c, (forall k, In k ks -> forall c, obedient (k_tree k c)) -> (forall c, obedient (acc c)) ->
  obedient (fold_kids join i prev ks acc c).
Proof.
  intros Hj. induction ks as [|k ks IH]; intros i prev acc c Hk Ha; simpl; auto.
  apply IH; [intros; apply Hk; simpl; auto|]. intros c0. apply Hj. split; simpl; auto. intros. apply Hk. simpl; auto.
Qed.

Lemma note_obedient self kids : (forall k, In k kids -> forall c, obedient (k_tree k c)) ->
  forall n, same_openings n -> forall fe c, env_obedient fe -> obedient (elab_note self kids n fe c).
Proof.
  intros Hk. induction n; intros Hs fe cx Hfe; simpl in Hs; cbn [elab_note]; simpl; auto;
    try (destruct self; simpl; auto; fail).
  - split; [apply IHn1|apply IHn2]; tauto.
  - destruct Hs as (H1 & H2 & lits & more & Ha & Hb). destruct (x_flat cx); auto. simpl. split; auto. split; auto.
    intros x Hx. destruct (opening_displays _ _ _ _ _ Hx) as (y & -> & _).
    destruct (opening_seconds self kids fe n2 cx) as (z & -> & T). rewrite Ha. rewrite Hb in T |- *. simpl in *.
    destruct T as [z' ->]. unfold txts. rewrite map_app, <- app_assoc. apply same_start.
  - destruct Hs as [H1 H2].
    assert (G : forall x, obedient (if i_cond (r_info x) c then elab_note self kids n1 fe cx else elab_note self kids n2 fe cx)).
    { intros x. destruct (i_cond _ _); auto. }
    destruct pos as [|k| |]; auto.
    + destruct self; simpl; auto. destruct (kid_number _ _) as [m|]; simpl; auto. destruct (nth_error kids m); simpl; auto.
    + destruct fe; simpl; auto.
    + destruct fe; simpl; auto.
  - destruct self; simpl; auto. destruct (kid_number _ _) as [m|]; simpl; auto. destruct (nth_error kids m) eqn:E; simpl; auto.
    apply Hk. eapply nth_error_In; eauto.
  - destruct self; simpl; auto. destruct kids as [|k1 [|k2 ks]]; [apply IHn1|apply IHn2|apply IHn3]; tauto.
  - destruct self; simpl; auto. destruct kids as [|k ks]; simpl; auto. apply fold_obedient.
    + intros e c0 He. apply IHn2; tauto.
    + intros; apply Hk; simpl; auto.
    + intros c0. apply IHn1; simpl; tauto.
  - destruct fe as [e|]; simpl; auto. apply Hfe.
  - destruct fe as [e|]; simpl; auto. apply Hfe.
Qed.

Lemma all_same_kids i ks : all_same_openings (RBranch i ks) -> same_openings (i_note i) /\ forall k, In k ks -> all_same_openings k.
Proof.
  simpl. intros [H1 H2]. split; auto. induction ks as [|k ks IH]; simpl; [tauto|]. intros k' [<-|H]; [apply H2|]. apply IH; tauto.
Qed.

Lemma elab_obedient r : all_same_openings r -> forall c, obedient (elab r c).
Proof.
  induction r as [i s|i ks IH] using rdoc_ind'; intros H c.
  - cbn [elab]. apply note_obedient; simpl; auto. intros k [].
  - apply all_same_kids in H as [H1 H2]. cbn [elab]. apply note_obedient; simpl; auto.
    intros k Hk c'. apply in_map_iff in Hk as (x & <- & Hx). simpl. auto.
Qed.

End Elab.
