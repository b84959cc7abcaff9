(** The printed layout comes before every other layout that fits (C64). *)
From Verif Require Import SpecPick PLine PLine2 PWide PElab PResize.

Set Implicit Arguments.

Section PPick.
Context {pd : PrettyDoc} {env : Env}.

Lemma picks_displays j s cs es : picks j s cs es -> displays s (items_of es).
Proof.
  induction 1; try (constructor; auto; fail).
  - rewrite items_app. constructor; auto.
  - simpl. rewrite items_app. simpl. rewrite app_nil_r. constructor. auto.
Qed.

Lemma before_cons c cs cs' : comes_before cs cs' -> comes_before (c :: cs) (c :: cs').
Proof. intros (s & m & m' & -> & ->). exists (c :: s), m, m'. auto. Qed.
Lemma before_app_r a cs cs' : comes_before cs cs' -> comes_before (a ++ cs) (a ++ cs').
Proof. intros (s & m & m' & -> & ->). exists (a ++ s), m, m'. rewrite <- !app_assoc. auto. Qed.
Lemma before_app_l cs cs' b b' : comes_before cs cs' -> comes_before (cs ++ b) (cs' ++ b').
Proof. intros (s & m & m' & -> & ->). exists s, (m ++ b), (m' ++ b'). rewrite <- !app_assoc. auto. Qed.

Lemma before_irrefl cs : ~ comes_before cs cs.
Proof. intros (s & m & m' & -> & E). apply app_inv_head in E. discriminate. Qed.

(** The decisions determine the layout, and none is a proper prefix of another. *)
Lemma picks_tri j s cs es : picks j s cs es -> forall cs' es', picks j s cs' es' ->
  (cs = cs' /\ es = es') \/ comes_before cs cs' \/ comes_before cs' cs.
Proof.
  induction 1; intros cs' es' H'; inversion H'; subst; auto.
  - match goal with A : picks j a _ _, B : picks j b _ _ |- _ =>
      destruct (IHpicks1 _ _ ltac:(eassumption)) as [[-> ->]|[K|K]] end.
    + match goal with A : picks j b ?c ?e |- context [_ ++ ?c] => destruct (IHpicks2 _ _ A) as [[-> ->]|[K|K]] end;
        auto using before_app_r.
    + right. left. apply before_app_l; auto.
    + right. right. apply before_app_l; auto.
  - match goal with A : picks j a ?c ?e |- context [true :: ?c] => destruct (IHpicks _ _ A) as [[-> ->]|[K|K]] end;
      auto using before_cons.
  - right. left. exists [], cs, cs0. auto.
  - right. right. exists [], cs0, cs. auto.
  - match goal with A : picks j b ?c ?e |- context [false :: ?c] => destruct (IHpicks _ _ A) as [[-> ->]|[K|K]] end;
      auto using before_cons.
  - match goal with A : picks j' s ?c ?e |- _ => destruct (IHpicks _ _ A) as [[-> ->]|[K|K]] end; auto.
Qed.

Lemma lays_picks strict w j rest s p t p' : lays strict w j rest s p t p' -> exists cs, picks j s cs (events t).
Proof.
  induction 1; simpl; try (eexists; constructor; fail).
  - destruct IHlays1 as [c1 R1], IHlays2 as [c2 R2]. rewrite events_app. eexists. constructor; eauto.
  - destruct IHlays as [cs R]. eexists. apply R_first; eauto.
  - destruct IHlays as [cs R]. eexists. apply R_second; eauto.
  - destruct IHlays as [cs R]. fold (events (t ++ [Ev (EExit j n)])). rewrite events_app. simpl. eexists. constructor; eauto.
Qed.

Lemma head_fits w len eol es : Forall (fun x => x <= w)%N (widths len es) ->
  text_after eol (items_of es) = false -> line_fits w len eol (items_of es).
Proof.
  intros HF Ht. split.
  - destruct (widths_head es len) as (l & E & _). rewrite E in HF. inversion HF; auto.
  - revert Ht. generalize (items_of es). clear. intros l. revert eol.
    induction l as [|[] l IH]; simpl; intros eol H; auto.
    rewrite orb_false_iff in *. split; [tauto|]. apply IH. tauto.
Qed.


Lemma lays_earliest strict w j rest s p t p' : lays strict w j rest s p t p' -> obedient s ->
  exists cs, picks j s cs (events t) /\
  forall cs' es' R, picks j s cs' es' -> shorter_at w rest (items_of R) ->
    Forall (fun x => x <= w)%N (widths (fst p) (es' ++ R)) ->
    text_after (snd p) (items_of (es' ++ R)) = false ->
    (cs = cs' /\ events t = es') \/ comes_before cs cs'.
Proof.
  induction 1; intros Ho; simpl in *;
    try (eexists; split; [constructor|]; intros cs' es' R H'; inversion H'; subst; auto; fail).
  - destruct Ho as [Ha Hb]. destruct (IHlays1 Ha) as (c1 & R1 & I1). destruct (IHlays2 Hb) as (c2 & R2 & I2).
    rewrite events_app. eexists. split; [constructor; eauto|].
    intros cs' es' R H' Hr HF Ht. inversion H'; subst.
    match goal with A : picks j a ?ca ?ea, B : picks j b ?cb ?eb |- context [?ca ++ ?cb] =>
      rename A into Ra, B into Rb; rename ca into ca', ea into ea', cb into cb', eb into eb' end.
    rewrite <- app_assoc in HF, Ht.
    destruct (I1 ca' ea' (eb' ++ R) Ra) as [[-> <-]|K]; auto.
    + rewrite items_app. intros len eol Hf. apply (seconds_no_longer Hb (picks_displays Rb)).
      revert Hf. apply shorter_at_pre. exact Hr.
    + destruct (I2 cb' eb' R Rb) as [[-> <-]|K]; auto using before_app_r.
      * rewrite widths_app, Forall_app in HF. rewrite <- (lays_adv H). apply HF.
      * rewrite items_app, text_after_app, orb_false_iff in Ht. rewrite <- (lays_eol H). apply Ht.
    + right. apply before_app_l; auto.
  - destruct Ho as (Ha & Hb & Hab). destruct (IHlays Ha) as (cs & Rc & I).
    exists (true :: cs). split; [constructor; auto|]. intros cs' es' R H' Hr HF Ht. inversion H'; subst.
    + match goal with A : picks j a ?c ?e |- context [true :: ?c] => destruct (I c e R A) as [[-> <-]|K]; auto using before_cons end.
    + right. eexists [], _, _. simpl. eauto.
  - destruct Ho as (Ha & Hb & Hab). destruct (IHlays Hb) as (cs & Rc & I).
    exists (false :: cs). split; [constructor; auto|]. intros cs' es' R H' Hr HF Ht. inversion H'; subst.
    + exfalso. apply H. match goal with A : picks j a ?c ?e |- _ => apply (seconds_no_longer Ha (picks_displays A)) end.
      pose proof (head_fits _ _ _ HF Ht) as K. rewrite items_app in K. revert K. apply shorter_at_pre. exact Hr.
    + match goal with A : picks j b ?c ?e |- context [false :: ?c] => destruct (I c e R A) as [[-> <-]|K]; auto using before_cons end.
  - destruct (IHlays Ho) as (cs & Rc & I). exists cs. fold (events (t ++ [Ev (EExit j n)])). rewrite events_app. simpl.
    split; [constructor; auto|]. intros cs' es' R H' Hr HF Ht. inversion H'; subst. simpl in HF, Ht.
    rewrite <- app_assoc in HF, Ht.
    match goal with A : picks j' s ?c ?e |- _ => destruct (I c e (EExit j n :: R) A) as [[-> <-]|K]; auto end.
Qed.

Lemma good_widths w es : fitting w es <-> Forall (fun x => x <= w)%N (widths 0 es) /\ text_after false (items_of es) = false.
Proof.
  unfold fitting, lines_of. rewrite <- (Forall_map exact_width (fun x => (x <= w)%N)), (widths_lines es []). reflexivity.
Qed.

End PPick.

Section OneLine.
Context {pd : PrettyDoc} {env : Env}.

Definition env_free (flat inner : bool) (fe : option foldenv) : Prop :=
  match fe with
  | Some e =>
      (inner = true -> forall c, (flat = true -> x_flat c = true) -> newline_free (fe_left e c))
  | None => True
  end.

Definition env_right (fe : option foldenv) : Prop :=
  match fe with Some e => forall c, x_flat c = true -> newline_free (k_tree (fe_right e) c) | None => True end.

Lemma fold_free (join : foldenv -> ctx -> shape) (Q : ctx -> Prop) (G : kid -> Prop) :
  (forall e c, (forall c, Q c -> newline_free (fe_left e c)) -> G (fe_right e) -> Q c -> newline_free (join e c)) ->
  forall ks i prev acc c, (forall k, In k ks -> G k) -> (forall c, Q c -> newline_free (acc c)) -> Q c ->
  newline_free (fold_kids join i prev ks acc c).
Proof.
  intros Hj. induction ks as [|k ks IH]; intros i prev acc c Hk Ha Hc; simpl; auto.
  apply IH; [intros; apply Hk; simpl; auto| |auto]. intros c0 H0. apply Hj; simpl; auto. apply Hk. simpl; auto.
Qed.

Lemma note_free self kids : (forall k, In k kids -> forall c, x_flat c = true -> newline_free (k_tree k c)) ->
  forall n flat inner, onelined flat inner n -> forall fe c, (flat = true -> x_flat c = true) ->
  env_free flat inner fe -> env_right fe -> newline_free (elab_note self kids n fe c).
Proof.
  intros Hk. induction n; intros flat inner Hs fe cx Hf Hfe Hr; simpl in Hs; cbn [elab_note]; simpl; auto;
    try (destruct self; simpl; auto; fail); try contradiction.
  - apply (IHn true inner); auto. destruct fe; simpl in *; auto.
  - apply (IHn flat inner); auto.
  - split; [apply (IHn1 flat inner)|apply (IHn2 flat inner)]; tauto.
  - destruct Hs as [H1 H2]. destruct (x_flat cx) eqn:E; [apply (IHn1 flat inner); auto; rewrite E; auto|].
    destruct H2 as [H2|H2]; [exfalso; specialize (Hf H2); congruence|].
    simpl. split; [apply (IHn1 flat inner)|apply (IHn2 flat inner)]; auto; rewrite E; auto.
  - destruct Hs as [H1 H2].
    assert (G : forall x, newline_free (if i_cond (r_info x) c then elab_note self kids n1 fe cx else elab_note self kids n2 fe cx)).
    { intros x. destruct (i_cond _ _); eauto. }
    destruct pos as [|k| |]; auto.
    + destruct self; simpl; auto. destruct (kid_number _ _) as [m|]; simpl; auto. destruct (nth_error kids m); simpl; auto.
    + destruct fe; simpl; auto.
    + destruct fe; simpl; auto.
  - destruct self; simpl; auto. destruct (kid_number _ _) as [m|]; simpl; auto. destruct (nth_error kids m) eqn:E; simpl; auto.
    apply Hk; [eapply nth_error_In; eauto|]. simpl. auto.
  - apply (IHn flat inner); auto.
  - destruct self; simpl; auto. destruct Hs as (H1 & H2 & H3).
    destruct kids as [|k1 [|k2 ks]]; [apply (IHn1 flat inner)|apply (IHn2 flat inner)|apply (IHn3 flat inner)]; auto.
  - destruct self; simpl; auto. destruct Hs as [H1 H2]. destruct kids as [|k ks]; simpl; auto.
    apply (@fold_free _ (fun c => flat = true -> x_flat c = true) (fun k => forall c, x_flat c = true -> newline_free (k_tree k c))); auto.
    + intros e c0 He Hg Hc0. apply (IHn2 flat true); simpl; auto.
    + intros k0 H0. apply Hk. simpl. auto.
    + intros c0 Hc0. apply (IHn1 flat true); simpl; auto.
  - destruct fe as [e|]; simpl; auto.
  - destruct fe as [e|]; simpl; auto.
Qed.

Lemma all_notes_kids P i ks : all_notes P (RBranch i ks) -> P (i_note i) /\ forall k, In k ks -> all_notes P k.
Proof.
  simpl. intros [H1 H2]. split; auto. induction ks as [|k ks IH]; simpl; [tauto|]. intros k' [<-|H]; [apply H2|]. apply IH; tauto.
Qed.

Lemma elab_free r : all_notes (onelined true false) r -> forall c, x_flat c = true -> newline_free (elab r c).
Proof.
  induction r as [i s|i ks IH] using rdoc_ind'; intros H c Hc.
  - cbn [elab]. apply (@note_free _ [] ltac:(intros k []) _ true false); simpl; auto.
  - apply all_notes_kids in H as [H1 H2]. cbn [elab]. apply note_free with (flat := true) (inner := false); simpl; auto.
    intros k Hk c' Hc'. apply in_map_iff in Hk as (x & <- & Hx). simpl. auto.
Qed.

(** Inside a Flat there are no choices. *)
Definition env_single (flat : bool) (fe : option foldenv) : Prop :=
  match fe with
  | Some e => (forall c, (flat = true -> x_flat c = true) -> single_line_firsts (fe_left e c)) /\
              (forall c, (flat = true -> x_flat c = true) -> single_line_firsts (k_tree (fe_right e) c))
  | None => True
  end.

Lemma fold_single (join : foldenv -> ctx -> shape) (Q : ctx -> Prop) (G : kid -> Prop) :
  (forall e c, (forall c, Q c -> single_line_firsts (fe_left e c)) -> G (fe_right e) -> Q c -> single_line_firsts (join e c)) ->
  forall ks i prev acc c, (forall k, In k ks -> G k) -> (forall c, Q c -> single_line_firsts (acc c)) -> Q c ->
  single_line_firsts (fold_kids join i prev ks acc c).
Proof.
  intros Hj. induction ks as [|k ks IH]; intros i prev acc c Hk Ha Hc; simpl; auto.
  apply IH; [intros; apply Hk; simpl; auto| |auto]. intros c0 H0. apply Hj; simpl; auto. apply Hk. simpl; auto.
Qed.

Lemma note_flat_single self kids : (forall k, In k kids -> forall c, x_flat c = true -> single_line_firsts (k_tree k c)) ->
  forall n fe c, x_flat c = true -> env_single true fe -> single_line_firsts (elab_note self kids n fe c).
Proof.
  intros Hk. induction n; intros fe cx Hf Hfe; cbn [elab_note]; simpl; auto;
    try (destruct self; simpl; auto; fail).
  - rewrite Hf. auto.
  - assert (G : forall x, single_line_firsts (if i_cond (r_info x) c then elab_note self kids n1 fe cx else elab_note self kids n2 fe cx)).
    { intros x. destruct (i_cond _ _); eauto. }
    destruct pos as [|k| |]; auto.
    + destruct self; simpl; auto. destruct (kid_number _ _) as [m|]; simpl; auto. destruct (nth_error kids m); simpl; auto.
    + destruct fe; simpl; auto.
    + destruct fe; simpl; auto.
  - destruct self; simpl; auto. destruct (kid_number _ _) as [m|]; simpl; auto. destruct (nth_error kids m) eqn:E; simpl; auto.
    apply Hk; [eapply nth_error_In; eauto|]. simpl. auto.
  - destruct self; simpl; auto. destruct kids as [|k1 [|k2 ks]]; auto.
  - destruct self; simpl; auto. destruct kids as [|k ks]; simpl; auto.
    apply (@fold_single _ (fun c => x_flat c = true) (fun k => forall c, x_flat c = true -> single_line_firsts (k_tree k c))); auto.
    + intros e c0 He Hg Hc0. apply IHn2; auto. simpl. split; auto.
    + intros k0 H0. apply Hk. simpl. auto.
    + intros c0 Hc0. apply IHn1; simpl; auto.
  - destruct fe as [e|]; simpl; auto. apply Hfe. auto.
  - destruct fe as [e|]; simpl; auto. apply Hfe. simpl. auto.
Qed.

Lemma elab_flat_single r : forall c, x_flat c = true -> single_line_firsts (elab r c).
Proof.
  induction r as [i s|i ks IH] using rdoc_ind'; intros c Hc; cbn [elab].
  - apply note_flat_single; simpl; auto. intros k [].
  - apply note_flat_single; simpl; auto. intros k Hk c' Hc'. apply in_map_iff in Hk as (x & <- & Hx). simpl. auto.
Qed.

Lemma note_single self kids :
  (forall k, In k kids -> forall c, single_line_firsts (k_tree k c)) ->
  (forall k, In k kids -> forall c, x_flat c = true -> newline_free (k_tree k c)) ->
  forall n, onelined_firsts n -> forall fe c,
  env_single false fe -> env_right fe -> single_line_firsts (elab_note self kids n fe c).
Proof.
  intros Hk Hk'. induction n; intros Hs fe cx Hfe Hr; simpl in Hs; cbn [elab_note]; simpl; auto;
    try (destruct self; simpl; auto; fail).
  - apply note_flat_single; auto. destruct fe as [e|]; simpl in *; auto. destruct Hfe as [A B]. split; intros; [apply A|apply B]; discriminate.
  - split; [apply IHn1|apply IHn2]; tauto.
  - destruct Hs as [H1 H2]. destruct (x_flat cx) eqn:E.
    + apply note_flat_single; auto. destruct fe as [e|]; simpl in *; auto. destruct Hfe as [A B]. split; intros; [apply A|apply B]; discriminate.
    + simpl. split; auto. apply (@note_free self kids Hk' _ false false); auto; [discriminate|].
      destruct fe as [e|]; simpl in *; auto. discriminate.
  - destruct Hs as [H1 H2].
    assert (G : forall x, single_line_firsts (if i_cond (r_info x) c then elab_note self kids n1 fe cx else elab_note self kids n2 fe cx)).
    { intros x. destruct (i_cond _ _); auto. }
    destruct pos as [|k| |]; auto.
    + destruct self; simpl; auto. destruct (kid_number _ _) as [m|]; simpl; auto. destruct (nth_error kids m); simpl; auto.
    + destruct fe; simpl; auto.
    + destruct fe; simpl; auto.
  - destruct self; simpl; auto. destruct (kid_number _ _) as [m|]; simpl; auto. destruct (nth_error kids m) eqn:E; simpl; auto.
    apply Hk. eapply nth_error_In; eauto.
  - destruct self; simpl; auto. destruct kids as [|k1 [|k2 ks]]; [apply IHn1|apply IHn2|apply IHn3]; tauto.
  - destruct self; simpl; auto. destruct Hs as [H1 H2]. destruct kids as [|k ks]; simpl; auto.
    apply (@fold_single _ (fun c => True) (fun k => (forall c, single_line_firsts (k_tree k c)) /\ forall c, x_flat c = true -> newline_free (k_tree k c))); auto.
    + intros e c0 He [Hg Hg'] _. apply IHn2; simpl; auto.
    + intros k0 H0. split; [apply Hk|apply Hk']; simpl; auto.
  - destruct fe as [e|]; simpl; auto. apply Hfe. discriminate.
  - destruct fe as [e|]; simpl; auto. apply Hfe. discriminate.
Qed.

Lemma elab_single r : tidy_firsts r -> forall c, single_line_firsts (elab r c).
Proof.
  induction r as [i s|i ks IH] using rdoc_ind'; intros [H1 H2] c; cbn [elab].
  - apply note_single; simpl; auto; intros k [].
  - apply all_notes_kids in H1 as [H1 H3]. simpl in H2. apply note_single.
    + intros k Hk c'. apply in_map_iff in Hk as (x & <- & Hx). simpl. apply IH; auto. split; auto.
      specialize (H2 _ Hx). destruct x as [i' s'|i' ks']; [intros k []|]. apply all_notes_kids in H2. apply H2.
    + intros k Hk c' Hf. apply in_map_iff in Hk as (x & <- & Hx). simpl. apply elab_free; auto.
    + auto.
    + exact I.
    + exact I.
Qed.

End OneLine.
