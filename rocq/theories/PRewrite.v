(** Soundness of the laws. *)
From Verif Require Export SpecRewrite PFlat.

Set Implicit Arguments.

Section PRewrite.
Context {pd : PrettyDoc} {env : Env}.

(** ** Equivalent trees *)
Definition keq (k k' : look) : Prop := forall rem eol, k rem eol = k' rem eol.

Record sim (s s' : shape) : Prop := {
  sim_fail : no_fail s <-> no_fail s';
  sim_fits : no_fail s -> forall k k', keq k k' -> total k -> keq (fits_s s k) (fits_s s' k');
  sim_rend : no_fail s -> forall w j k k' p, keq k k' -> total k -> rend w s j k p = rend w s' j k' p }.

Lemma keq_refl k : keq k k. Proof. intros ? ?. reflexivity. Qed.
Lemma keq_sym k k' : keq k k' -> keq k' k. Proof. intros H rem eol. symmetry. apply H. Qed.
Lemma keq_total k k' : keq k k' -> total k -> total k'.
Proof. intros H T rem eol. rewrite <- H. apply T. Qed.
Hint Resolve keq_refl keq_sym keq_total : core.

Lemma fits_keq s : forall k k', keq k k' -> keq (fits_s s k) (fits_s s k').
Proof.
  induction s as [f| | |ind|t|a IHa b IHb|a IHa b IHb|n i s IH|]; intros k k' H rem eol; cbn [fits_s]; auto.
  - destruct eol; auto. destruct (_ <=? _)%N; auto.
  - destruct (head_fails b); auto. apply IHa. apply IHb. exact H.
  - apply IHb. exact H.
  - apply IH. exact H.
Qed.

Lemma picks_keq w a k k' p : keq k k' -> picks_first w a k p = picks_first w a k' p.
Proof. intros H. destruct p. unfold picks_first. destruct (_ <=? _)%N; auto. apply fits_keq. exact H. Qed.

Lemma rend_keq w s : forall j k k' p, keq k k' -> rend w s j k p = rend w s j k' p.
Proof.
  induction s as [f| | |ind|t|a IHa b IHb|a IHa b IHb|n i s IH|]; intros j k k' p H; cbn [rend]; auto.
  - rewrite (IHa j _ _ p (fits_keq b H)). destruct (rend w a j (fits_s b k') p) as [[e1 p1]|]; auto. cbn [obind]. rewrite (IHb j _ _ p1 H). reflexivity.
  - destruct (head_fails a); auto. rewrite (picks_keq w a p H). destruct (picks_first w a k' p) as [[|]|]; cbn [obind]; auto.
  - destruct i as [j'|]; auto. rewrite (IH j' _ _ p H). reflexivity.
Qed.

Lemma sim_refl s : sim s s.
Proof. split; [tauto| |]; intros; [apply fits_keq|apply rend_keq]; auto. Qed.

Lemma sim_sym s s' : sim s s' -> sim s' s.
Proof.
  intros [H1 H2 H3]. split; [tauto| |].
  - intros H k k' Hk Ht. apply keq_sym. apply H2; eauto; tauto.
  - intros H w j k k' p Hk Ht. symmetry. apply H3; eauto; tauto.
Qed.

Lemma sim_trans a b c : sim a b -> sim b c -> sim a c.
Proof.
  intros [A1 A2 A3] [B1 B2 B3]. split; [tauto| |].
  - intros H k k' Hk Ht rem eol. rewrite (A2 H k k (keq_refl k) Ht). apply B2; auto; tauto.
  - intros H w j k k' p Hk Ht. rewrite (A3 H w j k k p (keq_refl k) Ht). apply B3; auto; tauto.
Qed.

Lemma sim_concat a a' b b' : sim a a' -> sim b b' -> sim (SConcat a b) (SConcat a' b').
Proof.
  intros [A1 A2 A3] [B1 B2 B3]. split.
  - unfold no_fail in *. simpl. tauto.
  - intros [Ha Hb] k k' Hk Ht rem eol. cbn [fits_s]. rewrite (no_fail_head _ Hb). rewrite (no_fail_head b') by (apply B1; auto).
    apply A2; auto. apply fits_total; auto.
  - intros [Ha Hb] w j k k' p Hk Ht. cbn [rend].
    rewrite (A3 Ha w j _ _ p (B2 Hb _ _ Hk Ht) (fits_total _ Hb Ht)).
    destruct (rend w a' j (fits_s b' k') p) as [[e1 p1]|]; auto. cbn [obind]. rewrite (B3 Hb w j _ _ p1 Hk Ht). reflexivity.
Qed.

Lemma sim_picks a a' w k k' p : sim a a' -> no_fail a -> keq k k' -> total k -> picks_first w a k p = picks_first w a' k' p.
Proof.
  intros [A1 A2 A3] Ha Hk Ht. destruct p. unfold picks_first. destruct (_ <=? _)%N; auto. apply A2; auto.
Qed.

Lemma sim_choice a a' b b' : sim a a' -> sim b b' -> sim (SChoice a b) (SChoice a' b').
Proof.
  intros A B. split.
  - destruct A as [A1 _ _], B as [B1 _ _]. unfold no_fail in *. simpl. tauto.
  - intros [Ha Hb] k k' Hk Ht rem eol. cbn [fits_s]. apply (sim_fits B); auto.
  - intros [Ha Hb] w j k k' p Hk Ht. cbn [rend]. rewrite (no_fail_head _ Ha). rewrite (no_fail_head a') by (apply (sim_fail A); auto).
    rewrite (sim_picks w p A Ha Hk Ht). destruct (picks_first w a' k' p) as [[|]|]; cbn [obind]; auto; [apply (sim_rend A)|apply (sim_rend B)]; auto.
Qed.

Lemma sim_child n i s s' : sim s s' -> sim (SChild n i s) (SChild n i s').
Proof.
  intros [A1 A2 A3]. split.
  - unfold no_fail in *. simpl. tauto.
  - intros [_ Hs] k k' Hk Ht rem eol. cbn [fits_s]. apply A2; auto.
  - intros [_ Hs] w j k k' p Hk Ht. cbn [rend]. destruct i as [j'|]; auto. rewrite (A3 Hs w j' _ _ p Hk Ht). reflexivity.
Qed.

(** The laws that change the tree. *)
Lemma sim_assoc a b c : sim (SConcat a (SConcat b c)) (SConcat (SConcat a b) c).
Proof.
  split.
  - unfold no_fail. simpl. tauto.
  - intros (Ha & Hb & Hc) k k' Hk Ht rem eol. cbn [fits_s head_fails]. rewrite (no_fail_head _ Hc), (no_fail_head _ Hb).
    apply fits_keq. intros rem' eol'. apply fits_keq. apply fits_keq. exact Hk.
  - intros (Ha & Hb & Hc) w j k k' p Hk Ht. cbn [rend].
    assert (E : keq (fits_s (SConcat b c) k) (fits_s b (fits_s c k'))).
    { intros rem eol. cbn [fits_s]. rewrite (no_fail_head _ Hc). apply fits_keq. apply fits_keq. exact Hk. }
    rewrite (rend_keq w a j p E). destruct (rend w a j _ p) as [[e1 p1]|]; auto. cbn [obind].
    rewrite (rend_keq w b j p1 (fits_keq c Hk)). destruct (rend w b j _ p1) as [[e2 p2]|]; auto. cbn [obind].
    rewrite (rend_keq w c j p2 Hk). destruct (rend w c j _ p2) as [[e3 p3]|]; auto. cbn [obind]. rewrite app_assoc. reflexivity.
Qed.

Lemma sim_empty_l a : sim (SConcat SEmpty a) a.
Proof.
  split.
  - unfold no_fail. simpl. tauto.
  - intros (_ & Ha) k k' Hk Ht rem eol. cbn [fits_s]. rewrite (no_fail_head _ Ha). apply fits_keq. exact Hk.
  - intros (_ & Ha) w j k k' p Hk Ht. cbn [rend obind]. rewrite (rend_keq w a j p Hk). destruct (rend w a j k' p) as [[e1 p1]|]; auto.
Qed.

Lemma sim_empty_r a : sim (SConcat a SEmpty) a.
Proof.
  split.
  - unfold no_fail. simpl. tauto.
  - intros (Ha & _) k k' Hk Ht rem eol. cbn [fits_s head_fails]. apply fits_keq. exact Hk.
  - intros (Ha & _) w j k k' p Hk Ht. cbn [rend].
    assert (E : keq (fits_s SEmpty k) k') by exact Hk.
    rewrite (rend_keq w a j p E). destruct (rend w a j k' p) as [[e1 p1]|]; auto. cbn [obind rend]. rewrite app_nil_r. reflexivity.
Qed.

Lemma sim_same a : sim (SChoice a a) a.
Proof.
  split.
  - unfold no_fail. simpl. tauto.
  - intros (Ha & _) k k' Hk Ht rem eol. cbn [fits_s]. apply fits_keq. exact Hk.
  - intros (Ha & _) w j k k' p Hk Ht. cbn [rend]. rewrite (no_fail_head _ Ha).
    destruct (picks_first w a k p) as [f|] eqn:E; [|destruct (@picks_total _ w a k p Ha Ht E)]. cbn [obind].
    destruct f; apply rend_keq; exact Hk.
Qed.

Lemma sim_distr a b c : sim (SConcat (SChoice a b) c) (SChoice (SConcat a c) (SConcat b c)).
Proof.
  split.
  - unfold no_fail. simpl. tauto.
  - intros ((Ha & Hb) & Hc) k k' Hk Ht rem eol. cbn [fits_s]. rewrite (no_fail_head _ Hc). apply fits_keq. apply fits_keq. exact Hk.
  - intros ((Ha & Hb) & Hc) w j k k' p Hk Ht. cbn [rend head_fails]. rewrite (no_fail_head _ Ha).
    assert (E : picks_first w (SConcat a c) k' p = picks_first w a (fits_s c k) p).
    { destruct p. unfold picks_first. destruct (_ <=? _)%N; auto. cbn [fits_s]. rewrite (no_fail_head _ Hc). apply fits_keq. apply fits_keq. auto. }
    rewrite E. destruct (picks_first w a (fits_s c k) p) as [[|]|]; cbn [obind]; auto.
    + rewrite (rend_keq w a j p (fits_keq c Hk)). destruct (rend w a j _ p) as [[e1 p1]|]; auto. cbn [obind]. rewrite (rend_keq w c j p1 Hk). reflexivity.
    + rewrite (rend_keq w b j p (fits_keq c Hk)). destruct (rend w b j _ p) as [[e1 p1]|]; auto. cbn [obind]. rewrite (rend_keq w c j p1 Hk). reflexivity.
Qed.

(** ** Rewriting, up to an equivalence [E] of trees *)
Section Equiv.
Variable E : shape -> shape -> Prop.
Hypothesis E_refl : forall s, E s s.
Hypothesis E_sym : forall s s', E s s' -> E s' s.
Hypothesis E_trans : forall a b c, E a b -> E b c -> E a c.
Hypothesis E_concat : forall a a' b b', E a a' -> E b b' -> E (SConcat a b) (SConcat a' b').
Hypothesis E_choice : forall a a' b b', E a a' -> E b b' -> E (SChoice a b) (SChoice a' b').
Hypothesis E_child : forall n i s s', E s s' -> E (SChild n i s) (SChild n i s').
Variable law : rdoc -> note -> note -> Prop.
Hypothesis E_law : forall x a b, law x a b -> forall fe c, E (elab_note x (kids_of x) a fe c) (elab_note x (kids_of x) b fe c).

(** *** Inside one node *)
Section Node.
Variable x : rdoc.

Definition fe_sim (fe fe' : option foldenv) : Prop :=
  match fe, fe' with
  | None, None => True
  | Some e, Some e' => (forall c, E (fe_left e c) (fe_left e' c)) /\ fe_index e' = fe_index e /\
      fe_ldoc e' = fe_ldoc e /\ fe_right e' = fe_right e
  | _, _ => False
  end.

Lemma fe_sim_refl fe : fe_sim fe fe.
Proof. destruct fe; simpl; auto using E_refl. Qed.
Lemma fe_sim_sym fe fe' : fe_sim fe fe' -> fe_sim fe' fe.
Proof. destruct fe, fe'; simpl; auto. intros (H1 & H2 & H3 & H4). split; [|auto]. intros c. apply E_sym. auto. Qed.
Hint Resolve fe_sim_refl fe_sim_sym : core.

Notation el := (elab_note x (kids_of x)).

Lemma fold_sim (join join' : foldenv -> ctx -> shape) :
  (forall e e' c, fe_sim (Some e) (Some e') -> E (join e c) (join' e' c)) ->
  forall ks i prev acc acc' c, (forall c, E (acc c) (acc' c)) ->
  E (fold_kids join i prev ks acc c) (fold_kids join' i prev ks acc' c).
Proof.
  intros Hj. induction ks as [|k ks IH]; intros i prev acc acc' c Ha; cbn [fold_kids]; auto.
  apply IH. intros c'. apply Hj. split; [exact Ha|auto].
Qed.

Lemma branch_sim A A' e : E A A' ->
  E (match x with RBranch _ _ => A | RText _ _ => SFail e end) (match x with RBranch _ _ => A' | RText _ _ => SFail e end).
Proof. intros H. destruct x; auto using E_refl. Qed.

(** The same notation, in similar environments. *)
Lemma note_sim n : forall fe fe' c, fe_sim fe fe' -> E (el n fe c) (el n fe' c).
Proof.
  induction n as [| | |s| |n IH|pre l n IH|a IHa b IHb|a IHa b IHb|cd ps a IHa b IHb|i|l n IH| |z IHz u IHu m IHm|f IHf jn IHj| |];
    intros fe fe' c Hf; cbn [elab_note]; cbv zeta; auto using E_refl, E_concat.
  - destruct (x_flat c); auto using E_choice.
  - assert (Hgo : forall y, E (if i_cond (r_info y) cd then el a fe c else el b fe c) (if i_cond (r_info y) cd then el a fe' c else el b fe' c)).
    { intros y. destruct (i_cond _ _); auto. }
    destruct ps as [|k| |]; auto.
    + apply branch_sim. destruct (kid_number k _) as [m|]; auto using E_refl. destruct (nth_error (kids_of x) m); auto using E_refl.
    + destruct fe as [e|], fe' as [e'|]; try contradiction; auto using E_refl. destruct Hf as (_ & _ & -> & _). apply Hgo.
    + destruct fe as [e|], fe' as [e'|]; try contradiction; auto using E_refl. destruct Hf as (_ & _ & _ & ->). apply Hgo.
  - apply branch_sim. destruct (kids_of x) as [|k1 [|k2 ks]]; auto.
  - destruct fe as [e|], fe' as [e'|]; try contradiction; auto using E_refl. apply Hf.
  - destruct fe as [e|], fe' as [e'|]; try contradiction; auto using E_refl. destruct Hf as (_ & -> & _ & ->). apply E_refl.
Qed.

Lemma rw_sim a b : rw law x a b -> forall fe fe' c, fe_sim fe fe' -> E (el a fe c) (el b fe' c).
Proof.
  induction 1; intros fe fe' cx Hf.
  - eapply E_trans; [apply E_law; eauto|]. apply note_sim; auto.
  - apply note_sim; auto.
  - apply E_sym. apply IHrw. auto.
  - eapply E_trans; [apply IHrw1, fe_sim_refl|]. apply IHrw2. auto.
  - cbn [elab_note]. auto.
  - cbn [elab_note]. auto.
  - cbn [elab_note]. auto.
  - cbn [elab_note]. apply E_concat; auto.
  - cbn [elab_note]. destruct (x_flat cx); auto.
  - cbn [elab_note]. cbv zeta.
    assert (Hgo : forall y, E (if i_cond (r_info y) c then el a fe cx else el b fe cx) (if i_cond (r_info y) c then el a' fe' cx else el b' fe' cx)).
    { intros y. destruct (i_cond _ _); auto. }
    destruct p as [|k| |]; auto.
    + apply branch_sim. destruct (kid_number k _) as [m|]; auto using E_refl. destruct (nth_error (kids_of x) m); auto using E_refl.
    + destruct fe as [e|], fe' as [e'|]; try contradiction; auto using E_refl. destruct Hf as (_ & _ & -> & _). apply Hgo.
    + destruct fe as [e|], fe' as [e'|]; try contradiction; auto using E_refl. destruct Hf as (_ & _ & _ & ->). apply Hgo.
  - cbn [elab_note]. cbv zeta. apply branch_sim. destruct (kids_of x) as [|k1 [|k2 ks]]; auto.
  - cbn [elab_note]. cbv zeta. apply branch_sim. destruct (kids_of x) as [|k1 ks] eqn:Ek; auto using E_refl. rewrite <- Ek in *.
    apply fold_sim; auto.
Qed.

End Node.

(** ** The same notation in a document with rewritten children *)
Section Two.
Variables x x' : rdoc.

Definition kid_rel (k k' : rdoc) : Prop :=
  i_id (r_info k') = i_id (r_info k) /\ i_style (r_info k') = i_style (r_info k) /\
  (forall c, i_cond (r_info k') c = i_cond (r_info k) c) /\ (forall c, E (elab k c) (elab k' c)).

Hypothesis Hkind : match x, x' with RText _ s, RText _ s' => s = s' | RBranch _ _, RBranch _ _ => True | _, _ => False end.
Hypothesis Hlookup : forall l, i_lookup (r_info x') l = i_lookup (r_info x) l.
Hypothesis Hcond : forall c, i_cond (r_info x') c = i_cond (r_info x) c.
Hypothesis Hkids : Forall2 kid_rel (r_kids x) (r_kids x').

Definition fe_two (fe fe' : option foldenv) : Prop :=
  match fe, fe' with
  | None, None => True
  | Some e, Some e' => (forall c, E (fe_left e c) (fe_left e' c)) /\ fe_index e' = fe_index e /\
      kid_rel (fe_ldoc e) (fe_ldoc e') /\
      exists k k', kid_rel k k' /\ fe_right e = Kid k (elab k) /\ fe_right e' = Kid k' (elab k')
  | _, _ => False
  end.

Lemma two_branch A A' e : E A A' ->
  E (match x with RBranch _ _ => A | RText _ _ => SFail e end) (match x' with RBranch _ _ => A' | RText _ _ => SFail e end).
Proof. intros H. destruct x, x'; try contradiction; auto using E_refl. Qed.

Lemma two_child n k k' c : kid_rel k k' -> E (child n (Kid k (elab k)) c) (child n (Kid k' (elab k')) c).
Proof. intros (H1 & H2 & H3 & H4). unfold child. simpl. rewrite H1, H2. apply E_child. apply H4. Qed.

Lemma two_fold (join join' : foldenv -> ctx -> shape) :
  (forall e e' c, fe_two (Some e) (Some e') -> E (join e c) (join' e' c)) ->
  forall ks ks' i prev prev' acc acc' c, Forall2 kid_rel ks ks' -> kid_rel prev prev' -> (forall c, E (acc c) (acc' c)) ->
  E (fold_kids join i (Kid prev (elab prev)) (map (fun k => Kid k (elab k)) ks) acc c)
      (fold_kids join' i (Kid prev' (elab prev')) (map (fun k => Kid k (elab k)) ks') acc' c).
Proof.
  intros Hj ks ks' i prev prev' acc acc' c H. revert i prev prev' acc acc' c.
  induction H as [|k k' ks ks' Hk Hks IH]; intros i prev prev' acc acc' c Hp Ha; cbn [map fold_kids]; auto.
  apply IH; auto. intros c'. apply Hj. split; [exact Ha|]. split; [reflexivity|]. split; [exact Hp|]. exists k, k'. auto.
Qed.

Lemma two_note n : forall fe fe' c, fe_two fe fe' -> E (elab_note x (kids_of x) n fe c) (elab_note x' (kids_of x') n fe' c).
Proof.
  assert (Hlen : length (kids_of x') = length (kids_of x)).
  { unfold kids_of. rewrite !map_length. clear -Hkids. induction Hkids as [|? ? ? ? ? ? IH]; simpl; [reflexivity|f_equal; apply IH; assumption]. }
  assert (Hget : forall m, match nth_error (kids_of x) m, nth_error (kids_of x') m with
     | Some k, Some k' => exists y y', kid_rel y y' /\ k = Kid y (elab y) /\ k' = Kid y' (elab y') | None, None => True | _, _ => False end).
  { unfold kids_of. clear -Hkids. induction Hkids as [|k k' ks ks' Hk Hks IH]; intros [|m]; simpl; auto; [exists k, k'; auto|apply IH; assumption]. }
  induction n as [| | |s| |n IH|pre l n IH|a IHa b IHb|a IHa b IHb|cd ps a IHa b IHb|i|l n IH| |z IHz u IHu m IHm|f IHf jn IHj| |];
    intros fe fe' c Hf; cbn [elab_note]; cbv zeta; auto using E_refl, E_concat.
  - destruct x, x'; try contradiction; [rewrite Hkind|]; apply E_refl.
  - replace (option_map (i_lookup (r_info x')) l) with (option_map (i_lookup (r_info x)) l); auto.
    destruct l; simpl; rewrite ?Hlookup; auto.
  - destruct (x_flat c); auto using E_choice.
  - assert (Hgo : forall y y', (forall c, i_cond (r_info y') c = i_cond (r_info y) c) ->
      E (if i_cond (r_info y) cd then elab_note x (kids_of x) a fe c else elab_note x (kids_of x) b fe c)
          (if i_cond (r_info y') cd then elab_note x' (kids_of x') a fe' c else elab_note x' (kids_of x') b fe' c)).
    { intros y y' H. rewrite H. destruct (i_cond _ _); auto. }
    destruct ps as [|k| |]; auto.
    + apply two_branch. rewrite Hlen. destruct (kid_number k _) as [m|]; auto using E_refl.
      pose proof (Hget m) as G. destruct (nth_error (kids_of x) m), (nth_error (kids_of x') m); try contradiction; auto using E_refl.
      destruct G as (y & y' & G & -> & ->). apply Hgo. apply G.
    + destruct fe as [e|], fe' as [e'|]; try contradiction; auto using E_refl. apply Hgo. apply Hf.
    + destruct fe as [e|], fe' as [e'|]; try contradiction; auto using E_refl. destruct Hf as (_ & _ & _ & k & k' & G & -> & ->). apply Hgo. apply G.
  - apply two_branch. rewrite Hlen. destruct (kid_number i _) as [m|]; auto using E_refl.
    pose proof (Hget m) as G. destruct (nth_error (kids_of x) m), (nth_error (kids_of x') m); try contradiction; auto using E_refl.
    destruct G as (y & y' & G & -> & ->). apply two_child. exact G.
  - rewrite Hlookup. auto.
  - apply two_branch. destruct (kids_of x) as [|k1 [|k2 ks]] eqn:E1, (kids_of x') as [|k1' [|k2' ks']] eqn:E2; try discriminate Hlen; auto.
  - apply two_branch. pose proof (@two_fold (fun e c => elab_note x (kids_of x) jn (Some e) c) (fun e c => elab_note x' (kids_of x') jn (Some e) c)) as Hfold.
    assert (Hk : kids_of x = map (fun k => Kid k (elab k)) (r_kids x)) by reflexivity.
    assert (Hk' : kids_of x' = map (fun k => Kid k (elab k)) (r_kids x')) by reflexivity.
    inversion Hkids as [E1 E2|k k' ks ks' Hk1 Hks E1 E2]; rewrite <- E1 in Hk; rewrite <- E2 in Hk'; cbn [map] in Hk, Hk'.
    + destruct (kids_of x); [|discriminate]. destruct (kids_of x'); [|discriminate]. apply E_refl.
    + destruct (kids_of x) as [|y1 ys1] eqn:F1; [discriminate|]. destruct (kids_of x') as [|y2 ys2] eqn:F2; [discriminate|].
      injection Hk as -> ->. injection Hk' as -> ->. rewrite <- F1, <- F2 in *.
      apply Hfold; auto.
      intros c0. apply IHf. exact I.
  - destruct fe as [e|], fe' as [e'|]; try contradiction; auto using E_refl. apply Hf.
  - destruct fe as [e|], fe' as [e'|]; try contradiction; auto using E_refl.
    destruct Hf as (_ & -> & _ & k & k' & G & -> & ->). apply two_child. exact G.
Qed.

End Two.

(** ** Documents *)
Lemma rewritten_all_F2 ks ks' : rewritten_all law ks ks' -> Forall2 (rewritten law) ks ks'.
Proof. induction 1; constructor; auto. Qed.

Lemma rewritten_infos k k' : rewritten law k k' -> rewritten_info law k (r_info k) (r_info k').
Proof. destruct 1; auto. Qed.

Theorem rewritten_sim r : forall r', rewritten law r r' -> forall c, E (elab r c) (elab r' c).
Proof.
  induction r as [i s|i ks IH] using rdoc_ind'; intros r' H c; inversion H as [i0 i' s0 Hi|i0 i' ks0 ks' Hi Hks]; subst; rewrite !elab_eq.
  - destruct Hi as (H1 & H2 & H3 & H4 & H5). eapply E_trans; [apply rw_sim with (fe' := None); [exact H5|exact I]|].
    apply two_note; simpl; auto.
  - destruct Hi as (H1 & H2 & H3 & H4 & H5). eapply E_trans; [apply rw_sim with (fe' := None); [exact H5|exact I]|].
    apply two_note; simpl; auto.
    apply rewritten_all_F2 in Hks. clear -IH Hks. induction Hks as [|k k' ks ks' Hk Hks IHk]; constructor.
    + destruct (rewritten_infos Hk) as (H1 & H2 & H3 & H4 & H5). split; [auto|]. split; [auto|]. split; [auto|]. apply IH; simpl; auto.
    + apply IHk. intros k0 Hk0. apply IH. right. exact Hk0.
Qed.


End Equiv.

(** ** The laws hold *)
Section Laws.
Variable x : rdoc.
Notation el := (elab_note x (kids_of x)).

(** *** Fold *)
Lemma el_closed n : forall fe fe' c, wsc true false n -> el n fe c = el n fe' c.
Proof.
  induction n as [| | |s| |n IH|pre l n IH|a IHa b IHb|a IHa b IHb|cd ps a IHa b IHb|i|l n IH| |z IHz u IHu m IHm|f IHf jn IHj| |];
    intros fe fe' c Hw; cbn [elab_note]; cbv zeta; simpl in Hw; auto; try discriminate.
  - destruct Hw. rewrite (IHa fe fe'), (IHb fe fe'); auto.
  - destruct Hw. rewrite (IHa fe fe'), (IHb fe fe'); auto.
  - destruct Hw as (Hp & Ha & Hb). rewrite (IHa fe fe'), (IHb fe fe') by auto. destruct ps; auto; discriminate.
  - destruct Hw as (Ha & Hb & Hc). rewrite (IHz fe fe'), (IHu fe fe'), (IHm fe fe') by auto. reflexivity.
Qed.

Lemma inst_el (e : foldenv) left fe0 i ks :
  x = RBranch i ks -> fe_index e < length ks -> 1 <= fe_index e ->
  (exists k, nth_error ks (fe_index e) = Some k /\ fe_right e = Kid k (elab k)) ->
  nth_error ks (fe_index e - 1) = Some (fe_ldoc e) ->
  (forall c, el left fe0 c = fe_left e c) ->
  forall j c, wsc true true j -> el (inst left (fe_index e) j) fe0 c = el j (Some e) c.
Proof.
  intros Hx Hlt H1 (k & Hk & Hr) Hl Hleft.
  assert (Hlen : length (kids_of x) = length ks) by (unfold kids_of; rewrite map_length, Hx; reflexivity).
  assert (Hget : forall m y, nth_error ks m = Some y -> nth_error (kids_of x) m = Some (Kid y (elab y))).
  { intros m y Hy. unfold kids_of. rewrite Hx. simpl. rewrite nth_error_map, Hy. reflexivity. }
  assert (Hnorm : forall m, m < length ks -> kid_number (Z.of_nat m) (length (kids_of x)) = Some m).
  { intros m Hm. rewrite Hlen. rewrite <- kid_number_eq. unfold normalize_child_index.
    replace (Z.of_nat m <? 0)%Z with false by (symmetry; apply Z.ltb_ge; lia).
    replace (Z.of_nat (length ks) <=? Z.of_nat m)%Z with false by (symmetry; apply Z.leb_gt; lia).
    replace (Z.of_nat m <? 0)%Z with false by (symmetry; apply Z.ltb_ge; lia). simpl. f_equal. lia. }
  assert (Hbr : forall A B : shape, match x with RBranch _ _ => A | RText _ _ => B end = A) by (rewrite Hx; reflexivity).
  induction j as [| | |s| |n IH|pre l n IH|a IHa b IHb|a IHa b IHb|cd ps a IHa b IHb|i0|l n IH| |z IHz u IHu m IHm|f IHf jn IHj| |];
    intros c Hw; cbn [inst elab_note]; cbv zeta; simpl in Hw; auto.
  - destruct Hw. rewrite IHa, IHb; auto.
  - destruct Hw. rewrite IHa, IHb; auto.
  - destruct Hw as (Hp & Ha & Hb). destruct ps as [|i0| |]; cbn [elab_note]; cbv zeta; rewrite ?IHa, ?IHb by auto; auto.
    + rewrite Hbr, Hnorm, (Hget _ _ Hl) by lia. reflexivity.
    + rewrite Hbr, Hnorm, (Hget _ _ Hk), Hr by lia. reflexivity.
  - destruct Hw as (Ha & Hb & Hc). rewrite IHz, IHu, IHm by auto. reflexivity.
  - rewrite Hbr, Hnorm, (Hget _ _ Hk), Hr by lia. reflexivity.
Qed.

Lemma fold_el f j fe0 i ks : x = RBranch i ks -> wsc true false f -> wsc true true j ->
  forall c, el (Fold f j) fe0 c = el (unfolded f j (length ks)) fe0 c.
Proof.
  intros Hx Hf Hj c. cbn [elab_note]. cbv zeta.
  assert (Hbr : forall A B : shape, match x with RBranch _ _ => A | RText _ _ => B end = A) by (rewrite Hx; reflexivity).
  rewrite Hbr.
  assert (Hgen : forall rest i0 pre prev acc, ks = pre ++ prev :: rest -> length pre = i0 ->
    (forall c, acc c = el (fold_upto f j i0) fe0 c) ->
    forall c, fold_kids (fun e c => el j (Some e) c) i0 (Kid prev (elab prev)) (map (fun k => Kid k (elab k)) rest) acc c =
      el (fold_upto f j (i0 + length rest)) fe0 c).
  { induction rest as [|k rest IH]; intros i0 pre prev acc Hks Hi Hacc c'; cbn [map fold_kids].
    - rewrite Nat.add_0_r. apply Hacc.
    - rewrite (IH (S i0) (pre ++ [prev])).
      + simpl. rewrite Nat.add_succ_r. reflexivity.
      + rewrite <- app_assoc. exact Hks.
      + rewrite app_length. simpl. lia.
      + intros c''. cbn [fold_upto]. symmetry.
        apply (@inst_el (FoldEnv acc prev (S i0) (Kid k (elab k))) (fold_upto f j i0) fe0 i ks Hx); cbn [fe_index fe_right fe_ldoc fe_left]; auto.
        * rewrite Hks, app_length. simpl. lia.
        * lia.
        * exists k. split; auto. rewrite Hks, nth_error_app2 by lia. replace (S i0 - length pre) with 1 by lia. reflexivity.
        * rewrite Hks, nth_error_app2 by lia. replace (S i0 - 1 - length pre) with 0 by lia. reflexivity. }
  assert (Hk : kids_of x = map (fun k => Kid k (elab k)) ks) by (unfold kids_of; rewrite Hx; reflexivity).
  destruct ks as [|k ks']; cbn [map] in Hk.
  - destruct (kids_of x); [reflexivity|discriminate].
  - rewrite <- (Hgen ks' 0 [] k (fun c => el f None c) eq_refl eq_refl); [|intros c'; cbn [fold_upto]; apply el_closed; auto].
    destruct (kids_of x) as [|k0 ks0] eqn:E; [discriminate|]. injection Hk as -> ->. reflexivity.
Qed.

Lemma fold_law_el a b : fold_law x a b -> forall fe c, el a fe c = el b fe c.
Proof. intros [i ks f j H H0 H1] fe c. apply (fold_el _ _ fe H H0 H1). Qed.

Lemma select_law_el a b : select_law x a b -> forall fe c, el a fe c = el b fe c.
Proof.
  assert (Hbr : forall i ks (A B : shape), x = RBranch i ks -> match x with RBranch _ _ => A | RText _ _ => B end = A) by (intros ? ? ? ? ->; reflexivity).
  assert (Hl : length (kids_of x) = length (r_kids x)) by (unfold kids_of; apply map_length).
  destruct 1; intros fe cx.
  - cbn [elab_note]. cbv zeta. rewrite Hl. rewrite <- !kid_number_eq. unfold normalize_child_index.
    replace (i <? 0)%Z with true by (symmetry; apply Z.ltb_lt; lia). cbv zeta iota.
    replace (i + Z.of_nat (length (r_kids x)) <? 0)%Z with false by (symmetry; apply Z.ltb_ge; lia). cbv iota.
    replace (i + Z.of_nat (length (r_kids x)) <? 0)%Z with false by (symmetry; apply Z.ltb_ge; lia).
    replace (Z.of_nat (length (r_kids x)) <=? i + Z.of_nat (length (r_kids x)))%Z with false by (symmetry; apply Z.leb_gt; lia).
    reflexivity.
  - cbn [elab_note]. cbv zeta. rewrite (Hbr _ _ _ _ H). replace (kids_of x) with (@nil kid) at 1; [reflexivity|]. unfold kids_of. rewrite H. reflexivity.
  - cbn [elab_note]. cbv zeta. rewrite (Hbr _ _ _ _ H). destruct (kids_of x) as [|k1 [|]] eqn:E; [| |]; try reflexivity; unfold kids_of in E; rewrite H in E; discriminate.
  - cbn [elab_note]. cbv zeta. rewrite (Hbr _ _ _ _ H). destruct (kids_of x) as [|k3 [|]] eqn:E; [| |]; try reflexivity; unfold kids_of in E; rewrite H in E; discriminate.
  - cbn [elab_note]. cbv zeta. destruct pos as [|k| |]; simpl in H; try discriminate.
    + injection H as <-. rewrite H0. reflexivity.
    + rewrite Hl. destruct (kid_number k (length (r_kids x))) as [m|]; [|discriminate].
      assert (Hg : nth_error (kids_of x) m = Some (Kid y (elab y))) by (unfold kids_of; rewrite nth_error_map, H; reflexivity).
      rewrite Hg. simpl. rewrite H0. destruct x; auto. destruct m; discriminate.
  - cbn [elab_note]. cbv zeta. destruct pos as [|k| |]; simpl in H; try discriminate.
    + injection H as <-. rewrite H0. reflexivity.
    + rewrite Hl. destruct (kid_number k (length (r_kids x))) as [m|]; [|discriminate].
      assert (Hg : nth_error (kids_of x) m = Some (Kid y (elab y))) by (unfold kids_of; rewrite nth_error_map, H; reflexivity).
      rewrite Hg. simpl. rewrite H0. destruct x; auto. destruct m; discriminate.
Qed.

Lemma algebra_law_sim a b : algebra_law x a b -> forall fe c, sim (el a fe c) (el b fe c).
Proof.
  destruct 1; intros fe cx; try (cbn [elab_note]; cbv zeta; apply sim_refl).
  - apply sim_assoc.
  - apply sim_empty_l.
  - apply sim_empty_r.
  - cbn [elab_note]. destruct (x_flat cx); [apply sim_refl|apply sim_same].
  - cbn [elab_note]. destruct (x_flat cx); [apply sim_refl|apply sim_distr].
Qed.

Lemma any_law_sim a b : any_law x a b -> forall fe c, sim (el a fe c) (el b fe c).
Proof.
  intros [H|H|H] fe c.
  - rewrite (fold_law_el H). apply sim_refl.
  - rewrite (select_law_el H). apply sim_refl.
  - apply algebra_law_sim. exact H.
Qed.

End Laws.

(** ** Documents *)
Definition exact_law (law : rdoc -> note -> note -> Prop) : Prop :=
  forall x a b, law x a b -> forall fe c, elab_note x (kids_of x) a fe c = elab_note x (kids_of x) b fe c.

Lemma rewritten_exact law r r' st : exact_law law -> rewritten law r r' -> doc_shape r' st = doc_shape r st.
Proof.
  intros He H. destruct (rewritten_infos H) as (H1 & H2 & H3 & H4 & H5).
  assert (Hc : root_ctx r' st = root_ctx r st) by (unfold root_ctx; rewrite H2; reflexivity).
  unfold doc_shape. rewrite H1, Hc. f_equal. symmetry.
  apply (@rewritten_sim eq) with (law := law); congruence || auto.
Qed.

Lemma rewritten_any r r' : rewritten any_law r r' -> forall c, sim (elab r c) (elab r' c).
Proof.
  apply rewritten_sim; auto using sim_refl, sim_sym, sim_concat, sim_choice, sim_child, any_law_sim.
  exact sim_trans.
Qed.

Lemma rewritten_layout r r' st w : rewritten any_law r r' -> no_fail (snd (doc_shape r st)) ->
  layout w (doc_shape r' st) = layout w (doc_shape r st).
Proof.
  intros H Hn. destruct (rewritten_infos H) as (H1 & H2 & H3 & H4 & H5).
  unfold layout, doc_shape in *. simpl in Hn. rewrite H1.
  assert (Hc : root_ctx r' st = root_ctx r st) by (unfold root_ctx; rewrite H2; reflexivity). rewrite Hc.
  rewrite (sim_rend (rewritten_any H (root_ctx r st)) Hn w (i_id (r_info r)) pos0 (keq_refl look_end)); auto.
  intros rem eol. discriminate.
Qed.

Lemma rewritten_no_fail r r' st : rewritten any_law r r' -> no_fail (snd (doc_shape r st)) -> no_fail (snd (doc_shape r' st)).
Proof.
  intros H Hn. destruct (rewritten_infos H) as (H1 & H2 & H3 & H4 & H5). simpl in *.
  assert (Hc : root_ctx r' st = root_ctx r st) by (unfold root_ctx; rewrite H2; reflexivity). rewrite Hc.
  apply (sim_fail (rewritten_any H (root_ctx r st))). exact Hn.
Qed.

End PRewrite.
