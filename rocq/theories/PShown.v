(** A mismatch in a notation that is displayed whatever the choices makes
    printing fail. *)
From Verif Require Export SpecShown PSpine.

Set Implicit Arguments.

Section PShown.
Context {pd : PrettyDoc} {env : Env}.

(** [sub] is laid out whenever [s] is. *)
Inductive within (s : shape) : shape -> Prop :=
| w_refl : within s s
| w_left a b : within s (SConcat a b) -> within s a
| w_right a b : within s (SConcat a b) -> within s b
| w_child n i a : within s (SChild n i a) -> within s a.

Definition laid (w : N) (s : shape) : Prop := exists j k p es p', rend w s j k p = Some (es, p').

Lemma within_laid w s sub : within s sub -> laid w s -> laid w sub.
Proof.
  induction 1 as [|a b _ IH|a b _ IH|n i a _ IH]; intros H; auto; destruct (IH H) as (j & k & p & es & p' & E); simpl in E.
  - apply obind_some in E as [[e1 p1] [H1 _]]. unfold laid. eauto 10.
  - apply obind_some in E as [[e1 p1] [H1 E]]. apply obind_some in E as [[e2 p2] [H2 _]]. unfold laid. eauto 10.
  - destruct i as [j'|]; [|discriminate]. apply obind_some in E as [[e1 p1] [H1 _]]. unfold laid. eauto 10.
Qed.

Lemma fail_not_laid w f : ~ laid w (SFail f).
Proof. intros (j & k & p & es & p' & E). discriminate. Qed.

(** The environment of Left and Right. *)
Definition nth_kid (x : rdoc) (n : nat) (kd : kid) : Prop :=
  exists k, nth_error (r_kids x) n = Some k /\ kd = Kid k (elab k).

Inductive env_ok (x : rdoc) : option folding -> option foldenv -> Prop :=
| eo_none : env_ok x None None
| eo_first f e : f_index f = 1 -> fe_index e = 1 ->
    nth_error (r_kids x) 0 = Some (fe_ldoc e) -> nth_kid x 1 (fe_right e) ->
    (forall c, fe_left e c = elab_note x (kids_of x) (f_first f) None c) -> env_ok x (Some f) (Some e)
| eo_next f e e' n : f_index f = S (S n) -> fe_index e = S (S n) ->
    nth_error (r_kids x) (S n) = Some (fe_ldoc e) -> nth_kid x (S (S n)) (fe_right e) ->
    env_ok x (Some (Folding (S n) (f_first f) (f_join f))) (Some e') ->
    (forall c, fe_left e c = elab_note x (kids_of x) (f_join f) (Some e') c) -> env_ok x (Some f) (Some e).

Lemma env_idx x f e : env_ok x (Some f) (Some e) ->
  fe_index e = f_index f /\ 1 <= f_index f /\ nth_kid x (f_index f) (fe_right e) /\ nth_error (r_kids x) (f_index f - 1) = Some (fe_ldoc e).
Proof.
  intros H. inversion H; subst.
  - rewrite H2, H3. repeat split; auto.
  - rewrite H2, H3. split; auto. split; [lia|]. split; auto.
Qed.

Lemma fold_env x f j : forall ks i prev pre acc, r_kids x = pre ++ prev :: ks -> length pre = i ->
  match i with
  | O => forall c, acc c = elab_note x (kids_of x) f None c
  | S m => exists e, env_ok x (Some (Folding (S m) f j)) (Some e) /\ forall c, acc c = elab_note x (kids_of x) j (Some e) c
  end ->
  match (i + length ks)%nat with
  | O => forall c, fold_kids (fun e c => elab_note x (kids_of x) j (Some e) c) i (Kid prev (elab prev)) (map (fun k => Kid k (elab k)) ks) acc c = elab_note x (kids_of x) f None c
  | S m => exists e, env_ok x (Some (Folding (S m) f j)) (Some e) /\
      forall c, fold_kids (fun e c => elab_note x (kids_of x) j (Some e) c) i (Kid prev (elab prev)) (map (fun k => Kid k (elab k)) ks) acc c = elab_note x (kids_of x) j (Some e) c
  end.
Proof.
  induction ks as [|k ks IH]; intros i prev pre acc Hks Hi Hacc; cbn [map fold_kids].
  - simpl. rewrite Nat.add_0_r. destruct i; exact Hacc.
  - simpl. rewrite Nat.add_succ_r. apply (IH (S i) k (pre ++ [prev])).
    + rewrite <- app_assoc. exact Hks.
    + rewrite app_length. simpl. lia.
    + exists (FoldEnv acc prev (S i) (Kid k (elab k))). split; [|reflexivity].
      assert (H0 : nth_error (r_kids x) i = Some prev) by (rewrite Hks, nth_error_app2, Hi, Nat.sub_diag by lia; reflexivity).
      assert (H1 : nth_error (r_kids x) (S i) = Some k).
      { rewrite Hks, nth_error_app2 by lia. replace (S i - length pre) with 1 by lia. reflexivity. }
      destruct i as [|m].
      * apply eo_first; simpl; auto. exists k. auto.
      * destruct Hacc as (e & He & Hacc). apply eo_next with (e' := e) (n := m); simpl; auto. exists k. auto.
Qed.

Variables (root : rdoc) (st : option Sty).

Lemma shown_within fs x o n : shown root fs x o n ->
  exists fe c, env_ok x o fe /\ (In InFlat fs -> x_flat c = true) /\
    within (elab root (root_ctx root st)) (elab_note x (kids_of x) n fe c).
Proof.
  assert (Hbr : forall x k (A B : shape), In k (r_kids x) -> match x with RBranch _ _ => A | RText _ _ => B end = A).
  { intros [i s|i ks] k A B Hk; [destruct Hk|reflexivity]. }
  assert (Hb1 : forall x (A B : shape), 1 <= length (r_kids x) -> match x with RBranch _ _ => A | RText _ _ => B end = A).
  { intros [i s|i ks] A B Hk; [simpl in Hk; lia|reflexivity]. }
  assert (Hl : forall x, length (kids_of x) = length (r_kids x)) by (intros; unfold kids_of; apply map_length).
  assert (Hnk : forall x m k, nth_error (r_kids x) m = Some k -> nth_error (kids_of x) m = Some (Kid k (elab k))).
  { intros x0 m k Hk. unfold kids_of. rewrite nth_error_map, Hk. reflexivity. }
  assert (Hnil : forall a : frame, In InFlat ([] ++ [a]) -> a = InFlat) by (simpl; intuition).
  assert (Hin : forall fs (a : frame), In InFlat (fs ++ [a]) -> a <> InFlat -> In InFlat fs).
  { intros fs0 a Ha Hne. apply in_app_or in Ha as [?|[?|[]]]; auto. subst. contradiction. }
  assert (Hfold : forall x f j fe c, 1 <= length (r_kids x) ->
    match length (r_kids x) with
    | 0 => True
    | 1 => elab_note x (kids_of x) (Fold f j) fe c = elab_note x (kids_of x) f None c
    | S (S m) => exists e, env_ok x (Some (Folding (S m) f j)) (Some e) /\ elab_note x (kids_of x) (Fold f j) fe c = elab_note x (kids_of x) j (Some e) c
    end).
  { intros x0 f j fe c Hlen.
    assert (HF : elab_note x0 (kids_of x0) (Fold f j) fe c = match kids_of x0 with [] => SEmpty | k :: ks =>
      fold_kids (fun e c => elab_note x0 (kids_of x0) j (Some e) c) 0 k ks (fun c => elab_note x0 (kids_of x0) f None c) c end).
    { cbn [elab_note]. cbv zeta. rewrite (Hb1 x0) by auto. reflexivity. }
    rewrite HF. clear HF.
    assert (Hk : kids_of x0 = map (fun k => Kid k (elab k)) (r_kids x0)) by reflexivity.
    destruct (r_kids x0) as [|k1 ks] eqn:Eks; [simpl in Hlen; lia|]. cbn [map] in Hk.
    pose proof (@fold_env x0 f j ks 0 k1 [] (fun c => elab_note x0 (kids_of x0) f None c) Eks eq_refl (fun c => eq_refl)) as H.
    destruct (kids_of x0) as [|kd kds] eqn:Ek; [discriminate|]. injection Hk as -> ->. rewrite <- Ek in *.
    destruct ks as [|k2 ks]; simpl in H |- *.
    - reflexivity.
    - destruct H as (e & He & H). exists e. split; auto. }
  induction 1.
  - exists None, (root_ctx root st). split; [constructor|]. split; [contradiction|]. rewrite <- elab_eq. constructor.
  - destruct IHshown as (fe & c & H1 & H2 & H3). exists fe, c. split; auto. split; auto. eapply w_left; exact H3.
  - destruct IHshown as (fe & c & H1 & H2 & H3). exists fe, c. split; auto. split; auto. eapply w_right; exact H3.
  - destruct IHshown as (fe & c & H1 & H2 & H3). exists fe, c. split; auto. split; auto. cbn [elab_note] in H3. rewrite (H2 H0) in H3. exact H3.
  - destruct IHshown as (fe & c0 & H3 & H4 & H5). exists fe, c0. split; auto. split; auto.
    cbn [elab_note] in H5. cbv zeta in H5. destruct pos as [|k| |]; simpl in H0.
    + injection H0 as <-. rewrite H1 in H5. exact H5.
    + rewrite Hl in H5. destruct (kid_number k (length (r_kids x))) as [m|] eqn:En; [|discriminate].
      rewrite (Hbr x y), (Hnk _ _ _ H0) in H5 by (eapply nth_error_In; eauto). simpl in H5. rewrite H1 in H5. exact H5.
    + destruct o as [f|]; [|discriminate]. destruct fe as [e|]; [|inversion H3]. apply env_idx in H3 as (_ & _ & _ & H3).
      rewrite H0 in H3. injection H3 as ->. rewrite H1 in H5. exact H5.
    + destruct o as [f|]; [|discriminate]. destruct fe as [e|]; [|inversion H3]. apply env_idx in H3 as (_ & _ & (k & H3 & E) & _).
      rewrite H0 in H3. injection H3 as ->. rewrite E in H5. simpl in H5. rewrite H1 in H5. exact H5.
  - destruct IHshown as (fe & c0 & H3 & H4 & H5). exists fe, c0. split; auto. split; auto.
    cbn [elab_note] in H5. cbv zeta in H5. destruct pos as [|k| |]; simpl in H0.
    + injection H0 as <-. rewrite H1 in H5. exact H5.
    + rewrite Hl in H5. destruct (kid_number k (length (r_kids x))) as [m|] eqn:En; [|discriminate].
      rewrite (Hbr x y), (Hnk _ _ _ H0) in H5 by (eapply nth_error_In; eauto). simpl in H5. rewrite H1 in H5. exact H5.
    + destruct o as [f|]; [|discriminate]. destruct fe as [e|]; [|inversion H3]. apply env_idx in H3 as (_ & _ & _ & H3).
      rewrite H0 in H3. injection H3 as ->. rewrite H1 in H5. exact H5.
    + destruct o as [f|]; [|discriminate]. destruct fe as [e|]; [|inversion H3]. apply env_idx in H3 as (_ & _ & (k & H3 & E) & _).
      rewrite H0 in H3. injection H3 as ->. rewrite E in H5. simpl in H5. rewrite H1 in H5. exact H5.
  - destruct IHshown as (fe & c & H1 & H2 & H3). exists fe, (in_flat c). split; auto.
  - destruct IHshown as (fe & c & H1 & H2 & H3). eexists fe, _. split; auto. split; [|exact H3]. intros Hi. apply Hin in Hi; [|discriminate]. simpl. auto.
  - destruct IHshown as (fe & c & H1 & H2 & H3). eexists fe, _. split; auto. split; [|exact H3]. intros Hi. apply Hin in Hi; [|discriminate]. simpl. auto.
  - destruct IHshown as (fe & c0 & H1 & H2 & H3). exists fe, c0. split; auto. split; auto. destruct H0 as (i & ->). exact H3.
  - destruct IHshown as (fe & c0 & H1 & H2 & H3). exists fe, c0. split; auto. split; auto. cbn [elab_note] in H3. cbv zeta in H3.
    rewrite (Hb1 x) in H3 by lia. rewrite <- Hl in H0. destruct (kids_of x) as [|k1 [|]]; try discriminate. exact H3.
  - destruct IHshown as (fe & c0 & H1 & H2 & H3). exists fe, c0. split; auto. split; auto. cbn [elab_note] in H3. cbv zeta in H3.
    rewrite (Hb1 x) in H3 by lia. rewrite <- Hl in H0. destruct (kids_of x) as [|k1 [|]]; try (simpl in H0; lia). exact H3.
  - destruct IHshown as (fe & c & H2 & H3 & H4). cbn [elab_note] in H4. cbv zeta in H4. rewrite Hl, H0, (Hbr x k), (Hnk _ _ _ H1) in H4 by (eapply nth_error_In; eauto).
    apply w_child in H4. simpl in H4. rewrite (elab_eq k) in H4. eexists None, _. split; [constructor|]. split; [|exact H4].
    intros Hi. apply Hin in Hi; [|discriminate]. simpl. auto.
  - destruct IHshown as (fe & c & H1 & H2 & H3). exists None, c. split; [constructor|]. split; auto.
    pose proof (Hfold x f j fe c ltac:(lia)) as F. rewrite H0 in F. rewrite <- F. exact H3.
  - destruct IHshown as (fe & c & H1 & H2 & H3). pose proof (Hfold x f j fe c ltac:(lia)) as F. rewrite H0 in F.
    destruct F as (e & He & F). exists (Some e), c. split; auto. split; auto. rewrite <- F. exact H3.
  - destruct IHshown as (fe & c & H1 & H2 & H3). exists None, c. split; [constructor|]. split; auto.
    inversion H1; subst; [|congruence]. cbn [elab_note] in H3. rewrite <- H9. exact H3.
  - destruct IHshown as (fe & c & H1 & H2 & H3). inversion H1; subst; [congruence|]. cbn [elab_note] in H3.
    assert (n0 = n) by congruence. subst n0. exists (Some e'), c. split; auto. split; auto. rewrite <- H10. exact H3.
  - destruct IHshown as (fe & c & H1 & H2 & H3). destruct fe as [e|]; [|inversion H1]. apply env_idx in H1 as (E1 & _ & (k' & Hk & Er) & _).
    rewrite H0 in Hk. injection Hk as <-. cbn [elab_note] in H3. rewrite Er in H3. apply w_child in H3. simpl in H3. rewrite (elab_eq k) in H3.
    eexists None, _. split; [constructor|]. split; [|exact H3]. intros Hi. apply Hin in Hi; [|discriminate]. simpl. auto.
Qed.

Lemma mismatch_el x n e fe c : mismatch x n = Some e -> elab_note x (kids_of x) n fe c = SFail (FErr e).
Proof.
  destruct x as [i s|i ks], n as [| | |l| |a|p l a|a b|a b|cd ps a b|k|l a| |a b d|a b| |]; cbn [mismatch]; intros H; try discriminate; cbn [elab_note]; cbv zeta; try (injection H as <-; reflexivity).
  - destruct ps; try discriminate. injection H as <-. reflexivity.
  - destruct ps as [|k| |]; try discriminate. assert (Hk : length (kids_of (RBranch i ks)) = length ks) by apply map_length. rewrite Hk.
    destruct (kid_number k (length ks)); [discriminate|]. injection H as <-. reflexivity.
  - assert (Hk : length (kids_of (RBranch i ks)) = length ks) by apply map_length. rewrite Hk.
    destruct (kid_number k (length ks)); [discriminate|]. injection H as <-. reflexivity.
Qed.

Theorem shown_mismatch fs x o n e w : shown root fs x o n -> mismatch x n = Some e -> layout w (doc_shape root st) = None.
Proof.
  intros H Hm. destruct (shown_within H) as (fe & c & _ & _ & Hw). rewrite (@mismatch_el _ _ _ _ _ Hm) in Hw.
  unfold layout, doc_shape. destruct (rend w _ _ look_end pos0) as [[es p']|] eqn:E; auto.
  exfalso. apply (@fail_not_laid w (FErr e)). apply (within_laid Hw). unfold laid. eauto 10.
Qed.

(** All failures in the tree are mismatches (or panics). *)
Lemma origins_allf q s : origins root st q s ->
  allf (fun f => (exists fs x o n e, reach root fs x o n /\ mismatch x n = Some e /\ f = FErr e) \/ exists p, f = FPanic p) s.
Proof.
  revert q. induction s as [f| | |ind|t|a IHa b IHb|a IHa b IHb|n i s IH|]; intros q; simpl; auto.
  - intros (fs & x & o & n & _ & H & [(e & H1 & H2)|H1]); eauto 10.
  - intros [H1 H2]. eauto.
  - intros (_ & H1 & H2). eauto.
  - intros ((j & ->) & _ & H). split; eauto.
Qed.

End PShown.
