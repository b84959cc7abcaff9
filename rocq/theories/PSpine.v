(** Everything in the notation tree comes from a reachable notation. *)
From Verif Require Export SpecSpine PText.

Set Implicit Arguments.

Section Spine.
Context {pd : PrettyDoc} {env : Env}.
Variables (root : rdoc) (st : option Sty).
Notation reach := (reach root).

(** Where a printed text comes from. *)
Definition text_origin (q : list nat) (t : textual) : Prop :=
  exists fs x o, path_of fs = q /\ tx_style t = style_from (root_style root st) fs /\
    tx_width t = str_width (tx_str t) /\
    ((tx_from_text t = false /\ reach fs x o (Literal (tx_str t))) \/
     (tx_from_text t = true /\ reach fs x o Text /\ exists i, x = RText i (tx_str t))).

(** Where a newline comes from. *)
Definition newline_origin (q : list nat) (ind : indentation) : Prop :=
  exists fs x o, path_of fs = q /\ rev ind = indents_from (root_style root st) fs /\ reach fs x o Newline.

(** Where a failure comes from. *)
Definition fail_origin (q : list nat) (f : failure (perr Er)) : Prop :=
  exists fs x o n, path_of fs = q /\ reach fs x o n /\
    ((exists e, mismatch x n = Some e /\ f = FErr e) \/ (exists p, f = FPanic p)).

(** Where a child comes from. *)
Definition child_origin (q : list nat) (m : nat) : Prop :=
  exists fs x o, path_of fs = q /\
    ((exists i, reach fs x o (Child i) /\ kid_number i (length (r_kids x)) = Some m) \/
     (exists f, o = Some f /\ reach fs x o Right /\ m = f_index f)).

Fixpoint origins (q : list nat) (s : shape) : Prop :=
  match s with
  | SFail f => fail_origin q f
  | SText t => text_origin q t
  | SNewline ind => newline_origin q ind
  | SConcat a b => origins q a /\ origins q b
  | SChoice a b => (exists fs x o n1 n2, path_of fs = q /\ reach fs x o (Choice n1 n2) /\ ~ In InFlat fs) /\
      origins q a /\ origins q b
  | SChild n i s' => (exists j, i = Ok j) /\ child_origin q n /\ origins (q ++ [n]) s'
  | SMark => exists fs x o, path_of fs = q /\ reach fs x o FocusMark
  | _ => True
  end.

(** The context after [fs]. *)
Definition ctx_ok (fs : list frame) (c : ctx) : Prop :=
  (x_flat c = true <-> In InFlat fs) /\
  rev (x_ind c) = indents_from (root_style root st) fs /\
  x_sty c = style_from (root_style root st) fs.

Lemma style_from_app s a b : style_from s (a ++ b) = style_from (style_from s a) b.
Proof. revert s; induction a as [|[] a IH]; intros s; simpl; auto. Qed.
Lemma indents_from_app s a b : indents_from s (a ++ b) = indents_from s a ++ indents_from (style_from s a) b.
Proof. revert s; induction a as [|[] a IH]; intros s; simpl; auto. rewrite IH. reflexivity. Qed.
Lemma path_of_app a b : path_of (a ++ b) = path_of a ++ path_of b.
Proof. induction a as [|[] a IH]; simpl; auto. rewrite IH. reflexivity. Qed.

Lemma ok_flat fs c : ctx_ok fs c -> ctx_ok (fs ++ [InFlat]) (in_flat c).
Proof.
  intros (H1 & H2 & H3). split; [|split]; simpl.
  - split; auto. intros _. apply in_or_app. simpl. auto.
  - rewrite indents_from_app. simpl. rewrite app_nil_r. auto.
  - rewrite style_from_app. auto.
Qed.

Lemma ok_style fs c x l : ctx_ok fs c -> ctx_ok (fs ++ [InStyle x l]) (in_style (i_lookup (r_info x) l) c).
Proof.
  intros (H1 & H2 & H3). split; [|split]; simpl.
  - rewrite H1. rewrite in_app_iff. simpl. intuition discriminate.
  - rewrite indents_from_app. simpl. rewrite app_nil_r. auto.
  - rewrite style_from_app. simpl. congruence.
Qed.

Lemma ok_node fs c n k : ctx_ok fs c -> ctx_ok (fs ++ [InNode n k]) (in_style (i_style (r_info k)) c).
Proof.
  intros (H1 & H2 & H3). split; [|split]; simpl.
  - rewrite H1. rewrite in_app_iff. simpl. intuition discriminate.
  - rewrite indents_from_app. simpl. rewrite app_nil_r. auto.
  - rewrite style_from_app. simpl. congruence.
Qed.

Lemma ok_indent fs c x p l : ctx_ok fs c ->
  ctx_ok (fs ++ [InIndent x p l]) (in_indent p (option_map (i_lookup (r_info x)) l) c).
Proof.
  intros (H1 & H2 & H3). split; [|split]; simpl.
  - rewrite H1. rewrite in_app_iff. simpl. intuition discriminate.
  - rewrite indents_from_app, H2. simpl. destruct l; simpl; rewrite H3; reflexivity.
  - rewrite style_from_app. simpl. auto.
Qed.

(** ** Inside one node *)
Section Node.
Variable x : rdoc.
Hypothesis Hkids : forall fs n k c, reach (fs ++ [InNode n k]) k None (i_note (r_info k)) ->
  nth_error (r_kids x) n = Some k -> ctx_ok (fs ++ [InNode n k]) c ->
  origins (path_of (fs ++ [InNode n k])) (elab k c).

Lemma child_origins fs n k c : reach (fs ++ [InNode n k]) k None (i_note (r_info k)) ->
  nth_error (r_kids x) n = Some k -> child_origin (path_of fs) n -> ctx_ok fs c -> origins (path_of fs) (child n (Kid k (elab k)) c).
Proof.
  intros Hr Hk Ho Hc. unfold child. simpl. split; [eauto|]. split; [exact Ho|].
  pose proof (@Hkids fs n k _ Hr Hk (ok_node n k Hc)) as H. rewrite path_of_app in H. exact H.
Qed.

(** The fold state matches the fold environment. *)
Definition fold_ok (o : option folding) (fe : option foldenv) : Prop :=
  match o, fe with
  | None, None => True
  | Some f, Some e =>
      fe_index e = f_index f /\ 1 <= f_index f /\
      (exists k, nth_error (r_kids x) (f_index f) = Some k /\ fe_right e = Kid k (elab k)) /\
      nth_error (r_kids x) (f_index f - 1) = Some (fe_ldoc e) /\
      (forall fs c, reach fs x (Some f) Left -> ctx_ok fs c -> origins (path_of fs) (fe_left e c))
  | _, _ => False
  end.

Lemma fold_origins f j (join : foldenv -> ctx -> shape) :
  (forall fs o e c, reach fs x (Some o) j -> fold_ok (Some o) (Some e) -> ctx_ok fs c -> origins (path_of fs) (join e c)) ->
  forall ks i prev acc pre, r_kids x = pre ++ prev :: ks -> length pre = i ->
  (forall fs c, ctx_ok fs c ->
     (i = 0 -> reach fs x None f) -> (forall m, i = S m -> reach fs x (Some (Folding (S m) f j)) j) ->
     origins (path_of fs) (acc c)) ->
  forall fs c, ctx_ok fs c ->
     (i + length ks = 0 -> reach fs x None f) -> (forall m, i + length ks = S m -> reach fs x (Some (Folding (S m) f j)) j) ->
     origins (path_of fs) (fold_kids join i (Kid prev (elab prev)) (map (fun k => Kid k (elab k)) ks) acc c).
Proof.
  intros Hj. induction ks as [|k ks IH]; intros i prev acc pre Hks Hi Hacc fs c Hc H0 Hm; cbn [map fold_kids].
  - apply Hacc; auto.
    + intros ->. apply H0. reflexivity.
    + intros m ->. apply Hm. simpl. lia.
  - apply IH with (pre := pre ++ [prev]); auto.
    + rewrite <- app_assoc. exact Hks.
    + rewrite app_length. simpl. lia.
    + clear fs c Hc H0 Hm. intros fs c Hc _ Hm.
      apply Hj with (o := Folding (S i) f j); [apply (Hm i eq_refl)| |exact Hc].
      cbn [fold_ok f_index fe_index fe_right fe_ldoc fe_left k_doc]. split; [reflexivity|]. split; [lia|]. split.
      { exists k. split; auto. rewrite Hks, nth_error_app2 by lia. replace (S i - length pre) with 1 by lia. reflexivity. }
      split. { rewrite Hks, nth_error_app2 by lia. replace (S i - 1 - length pre) with 0 by lia. reflexivity. }
      intros fs' c' Hl Hc'. apply Hacc; auto.
      * intros ->. apply (r_left1 Hl eq_refl).
      * intros m ->. apply (r_left Hl eq_refl).
    + simpl. lia.
    + intros m E. apply Hm. simpl. lia.
Qed.

Lemma note_origins n : forall fs o fe c, reach fs x o n -> fold_ok o fe -> ctx_ok fs c ->
  origins (path_of fs) (elab_note x (kids_of x) n fe c).
Proof.
  assert (Hlen : length (kids_of x) = length (r_kids x)) by (unfold kids_of; apply map_length).
  assert (Hget : forall m k, nth_error (kids_of x) m = Some k -> exists y, nth_error (r_kids x) m = Some y /\ k = Kid y (elab y)).
  { intros m k. unfold kids_of. rewrite nth_error_map. destruct (nth_error (r_kids x) m); [|discriminate]. intros [= <-]. eauto. }
  assert (Hbr : forall q (A B : shape), ((forall i s, x <> RText i s) -> origins q A) -> (forall i s, x = RText i s -> origins q B) -> origins q (match x with RBranch _ _ => A | RText _ _ => B end)).
  { intros q A B. case x; [intros i s _ H; apply (H i s eq_refl)|]. intros i ks H _. apply H. discriminate. }
  assert (Hmb : forall n e, (forall i ks, x = RBranch i ks -> mismatch (RBranch i ks) n = Some e) -> (forall i s, x <> RText i s) -> mismatch x n = Some e).
  { intros n0 e. case x; [intros i s _ H; destruct (H i s eq_refl)|]. intros i ks H _. apply (H i ks eq_refl). }
  assert (Hfail : forall fs o n e, reach fs x o n -> mismatch x n = Some e -> origins (path_of fs) (SFail (FErr e))).
  { intros fs o n0 e H1 H2. exists fs, x, o, n0. eauto 10. }
  assert (Hpan : forall fs o n p, reach fs x o n -> origins (path_of fs) (SFail (FPanic p))).
  { intros fs o n0 p H1. exists fs, x, o, n0. eauto 10. }
  assert (Htx : forall q (F : str -> shape) (B : shape), (forall i s, x = RText i s -> origins q (F s)) -> ((forall i s, x <> RText i s) -> origins q B) ->
    origins q (match x with RText _ s => F s | RBranch _ _ => B end)).
  { intros q F B. case x; [intros i s H1 _; apply (H1 i s eq_refl)|]. intros i ks _ H. apply H. discriminate. }
  induction n as [| | |s| |n IH|pre l n IH|a IHa b IHb|a IHa b IHb|cd ps a IHa b IHb|i|l n IH| |z IHz u IHu m IHm|f IHf jn IHj| |];
    intros fs o fe c Hr Hf Hc; cbn [elab_note]; cbv zeta; try exact I.
  - exists fs, x, o. destruct Hc as (_ & H2 & _). auto.
  - exists fs, x, o. destruct Hc as (_ & _ & H3). simpl. auto 10.
  - apply Htx; [|intros Hx; eapply Hfail; [exact Hr|]; apply Hmb; auto]. intros i s E. exists fs, x, o. destruct Hc as (_ & _ & H3). simpl. repeat (split; auto). right. split; auto. split; eauto.
  - specialize (IH _ _ fe _ (r_flat Hr) Hf (ok_flat Hc)). rewrite path_of_app in IH. simpl in IH. rewrite app_nil_r in IH. exact IH.
  - specialize (IH _ _ fe _ (r_indent Hr) Hf (@ok_indent _ _ x pre l Hc)). rewrite path_of_app in IH. simpl in IH. rewrite app_nil_r in IH. exact IH.
  - split; [eapply IHa; eauto; eapply r_concat1; eauto|eapply IHb; eauto; eapply r_concat2; eauto].
  - destruct (x_flat c) eqn:Ef.
    + eapply IHa; eauto; eapply r_choice1; eauto.
    + assert (Hn : ~ In InFlat fs) by (intros H; apply (proj1 Hc) in H; congruence).
      split; [exists fs, x, o, a, b; auto|]. split; [eapply IHa; eauto; eapply r_choice1; eauto|eapply IHb; eauto; eapply r_choice2; eauto].
  - assert (Hgo : forall y, inspected x o ps = Some y ->
      origins (path_of fs) (if i_cond (r_info y) cd then elab_note x (kids_of x) a fe c else elab_note x (kids_of x) b fe c)).
    { intros y Hy. destruct (i_cond (r_info y) cd) eqn:Ec; [eapply IHa|eapply IHb]; eauto; [eapply r_check1|eapply r_check2]; eauto. }
    destruct ps as [|k| |].
    + apply Hgo. reflexivity.
    + apply Hbr; [intros Hx|intros i0 s0 Hx; eapply Hfail; [exact Hr|]; rewrite Hx; reflexivity].
      destruct (kid_number k (length (kids_of x))) as [m|] eqn:En; [|eapply Hfail; [exact Hr|]; apply Hmb; auto; intros i0 ks0 E; rewrite E in En; unfold kids_of in *; simpl in *; rewrite map_length in *; rewrite En, E; reflexivity].
      destruct (nth_error (kids_of x) m) as [y|] eqn:Ey; [|exact I]. destruct (Hget _ _ Ey) as (y' & Hy' & ->).
      apply Hgo. simpl. rewrite <- Hlen, En. exact Hy'.
    + destruct o as [fo|], fe as [e|]; try contradiction; [|eapply Hpan; exact Hr]. destruct Hf as (F1 & F2 & F3 & F4 & F5).
      apply Hgo. simpl. exact F4.
    + destruct o as [fo|], fe as [e|]; try contradiction; [|eapply Hpan; exact Hr]. destruct Hf as (F1 & F2 & (k & F3 & F6) & F4 & F5).
      rewrite F6. apply Hgo. simpl. exact F3.
  - apply Hbr; [intros Hx|intros i0 s0 Hx; eapply Hfail; [exact Hr|]; rewrite Hx; reflexivity].
    destruct (kid_number i (length (kids_of x))) as [m|] eqn:En; [|eapply Hfail; [exact Hr|]; apply Hmb; auto; intros i0 ks0 E; rewrite E in En; unfold kids_of in *; simpl in *; rewrite map_length in *; rewrite En, E; reflexivity].
    destruct (nth_error (kids_of x) m) as [y|] eqn:Ey; [|exact I]. destruct (Hget _ _ Ey) as (y' & Hy' & ->).
    rewrite Hlen in En. apply child_origins; auto; [eapply r_child; eauto|]. exists fs, x, o. split; auto. left. eauto.
  - specialize (IH _ _ fe _ (r_style Hr) Hf (@ok_style _ _ x l Hc)). rewrite path_of_app in IH. simpl in IH. rewrite app_nil_r in IH. exact IH.
  - simpl. eauto.
  - apply Hbr; [intros Hx|intros i0 s0 Hx; eapply Hfail; [exact Hr|]; rewrite Hx; reflexivity].
    destruct (kids_of x) as [|k1 [|k2 ks]] eqn:Ek; rewrite <- Ek in *.
    + eapply IHz; eauto. eapply r_zero; eauto. rewrite <- Hlen, Ek. reflexivity.
    + eapply IHu; eauto. eapply r_one; eauto. rewrite <- Hlen, Ek. reflexivity.
    + eapply IHm; eauto. eapply r_many; eauto. rewrite <- Hlen, Ek. simpl. lia.
  - apply Hbr; [intros Hx|intros i0 s0 Hx; eapply Hfail; [exact Hr|]; rewrite Hx; reflexivity].
    assert (Hk : kids_of x = map (fun k => Kid k (elab k)) (r_kids x)) by reflexivity.
    destruct (r_kids x) as [|k1 ks0] eqn:Eks; cbn [map] in Hk; rewrite Hk at 1; [exact I|].
    pose proof (@fold_origins f jn (fun e c => elab_note x (kids_of x) jn (Some e) c)) as Hfold. rewrite Eks in Hfold.
    apply Hfold with (pre := []); auto.
    + intros fs' o' e c' H1 H2 H3. eapply IHj; eauto.
    + intros fs' c' H1 H2 _. eapply IHf; eauto. exact I.
    + intros E. eapply r_fold1; [exact Hr|]. rewrite Eks. simpl in *. lia.
    + intros m E. eapply r_foldn; [exact Hr|]. rewrite Eks. simpl in *. lia.
  - destruct o as [fo|], fe as [e|]; try contradiction; [|eapply Hpan; exact Hr]. apply Hf; auto.
  - destruct o as [fo|], fe as [e|]; try contradiction; [|eapply Hpan; exact Hr]. destruct Hf as (F1 & F2 & (k & F3 & F6) & F4 & F5).
    rewrite F6, F1. apply child_origins; auto; [eapply r_right; eauto|]. exists fs, x, (Some fo). split; auto. right. eauto.
Qed.

End Node.

Theorem elab_origins x : forall fs c, reach fs x None (i_note (r_info x)) -> ctx_ok fs c -> origins (path_of fs) (elab x c).
Proof.
  induction x as [i s|i ks IH] using rdoc_ind'; intros fs c Hr Hc; rewrite elab_eq.
  - apply note_origins with (o := None); auto; [|exact I].
    intros fs' n k c' _ Hk. destruct n; discriminate.
  - apply note_origins with (o := None); auto; [|exact I].
    intros fs' n k c' H1 Hk H2. apply IH; auto. eapply nth_error_In; eauto.
Qed.

Lemma root_origins : origins [] (snd (doc_shape root st)).
Proof.
  simpl. apply (@elab_origins root [] (root_ctx root st)); [constructor|].
  split; [|split]; simpl; auto. split; [discriminate|contradiction].
Qed.

(** ** Events *)
Definition event_origin (q : list nat) (e : event) : Prop :=
  match e with
  | EText _ t => text_origin q t
  | ENewline ind => newline_origin q ind
  | EMark _ => exists fs x o, path_of fs = q /\ reach fs x o FocusMark
  | EEnter _ m => child_origin q m
  | _ => True
  end.

Lemma rend_origins w s : forall j k p es p' q,
  rend w s j k p = Some (es, p') -> origins q s -> sees event_origin (rev q) es.
Proof.
  induction s as [f| | |ind|t|a IHa b IHb|a IHa b IHb|n i s IH|]; intros j k p es p' q; simpl; intros H Ho.
  - discriminate.
  - injection H as <- <-. simpl. auto.
  - injection H as <- <-. simpl. auto.
  - apply obind_some in H as [x [_ [= <- <-]]]. simpl. rewrite rev_involutive. auto.
  - apply obind_some in H as [x [_ [= <- <-]]]. simpl. rewrite rev_involutive. auto.
  - apply obind_some in H as [[e1 p1] [H1 H]]. apply obind_some in H as [[e2 p2] [H2 [= <- <-]]].
    destruct Ho as [Hoa Hob].
    destruct (rend_stack _ _ _ _ _ H1 (rev q)) as [O1 _].
    rewrite sees_app, O1. eauto.
  - destruct (head_fails a); [discriminate|]. destruct Ho as [_ [Hoa Hob]].
    apply obind_some in H as [f [_ H]]. destruct f; eauto.
  - destruct i as [j'|]; [|discriminate].
    apply obind_some in H as [[e1 p1] [H1 [= <- <-]]].
    destruct Ho as [_ [Hc Ho]]. pose proof (IH _ _ _ _ _ _ H1 Ho) as S1. rewrite rev_app_distr in S1. simpl in S1.
    cbn [sees event_origin]. split; [rewrite rev_involutive; exact Hc|]. rewrite sees_app. split; auto. simpl. auto.
  - injection H as <- <-. simpl. rewrite rev_involutive. auto.
Qed.

Theorem layout_origins w es a e b : layout w (doc_shape root st) = Some es -> es = a ++ e :: b ->
  event_origin (open_path a) e.
Proof.
  unfold layout, doc_shape. intros H ->. destruct (rend w _ _ look_end pos0) as [[es' p']|] eqn:E; [|discriminate].
  injection H as ->. apply (@rend_origins _ _ _ _ _ _ _ []) in E; [|apply root_origins].
  apply sees_app in E as [_ E]. simpl in E. apply E.
Qed.

End Spine.
