(** The nodes of the notation tree with holes, and the windows of documents
    with closed nodes. *)
From Verif Require Export PPeek6 PPeek7 PWhole.
From Verif Require Import SpecMask.

Set Implicit Arguments.

Section PPeek8.
Context {pd : PrettyDoc} {env : Env} {ideq : IdEq pd}.

Section Lab.
Variable root : odoc.
Notation ids := (oid_at root).

Lemma onode_at_app r q n x : onode_at r q = Some x -> onode_at r (q ++ [n]) = nth_error (o_kids x) n.
Proof.
  revert r; induction q as [|m q IH]; intros r H; simpl in *.
  - injection H as ->. destruct (nth_error (o_kids x) n); reflexivity.
  - destruct (nth_error (o_kids r) m); [auto|discriminate].
Qed.

Section Node.
Variable q : list nat.
Variable r : odoc.
Hypothesis Hopen : o_open r = true.
Hypothesis Hq : onode_at root q = Some r.
Hypothesis kids : forall n k, nth_error (o_kids r) n = Some k -> forall c, plab ids (q ++ [n]) (oelab k c).

Definition penv_closed (injoin : bool) (fe : option foldenv) : Prop :=
  injoin = true -> exists e k, fe = Some e /\ nth_error (o_kids r) (fe_index e) = Some k /\
    fe_right e = Kid (forget k) (oelab k) /\ forall c, plab ids q (fe_left e c).

Lemma pchild_closed n k c : nth_error (o_kids r) n = Some k -> plab ids q (child n (Kid (forget k) (oelab k)) c).
Proof.
  intros Hk. unfold child. cbn [k_doc k_tree plab]. split; [|auto].
  destruct (o_open k) eqn:Eo.
  - right. intros j [= <-]. unfold oid_at. rewrite (onode_at_app _ _ n Hq), Hk, Eo, o_info_forget. reflexivity.
  - left. destruct k; try discriminate. reflexivity.
Qed.

Lemma pfold_closed (join : foldenv -> ctx -> shape) :
  (forall e c, penv_closed true (Some e) -> plab ids q (join e c)) ->
  forall ks i prev acc pre, o_kids r = pre ++ prev :: ks -> length pre = i ->
  (forall c, plab ids q (acc c)) ->
  forall c, plab ids q (fold_kids join i (Kid (forget prev) (oelab prev)) (map (fun k => Kid (forget k) (oelab k)) ks) acc c).
Proof.
  intros Hj. induction ks as [|k ks IH]; intros i prev acc pre Hks Hi Hacc c; simpl; auto.
  apply IH with (pre := pre ++ [prev]); auto.
  - rewrite <- app_assoc. exact Hks.
  - rewrite app_length. simpl. lia.
  - intros c'. apply Hj; auto. intros _. eexists _, k. split; [reflexivity|]. cbn [fe_index fe_right fe_left]. repeat split; auto.
    rewrite Hks, nth_error_app2 by lia. replace (S i - length pre) with 1 by lia. reflexivity.
Qed.

Lemma pbranch_closed s e : plab ids q s ->
  plab ids q (match forget r with RBranch _ _ => s | RText _ _ => SFail (FErr e) end).
Proof. intros. destruct (forget r); simpl; auto. Qed.

Lemma pnote_closed n : forall infold injoin fe c, wsc infold injoin n -> penv_closed injoin fe ->
  plab ids q (elab_note (forget r) (okids_of r) n fe c).
Proof.
  assert (Hlen : length (okids_of r) = length (o_kids r)) by (unfold okids_of; apply map_length).
  induction n as [| | |s| |n IH|pre l n IH|a IHa b IHb|a IHa b IHb|cd ps a IHa b IHb|i|l n IH| |z IHz o IHo m IHm|f IHf jn IHj| |];
    intros infold injoin fe c Hw He; cbn [elab_note]; cbv zeta; try exact I.
  - destruct (forget r); exact I.
  - eapply IH; eauto.
  - eapply IH; eauto.
  - destruct Hw. split; [eapply IHa|eapply IHb]; eauto.
  - destruct Hw. destruct (x_flat c); [eapply IHa; eauto|]. split; [eapply IHa|eapply IHb]; eauto.
  - destruct Hw as (Hps & Hwa & Hwb).
    assert (Hgo : forall x, plab ids q (if i_cond (r_info x) cd then elab_note (forget r) (okids_of r) a fe c else elab_note (forget r) (okids_of r) b fe c)).
    { intros x. destruct (i_cond _ cd); [eapply IHa|eapply IHb]; eauto. }
    destruct ps as [|k| |]; auto.
    + apply pbranch_closed. destruct (kid_number k _); [|exact I].
      destruct (nth_error _ _); [auto|exact I].
    + destruct (He Hps) as (e & k & -> & _). auto.
    + destruct (He Hps) as (e & k & -> & _). auto.
  - apply pbranch_closed. destruct (kid_number i _) as [m|] eqn:En; [|exact I].
    rewrite <- kid_number_eq in En. apply normalize_lt in En. rewrite Hlen in En.
    destruct (nth_error (o_kids r) m) as [y|] eqn:Ey; [|apply nth_error_None in Ey; lia].
    rewrite (PPeek7.kid_get _ _ Ey). apply pchild_closed; auto.
  - eapply IH; eauto.
  - destruct Hw as (Hz & Ho & Hm). apply pbranch_closed.
    destruct (okids_of r) as [|k1 [|k2 ks]] eqn:E; [eapply IHz|eapply IHo|eapply IHm]; eauto.
  - destruct Hw as (Hin & Hwf & Hwj). apply pbranch_closed.
    assert (Hk : okids_of r = map (fun k => Kid (forget k) (oelab k)) (o_kids r)) by reflexivity.
    pose proof (@pfold_closed (fun e c => elab_note (forget r) (okids_of r) jn (Some e) c)
      (fun e c H1 => IHj true true (Some e) c Hwj H1)) as Hfold.
    destruct (o_kids r) as [|k1 ks] eqn:Ek; cbn [map] in Hk; rewrite Hk at 1; [exact I|].
    apply Hfold with (pre := []); auto.
    intros c'. eapply IHf; eauto. intros H; discriminate.
  - destruct (He Hw) as (e & k & -> & _ & _ & H). auto.
  - destruct (He Hw) as (e & k & -> & H1 & -> & _). apply pchild_closed; auto.
Qed.

End Node.

Theorem oelab_lab r : ovalid r -> forall q c, onode_at root q = Some r -> plab ids q (oelab r c).
Proof.
  induction r as [i s|i ks IH|i] using odoc_ind'; intros Hv q c Hq.
  - rewrite oelab_eq by reflexivity. eapply pnote_closed with (infold := false) (injoin := false); auto.
    + intros n k H. destruct n; discriminate.
    + apply valid_wsc, (ovalid_note Hv). reflexivity.
    + intros H; discriminate.
  - rewrite oelab_eq by reflexivity. eapply pnote_closed with (infold := false) (injoin := false); auto.
    + intros n k Hk c'. assert (Hin : In k ks) by (eapply nth_error_In; eauto).
      apply IH; auto.
      * apply (ovalid_kid _ Hv). exact Hin.
      * rewrite (onode_at_app _ _ n Hq). exact Hk.
    + apply valid_wsc, (ovalid_note Hv). reflexivity.
    + intros H; discriminate.
  - exact I.
Qed.

End Lab.

(** The root of the printer's search. *)
Theorem open_window o d w st path ft ku kd ups downs l r b c a :
  orep o d -> ovalid o -> ounique o -> ft = FStart \/ ft = FEnd ->
  leads (oid_at o) [] (open_layout w o st) path b c a ->
  above (pre_of ft b c) ku ups l -> below (post_of ft c a) kd r downs ->
  ev (fun n => window n d w path ft st ku kd) (Ok (ups, FocusedLine l r, downs)).
Proof.
  intros Hrep Hv Hu Hft Hl Ha Hb.
  assert (Hgap : forall g, open_layout w o st = [Gap g] -> (forall j', oid_at o [] = Some j' -> path = [] -> False) -> False \/ path = []).
  { intros g Hg _. inversion Hl as [|q l0 j i m c1 r1 p1 b1 c2 a1 Hj E]; auto. left. rewrite Hg in E.
    destruct m as [|x [|y m]]; discriminate. }
  assert (Hno : forall g, open_layout w o st <> [Gap g]).
  { intros g Hg. rewrite Hg in Hl. inversion Hl as [q l0|q l0 j i m c1 r1 p1 b1 c2 a1 Hj E]; subst.
    - destruct Hft as [->| ->]; cbn [pre_of post_of] in *.
      + destruct Hb as [(d0 & all & E & _)|(d0 & ind & z & E & _)]; destruct d0; discriminate.
      + destruct Ha as [(d0 & all & E & _)|(z & ind & u & E & _)].
        * destruct d0; discriminate.
        * simpl in E. destruct z as [|x [|y z]]; discriminate.
    - destruct m as [|x [|y m]]; discriminate. }
  clear Hgap.
  assert (Ho : opens (oelab o (root_ctx (forget o) st)) = true).
  { unfold open_layout, peek_doc in Hno. destruct (opens _); auto. elim (Hno GapOther). reflexivity. }
  assert (Hopen : o_open o = true).
  { destruct o; auto; discriminate. }
  destruct (orep_notation Hrep) as (nt & sty & H1 & H2 & H3). destruct (H3 Hopen) as (-> & -> & H4).
  set (sty0 := match st with Some s => style_combine s (i_style (o_info o)) | None => i_style (o_info o) end).
  apply (@pwindow _ _ _ (fun _ _ => True)) with (ids := oid_at o) (d0 := Delayed (i_note (o_info o)) d false [] sty0 None)
    (j := i_id (o_info o)) (s := oelab o (root_ctx (forget o) st)) (b := b) (c := c) (a := a); auto.
  - unfold with_optional_style. rewrite H1, H2. cbn [lift bind]. unfold sty0. destruct st; reflexivity.
  - cbn [dl_doc]. rewrite H4. reflexivity.
  - unfold root_ctx. rewrite o_info_forget. apply orep_unfolds; auto.
  - unfold oid_at. simpl. rewrite Hopen. reflexivity.
  - apply oelab_lab; auto.
Qed.

End PPeek8.
