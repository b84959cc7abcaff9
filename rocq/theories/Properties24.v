(** C58: how much work printing is. *)
From Verif Require Export PCost4 PWork PFinite PFocus2.

Set Implicit Arguments.

Section Work.
Context {pd : PrettyDoc} {env : Env} {ideq : IdEq pd}.

Lemma den_wt s : forall i c, den i s (Ok c) -> wt (3 * parts s) c.
Proof.
  induction s as [f| | |ind|t|a IHa b IHb|a IHa b IHb|n j s IH|]; intros i c H; destruct c; try contradiction; try discriminate; cbn [parts].
  1-4,8: apply wt_leaf; simpl; auto; lia.
  - destruct H as [[_ Ha] [_ Hb]]. apply wt_concat with (ma := 3 * parts a) (mb := 3 * parts b); [lia| |]; intros c E.
    + rewrite E in Ha. eauto.
    + rewrite E in Hb. eauto.
  - destruct H as [[_ Ha] [_ Hb]]. apply wt_choice with (ma := 3 * parts a) (mb := 3 * parts b); [lia|lia| |]; intros c E.
    + rewrite E in Ha. eauto.
    + rewrite E in Hb. eauto.
  - destruct H as (_ & _ & H). apply wt_child with (m' := 3 * parts s); [lia|]. intros c E. rewrite E in H. eauto.
Qed.

Lemma tree_wt doc st root : doc_tree doc st root ->
  forall d c, with_optional_style doc st = Ok d -> eval d = Ok c -> wt (3 * parts (snd root)) c.
Proof.
  intros Ht d c Hd Hc. unfold doc_tree in Ht. rewrite Hd in Ht. destruct Ht as [_ H]. rewrite Hc in H. eapply den_wt; eauto.
Qed.

Lemma tree_window doc st root : doc_tree doc st root ->
  forall n w path ft ku kd, window_cost n doc w path ft st ku kd <= 36 * (parts (snd root) + 2) ^ 2.
Proof.
  intros Ht n w path ft ku kd. set (S := parts (snd root)).
  eapply Nat.le_trans; [apply window_work with (K := 4 * (2 + 3 * S) + 20) (T := 2 + 3 * S) (a := 3 * S); try lia; apply tree_wt; auto|].
  simpl. nia.
Qed.

Lemma tree_string doc root : doc_tree doc None root ->
  forall n w, to_string_cost n doc w <= 36 * (parts (snd root) + 2) ^ 2.
Proof.
  intros Ht n w. set (S := parts (snd root)).
  eapply Nat.le_trans; [apply to_string_work with (K := 4 * (2 + 3 * S) + 20) (T := 2 + 3 * S) (a := 3 * S); try lia; apply tree_wt; auto|].
  simpl. nia.
Qed.

(** C58.  However wide the page is and wherever the focus is, printing a window
    of a document, of any height, takes at most quadratically many steps in the
    number of parts of its notation tree, of which those in only one option of
    each choice count. *)
Theorem C58_window_work r doc : rep r doc -> valid_doc r ->
  forall n w path ft st ku kd,
  window_cost n doc w path ft st ku kd <= 36 * (parts (snd (doc_shape r st)) + 2) ^ 2.
Proof. intros Hr Hv n w path ft st ku kd. apply tree_window. apply rep_tree; auto. Qed.

Theorem C58_to_string_work r doc : rep r doc -> valid_doc r ->
  forall n w, to_string_cost n doc w <= 36 * (parts (snd (doc_shape r None)) + 2) ^ 2.
Proof. intros Hr Hv n w. apply tree_string. apply rep_tree; auto. Qed.

(** C58.  So if no node displays one of its children twice, the steps are at most
    quadratically many in the size of the document: nested choices do not
    multiply. *)
Theorem C58_window_quadratic r doc : rep r doc -> valid_doc r -> displays_once r ->
  forall n w path ft st ku kd, window_cost n doc w path ft st ku kd <= 36 * (doc_parts r + 2) ^ 2.
Proof.
  intros Hr Hv Ho n w path ft st ku kd. eapply Nat.le_trans; [eapply C58_window_work; eauto|].
  apply Nat.mul_le_mono_l, Nat.pow_le_mono_l. pose proof (doc_parts_bound Ho (root_ctx r st)). simpl. lia.
Qed.

Theorem C58_to_string_quadratic r doc : rep r doc -> valid_doc r -> displays_once r ->
  forall n w, to_string_cost n doc w <= 36 * (doc_parts r + 2) ^ 2.
Proof.
  intros Hr Hv Ho n w. eapply Nat.le_trans; [eapply C58_to_string_work; eauto|].
  apply Nat.mul_le_mono_l, Nat.pow_le_mono_l. pose proof (doc_parts_bound Ho (root_ctx r None)). simpl. lia.
Qed.

(** C58.  Every finite document, valid or not, has such a bound, for all widths,
    paths, targets and windows at once. *)
Theorem C58_finite_work doc : finite_doc doc -> forall st, exists bound,
  forall n w path ft ku kd, window_cost n doc w path ft st ku kd <= bound.
Proof.
  intros Hf st. destruct (finite_tree st Hf) as (root & Ht & _).
  exists (36 * (parts (snd root) + 2) ^ 2). apply tree_window; auto.
Qed.

End Work.
