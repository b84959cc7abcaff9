(** Validation (C21-C23). *)
From Verif Require Export PValid2 Properties6.

Set Implicit Arguments.

Section Validate.
Context {L C : Type}.

(** C21 / C23.  validate() accepts a notation exactly when no part of it has one
    of the flaws of [flaw] (SpecValid). *)
Theorem C21_accepts_exactly_flawless (n : notation L C) :
  validate n = Ok tt <-> forall c f B x e, part_of n c f B x -> ~ flaw c f B x e.
Proof.
  pose proof (validate_spec n) as H. destruct (validate n) as [[]|[e| |]]; try contradiction.
  - split; auto.
  - split; [discriminate|]. intros Hn. destruct H as (c & f & B & x & Ho & Hf). destruct (Hn _ _ _ _ _ Ho Hf).
Qed.

(** C21.  Otherwise it reports a flaw that the notation has. *)
Theorem C21_reported_flaw_is_real (n : notation L C) e :
  validate n = Err e -> exists c f B x, part_of n c f B x /\ flaw c f B x e.
Proof. intros H. pose proof (validate_spec n) as Hs. rewrite H in Hs. exact Hs. Qed.

(** C21.  It always says one or the other. *)
Theorem C21_validate_total (n : notation L C) : validate n = Ok tt \/ exists e, validate n = Err e.
Proof. pose proof (validate_spec n) as H. destruct (validate n) as [[]|[e| |]]; try contradiction; eauto. Qed.

(** C21, rule by rule: what an accepted notation looks like. *)
Theorem C21_well_scoped (n : notation L C) : validate n = Ok tt ->
  (forall c f B, part_of n c f B Left -> f = Some InFoldJoin) /\
  (forall c f B, part_of n c f B Right -> f = Some InFoldJoin) /\
  (forall c f B k x y, part_of n c f B (Check k LeftChild x y) -> f = Some InFoldJoin) /\
  (forall c f B k x y, part_of n c f B (Check k RightChild x y) -> f = Some InFoldJoin) /\
  (forall c f B x y, part_of n c f B (Fold x y) -> f = None) /\
  (forall c f B x y z, part_of n c f B (Count x y z) -> c = None) /\
  (forall c f B, part_of n c f B Text -> c = None /\ f = None) /\
  (forall c f B i, part_of n c f B (Child i) -> c <> Some CZero /\ (c = Some COne -> i = 0%Z \/ i = (-1)%Z)) /\
  (forall c f B k i x y, part_of n c f B (Check k (CPChild i) x y) -> c <> Some CZero /\ (c = Some COne -> i = 0%Z \/ i = (-1)%Z)).
Proof.
  intros H. pose proof (proj1 (C21_accepts_exactly_flawless n) H) as F.
  assert (J : forall f : option fold_context, (f <> Some InFoldJoin -> False) -> f = Some InFoldJoin).
  { intros [[]|] K; auto; exfalso; apply K; discriminate. }
  assert (I : forall i : Z, (i <> 0%Z -> i <> (-1)%Z -> False) -> i = 0%Z \/ i = (-1)%Z).
  { intros i K. destruct (Z.eq_dec i 0), (Z.eq_dec i (-1)); auto. exfalso; auto. }
  repeat split.
  - intros c f B Hw. apply J. intros K. eapply F; [exact Hw|constructor; auto].
  - intros c f B Hw. apply J. intros K. eapply F; [exact Hw|constructor; auto].
  - intros c f B k x y Hw. apply J. intros K. eapply F; [exact Hw|constructor; auto].
  - intros c f B k x y Hw. apply J. intros K. eapply F; [exact Hw|constructor; auto].
  - intros c f B x y Hw. destruct f; auto. exfalso. eapply F; [exact Hw|constructor; discriminate].
  - intros c f B x y z Hw. destruct c; auto. exfalso. eapply F; [exact Hw|constructor; discriminate].
  - destruct c; auto. exfalso. eapply F; [exact H0|constructor; discriminate].
  - destruct f; auto. exfalso. eapply F; [exact H0|apply fl_text_fold; discriminate].
  - intros ->. eapply F; [exact H0|constructor].
  - intros ->. apply I. intros K1 K2. eapply F; [exact H0|constructor; auto].
  - intros ->. eapply F; [exact H0|constructor].
  - intros ->. apply I. intros K1 K2. eapply F; [exact H0|constructor; auto].
Qed.

(** C23.  A duplicate FocusMark is reported only for a mark such that, whatever
    way the choices before it are resolved, another mark was displayed before it
    (in the same part of the notation). *)
Theorem C23_duplicate_mark_is_certain (n : notation L C) :
  validate n = Err MultipleFocusMarks ->
  exists c f B, part_of n c f B FocusMark /\ (exists l, B l) /\ forall l, B l -> In DMark l.
Proof.
  intros H. destruct (C21_reported_flaw_is_real n H) as (c & f & B & x & Ho & Hf). inversion Hf as [| | | | | | | | | | | | | |? ? ? Hm E1 E2 E3 E4]; subst.
  exists c, f, B. split; auto. split.
  - clear H Hf Hm. unfold part_of in Ho. remember (fun l => l = []) as B0. assert (HB : exists l, B0 l) by (subst; eauto).
    clear HeqB0. remember None as c0 eqn:E0 in Ho at 1. clear E0. remember None as f0 eqn:E0 in Ho at 1. clear E0.
    remember FocusMark as x. clear Heqx.
    assert (R : forall m : notation L C, exists l, resolves m l).
    { induction m; simpl; eauto.
      - destruct IHm1 as (l1 & H1), IHm2 as (l2 & H2). eauto 10.
      - destruct IHm1 as (l1 & H1). eauto.
      - destruct IHm1 as (l1 & H1). eauto.
      - destruct IHm1 as (l1 & H1). eauto. }
    induction Ho; eauto. apply IHHo. destruct HB as (l & Hl). destruct (R n) as (l' & Hl'). exists (l ++ l'), l, l'. auto.
  - intros l Hl. specialize (Hm l Hl). clear -Hm. unfold marked in Hm.
    assert (G : forall l b, fold_left (fun b i => match i with DMark => true | DUnknown => false | _ => b end) l b = true -> b = true \/ In DMark l).
    { induction l0 as [|[] l0 IH]; simpl; intros b H; auto; apply IH in H as [H|H]; auto. discriminate. }
    apply G in Hm as [Hm|Hm]; auto. discriminate.
Qed.

(** C23, conversely: if a mark is certainly preceded by another one (with
    nothing unknown in between), then the notation is rejected. *)
Theorem C23_certain_duplicate_rejected (n : notation L C) c f B :
  part_of n c f B FocusMark -> (forall l, B l -> marked l = true) -> validate n <> Ok tt.
Proof.
  intros Hw Hm E. eapply (proj1 (C21_accepts_exactly_flawless n) E); [exact Hw|]. constructor. exact Hm.
Qed.

Lemma childless_plain (n : notation L C) : forall h ctx h', childless n = true -> ctx_fold ctx = None ->
  validate_rec n h ctx = Ok h' -> plain n.
Proof.
  induction n as [| | |s| |n IH|pre l n IH|a IHa b IHb|a IHa b IHb|cd ps a IHa b IHb|i|l n IH| |z IHz o IHo m IHm|fn IHf jn IHj| |];
    intros h ctx h' Hc Hf Hv; cbn [childless validate_rec plain] in *; eauto; try discriminate.
  - apply andb_true_iff in Hc as [Ha Hb]. destruct (validate_rec a h ctx) eqn:E1; [|discriminate]. simpl in Hv. eauto.
  - apply andb_true_iff in Hc as [Ha Hb]. destruct (validate_rec a h ctx) eqn:E1; [|discriminate]. simpl in Hv.
    destruct (validate_rec b h ctx) eqn:E2; [|discriminate]. eauto.
  - apply andb_true_iff in Hc as [Ha Hb]. destruct (validate_pos ctx ps); [|discriminate]. simpl in Hv. destruct (validate_rec a h ctx) eqn:E1; [|discriminate]. simpl in Hv.
    destruct (validate_rec b h ctx) eqn:E2; [|discriminate]. eauto.
  - apply andb_true_iff in Hc as [Hc Hm]. apply andb_true_iff in Hc as [Hz Ho]. destruct (is_some (ctx_count ctx)); [discriminate|].
    destruct (validate_rec z h _) eqn:E1; [|discriminate]. simpl in Hv. destruct (validate_rec o h _) eqn:E2; [|discriminate]. simpl in Hv.
    destruct (validate_rec m h _) eqn:E3; [|discriminate]. split; [|split]; [eapply IHz|eapply IHo|eapply IHm]; [| |eassumption| | |eassumption| | |eassumption]; auto.
  - unfold in_join in Hv. rewrite Hf in Hv. discriminate.
  - unfold in_join in Hv. rewrite Hf in Hv. discriminate.
Qed.

End Validate.

Section Childless.
Context {pd : PrettyDoc} {ideq : IdEq pd}.
Variables (uw : str -> N) (cf : char -> bool).
Variables (r : rdoc) (doc : D).
Hypothesis Hrep : rep r doc.
Hypothesis Hv : valid_doc r.
Hypothesis Hchildless : childless (i_note (r_info r)) = true.
Hypothesis Hm : matched r.
Notation release := (Build_Env uw cf false).
Notation debug := (Build_Env uw cf true).

Lemma childless_layout w st : exists es, @layout pd release w (@doc_shape pd release r st) = Some es.
Proof.
  pose proof (@matched_no_fail pd release r st Hv Hm) as Hn. simpl in Hn.
  assert (Hval : exists h', validate_rec (i_note (r_info r)) h_default ctx_new = Ok h').
  { assert (validate (i_note (r_info r)) = Ok tt) by (inversion Hv; subst; auto). unfold validate in H.
    destruct (validate_rec _ _ _); [eauto|discriminate]. }
  destruct Hval as (h' & Hval). pose proof (@childless_plain _ _ _ _ ctx_new _ Hchildless eq_refl Hval) as Hp.
  destruct (@rend_safe pd release eq_refl w (elab r (root_ctx r st)) Hn (i_id (r_info r)) look_end pos0) as (es & p' & l & Hr & _).
  - intros rem eol. discriminate.
  - intros l Hl. rewrite elab_eq in Hl, Hn. apply sitems_note in Hl; auto.
    destruct (@run_valid _ _ _ _ _ _ Hval l false Hl) as (e' & He & _); [intros E; discriminate E|]. simpl. rewrite He. discriminate.
  - exists es. unfold layout, doc_shape. rewrite Hr. reflexivity.
Qed.

(** C22.  A document whose root notation is validated, contains no Child and no
    Fold, and matches its node, is printed, at every width (in builds without
    overflow checks). *)
Theorem C22_childless_is_printed w st : exists fl downs, @printed pd release doc w [] FStart st [] fl downs.
Proof.
  destruct (childless_layout w st) as (es & Hes).
  destruct (@C01_layout_is_printed pd release ideq r doc Hrep Hv w st es Hes) as (fl & downs & Hp & _). eauto.
Qed.

(** C22.  ... and never fails with TextAfterEndOfLine, whatever the focus. *)
Theorem C22_no_text_after_end_of_line w st path ft :
  is_text_target ft = false -> ~ @print_fails pd release doc w path ft st (FErr TextAfterEndOfLine).
Proof.
  intros Hft Hf. destruct (childless_layout w st) as (es & Hes).
  destruct (@pp_spec pd release ideq _ (@val_eol pd release) (@val_ovf pd release) top) with (NP := topN) (w := w) (doc := doc) (path := path) (ft := ft) (st := st) (root := @doc_shape pd release r st)
    as (res & Hev & Hr); unfold top, topN, splits; auto.
  { intros m ->. discriminate. }
  { apply (@rep_tree pd release r doc Hrep Hv). }
  { apply (@rep_root_ok pd release r Hv). }
  rewrite Hes in Hr. destruct Hf as [Hf|(up & fl' & down & Hf & Hc)].
  - pose proof (ev_det Hev Hf). subst res.
    destruct Hr as [[_ H]|[(p1 & i & p2 & _ & H & _)|[(_ & H & _)|(n & _ & H & _)]]]; discriminate.
  - pose proof (ev_det Hev Hf). subst res. destruct Hr as (ru & rd & H1 & H2 & _ & _ & (? & ? & ? & ? & -> & -> & _)).
    destruct Hc as [Hc|Hc]; [pose proof (ev_det H1 Hc)|pose proof (ev_det H2 Hc)]; discriminate.
Qed.

(** C22, with overflow checks: if no line is too wide for a u16. *)
Theorem C22_no_text_after_end_of_line_checked w st path ft fl downs :
  is_text_target ft = false ->
  @printed pd release doc w [] FStart st [] fl downs -> narrow_lines (all_lines [] fl downs) ->
  ~ @print_fails pd debug doc w path ft st (FErr TextAfterEndOfLine).
Proof.
  intros Hft Hp Hn Hf. destruct (@debug_layout pd ideq uw cf r doc Hrep Hv w st fl downs Hp Hn) as (es & Hes & _).
  destruct (@pp_spec pd debug ideq _ (@val_eol pd debug) (@val_ovf pd debug) top) with (NP := topN) (w := w) (doc := doc) (path := path) (ft := ft) (st := st) (root := @doc_shape pd debug r st)
    as (res & Hev & Hr); unfold top, topN, splits; auto.
  { intros m ->. discriminate. }
  { apply (@rep_tree pd debug r doc Hrep Hv). }
  { apply (@rep_root_ok pd debug r Hv). }
  rewrite Hes in Hr. destruct Hf as [Hf|(up & fl' & down & Hf & Hc)].
  - pose proof (ev_det Hev Hf). subst res.
    destruct Hr as [[_ H]|[(p1 & i & p2 & _ & H & _)|[(_ & H & _)|(n & _ & H & _)]]]; discriminate.
  - pose proof (ev_det Hev Hf). subst res. destruct Hr as (ru & rd & H1 & H2 & _ & _ & (? & ? & ? & ? & -> & -> & _)).
    destruct Hc as [Hc|Hc]; [pose proof (ev_det H1 Hc)|pose proof (ev_det H2 Hc)]; discriminate.
Qed.

End Childless.
