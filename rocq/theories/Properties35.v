(** Where the focus goes when nodes may be displayed several times (C68).
    Vocabulary: SpecFirst.  Nothing here assumes that a node is displayed once. *)
From Verif Require Export PFirst3 Properties2.

Set Implicit Arguments.

Section FirstDisplay.
Context {pd : PrettyDoc} {env : Env} {ideq : IdEq pd}.
Variables (r : rdoc) (doc : D).
Hypothesis Hrep : rep r doc.
Hypothesis Hv : valid_doc r.
Hypothesis Hu : unique_ids (id_at r).
Variables (w : N) (st : option Sty) (es : list event).
Hypothesis Hes : layout w (doc_shape r st) = Some es.

(** The first display of a node is a part of the layout, and there is only one. *)
Theorem C68_first_display_unique path before during after before' during' after' :
  first_display es path before during after -> first_display es path before' during' after' ->
  es = before ++ during ++ after /\ before = before' /\ during = during' /\ after = after'.
Proof. intros H H'. split; [eapply fd_parts; eauto|eapply fd_det; eauto]. Qed.

(** It is a display of that node: it starts where the node starts, and ends where it ends. *)
Theorem C68_first_display_displayed path before during after :
  first_display es path before during after ->
  displayed es path /\ at_start before path /\ at_end (before ++ during) after path.
Proof.
  intros H. pose proof (fd_parts H) as E. destruct H as [|q a b1 j i b2 b3 c H H1 H2 H3 H4].
  - split; [exists [], es; auto|]. split; left; auto.
  - split.
    { exists (a ++ b1 ++ EEnter j i :: b2), (EExit j i :: b3 ++ c). split; [|exact H3].
      rewrite E. rewrite <- !app_assoc. reflexivity. }
    split.
    + right. exists (a ++ b1), j, i. rewrite <- app_assoc. rewrite H1. auto.
    + right. exists (b3 ++ c), j, i. split; auto. rewrite <- !app_assoc. exact H3.
Qed.

(** The start of a node: before its first display. *)
Theorem C68_start path before during after :
  first_display es path before during after ->
  exists ups fl downs, printed doc w path FStart st ups fl downs /\
    lines_of before = rev ups ++ [left_segments fl] /\ lines_of (during ++ after) = right_segments fl :: downs.
Proof.
  intros Hfd. destruct (@first_accepted pd env ideq r doc Hrep Hv Hu w st es Hes path (FStart) before during after ltac:(discriminate) Hfd) as [Hch Hr].
  destruct Hr as [(ups & fl & downs & pre & post & Hp & [E Hc] & H1 & H2)|[(H & _)|(H & _)]]; try discriminate.
  destruct (chain_fd Hv Hu _ _ Hes _ Hc E) as (b' & c' & Hfd' & ->).
  destruct (fd_det Hfd Hfd') as (<- & <- & <-). exists ups, fl, downs. auto.
Qed.

(** The end of a node: after its first display. *)
Theorem C68_end path before during after :
  first_display es path before during after ->
  exists ups fl downs, printed doc w path FEnd st ups fl downs /\
    lines_of (before ++ during) = rev ups ++ [left_segments fl] /\ lines_of after = right_segments fl :: downs.
Proof.
  intros Hfd. destruct (@first_accepted pd env ideq r doc Hrep Hv Hu w st es Hes path (FEnd) before during after ltac:(discriminate) Hfd) as [Hch Hr].
  destruct Hr as [(ups & fl & downs & pre & post & Hp & [E [Hend (a & mid & j & -> & Hc & HN & Hmid)]] & H1 & H2)|[(H & _)|(H & _)]]; try discriminate.
  rewrite <- app_assoc in E.
  destruct (chain_fd Hv Hu _ _ Hes _ Hc E) as (b' & c' & Hfd' & E').
  destruct (fd_det Hfd Hfd') as (<- & <- & <-).
  assert (Hbc : during = mid /\ after = post) by (eapply first_ends; eauto). destruct Hbc as [-> ->].
  exists ups, fl, downs. auto.
Qed.

(** A path is accepted exactly when it leads through first displays. *)
Theorem C68_accepted_iff path ft :
  ft = FStart \/ ft = FEnd ->
  ((exists before during after, first_display es path before during after) <->
   exists ups fl downs, printed doc w path ft st ups fl downs).
Proof.
  intros Hft. split.
  - intros (a & b & c & H). destruct Hft as [-> | ->].
    + destruct (C68_start H) as (ups & fl & downs & Hp & _). eauto.
    + destruct (C68_end H) as (ups & fl & downs & Hp & _). eauto.
  - intros (ups & fl & downs & (up & down & H1 & _)).
    destruct (@first_lab_spec _ _ _ r doc Hrep Hv Hu w path ft st) as (res & Hev & H).
    { intros H. destruct Hft; subst; discriminate. }
    pose proof (ev_det Hev H1). subst res. destruct H as (ru & rd & _ & _ & _ & _ & H). rewrite Hes in H.
    destruct H as (? & ? & pre & post & _ & _ & Hdiv & _). eapply first_divided; eauto.
Qed.

(** Otherwise the error names the first step that leads out of what is displayed first. *)
Theorem C68_rejected path1 i path2 ft before during after :
  (is_text_target ft = true -> splittable r) ->
  first_display es path1 before during after -> ~ shows_child before during path1 i ->
  ev (fun n => pretty_print n doc w (path1 ++ i :: path2) ft st) (Fail (FErr (InvalidPath i))).
Proof. intros. eapply first_rejected; eauto. Qed.

(** A step that does not lead out of it leads to the first display of the child. *)
Theorem C68_child_first path i before during after :
  first_display es path before during after -> shows_child before during path i ->
  exists before' during' after', first_display es (path ++ [i]) before' during' after' /\
    (exists x, before' = before ++ x) /\ (exists y, after' = y ++ after).
Proof.
  intros Hfd Hsh.
  assert (Hacc : (exists a b c, first_display es (path ++ [i]) a b c) \/ exists a b c, first_display es path a b c /\ ~ shows_child a b path i).
  { destruct (@first_lab_spec _ _ _ r doc Hrep Hv Hu w (path ++ [i]) FStart st) as (res & Hev & H); [discriminate|].
    rewrite Hes in H. destruct res as [[[up fl] down]|f].
    - left. destruct H as (ru & rd & _ & _ & _ & _ & ? & ? & pre & post & _ & _ & Hdiv & _). eapply first_divided; eauto.
    - destruct H as [[_ H]|[(p1 & i' & p2 & E & -> & Hm)|[(H & _)|(n & H & _)]]]; try discriminate.
      destruct (missing_no_child Hv Hu _ _ Hes Hm) as (a & b & c & H1 & H2).
      destruct p2 as [|k p2] using rev_ind.
      + apply app_inj_tail in E as [-> ->]. right. eauto 10.
      + exfalso. clear IHp2. change (p1 ++ i' :: p2 ++ [k]) with (p1 ++ (i' :: p2) ++ [k]) in E. rewrite app_assoc in E.
        apply app_inj_tail in E as [-> _].
        assert (Hp : exists a' b' c', first_display es (p1 ++ [i']) a' b' c').
        { apply (@fd_prefix _ es (p1 ++ [i']) p2 before during after). rewrite <- app_assoc. exact Hfd. }
        destruct Hp as (a2 & b2 & c2 & H3). apply first_shows in H3 as (a3 & b3 & c3 & H4 & H5).
        destruct (fd_det H1 H4) as (<- & <- & <-). contradiction. }
  destruct Hacc as [(a & b & c & H)|(a & b & c & H & Hno)].
  - exists a, b, c. split; [exact H|].
    apply fd_inv in H as (a0 & b1 & j & b3 & c0 & H & _ & _ & _ & _ & -> & ->).
    destruct (fd_det Hfd H) as (<- & _ & <-). split; [eauto|]. exists (EExit j i :: b3). reflexivity.
  - exfalso. destruct (fd_det Hfd H) as (<- & <- & <-). contradiction.
Qed.

Lemma mark_path a mid j rest path : es = a ++ mid ++ rest -> NPL r path j -> ~ In (EMark j) mid ->
  forall x j' y, mid = x ++ EMark j' :: y -> open_path (a ++ x) <> path.
Proof.
  intros E HN Hno x j' y -> Ho. destruct (layout_good Hv _ _ Hes) as [G _].
  rewrite E, <- app_assoc, app_assoc in G. apply good_app in G as [_ G]. simpl in G. destruct G as [G _].
  change (rev (open_from [] (a ++ x))) with (open_path (a ++ x)) in G. rewrite Ho in G.
  unfold NPL in HN. assert (j' = j) by congruence. subst j'. apply Hno. apply in_or_app. right. left. reflexivity.
Qed.

(** A mark: the node's next one, from the start of its first display; or none. *)
Theorem C68_mark path before during after :
  first_display es path before during after ->
  (exists ups fl downs mid j rest, printed doc w path FMark st ups fl downs /\
     during ++ after = mid ++ EMark j :: rest /\ next_mark before mid path /\
     lines_of (before ++ mid ++ [EMark j]) = rev ups ++ [left_segments fl] /\
     lines_of rest = right_segments fl :: downs) \/
  (ev (fun n => pretty_print n doc w path FMark st) (Fail (FErr MissingFocusMark)) /\
   forall x j y, during ++ after = x ++ EMark j :: y -> open_path (before ++ x) <> path).
Proof.
  intros Hfd. pose proof (fd_parts Hfd) as E0.
  destruct (@first_accepted pd env ideq r doc Hrep Hv Hu w st es Hes path (FMark) before during after ltac:(discriminate) Hfd) as [Hch Hr].
  destruct Hr as [(ups & fl & downs & pre & post & Hp & [E (a & mid & j & -> & Hc & HN & Hmid)] & H1 & H2)|[(_ & Hf & j & HN & Hno)|(H & _)]]; try discriminate.
  - left. rewrite <- !app_assoc in E. simpl in E.
    destruct (chain_fd Hv Hu _ _ Hes _ Hc E) as (b' & c' & Hfd' & E').
    destruct (fd_det Hfd Hfd') as (<- & <- & <-).
    exists ups, fl, downs, mid, j, post. split; [exact Hp|]. split; [auto|]. split; [|auto]. split.
    + destruct (layout_good Hv _ _ Hes) as [G _]. eapply good_mark; [exact Hu|exact G| |exact HN].
      rewrite E, <- app_assoc. reflexivity.
    + eapply mark_path; eauto.
  - right. split; [exact Hf|]. intros x j' y E. eapply (@mark_path before (during ++ after) j []); eauto.
    rewrite app_nil_r. exact E0.
Qed.

(** A text: the first one displayed from the start of the first display of the
    node; or none. *)
Theorem C68_text path before during after n :
  splittable r -> first_display es path before during after ->
  (exists ups fl downs mid j t rest lbefore lafter, printed doc w path (FText n) st ups fl downs /\
     during ++ after = mid ++ EText j t :: rest /\ tx_from_text t = true /\
     (forall j' t', In (EText j' t') mid -> tx_from_text t' = false) /\
     lines_of (before ++ mid) = rev ups ++ [lbefore] /\ lines_of rest = lafter :: downs /\
     left_segments fl = lbefore ++ [Segment (firstn n (tx_str t)) (str_width (firstn n (tx_str t))) (tx_style t)] /\
     right_segments fl = Segment (skipn n (tx_str t)) (str_width (skipn n (tx_str t))) (tx_style t) :: lafter) \/
  (ev (fun k => pretty_print k doc w path (FText n) st) (Fail (FErr MissingText)) /\
   forall j' t', In (EText j' t') (during ++ after) -> tx_from_text t' = false).
Proof.
  intros Hs Hfd. pose proof (fd_parts Hfd) as E0.
  assert (Hno : forall mid, existsb is_ftext mid = false -> forall j' t', In (EText j' t') mid -> tx_from_text t' = false).
  { intros mid Hm j' t' Hi. apply not_true_iff_false. intros Ht. apply not_true_iff_false in Hm. apply Hm.
    apply existsb_exists. exists (EText j' t'). auto. }
  destruct (@first_accepted pd env ideq r doc Hrep Hv Hu w st es Hes path (FText n) before during after (fun _ => Hs) Hfd) as [Hch Hr].
  destruct Hr as [(ups & fl & downs & pre & post & Hp & Hdiv & H1 & H2)|[(H & _)|(_ & Hf & Hm)]]; [|discriminate|].
  - left. destruct Hdiv as (a & mid & j & t & rest & E & -> & -> & Hc & Hmid & Ht).
    destruct (chain_fd Hv Hu _ _ Hes _ Hc E) as (b' & c' & Hfd' & E').
    destruct (fd_det Hfd Hfd') as (<- & <- & <-).
    rewrite app_assoc in H1.
    destruct (lines_app (before ++ mid) [EText j (fst (split_at t n))] []) as (l & ls & A1 & A2).
    unfold lines_of in H1. rewrite A2 in H1. simpl in H1. apply app_inj_tail in H1 as [-> H1].
    simpl in H2. destruct (lines_cur rest [text_seg (snd (split_at t n))]) as (x & ls & B1 & B2).
    cbn [app text_seg tx_str tx_width tx_style split_at snd] in B2. rewrite B2 in H2. injection H2 as H2 ->.
    exists ups, fl, downs, mid, j, t, rest, l, x. repeat (split; [solve [eauto]|]). auto.
  - right. eauto.
Qed.

(** When every node is displayed at most once, first displays are displays: C03,
    C04, C05 and C06 are the special case. *)
Theorem C68_displayed_once path : linear es ->
  (displayed es path <-> exists before during after, first_display es path before during after).
Proof.
  intros Hlin. rewrite (C68_accepted_iff path (or_introl eq_refl)).
  apply (C06_accepted_iff_displayed Hrep Hv Hu _ _ Hes Hlin path (or_introl eq_refl)).
Qed.

End FirstDisplay.
