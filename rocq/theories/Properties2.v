(** Where the focus is, for well-behaved validated documents with distinct ids
    (C02-C07, C10, C11).

    The layout [es] is the trace of the whole document's layout (SpecLayout);
    the statements say which point of that trace the focus is at.  [linear]:
    no node is displayed twice. *)
From Verif Require Export Properties1.

Set Implicit Arguments.

Section Focus.
Context {pd : PrettyDoc} {env : Env} {ideq : IdEq pd}.
Variables (r : rdoc) (doc : D).
Hypothesis Hrep : rep r doc.
Hypothesis Hv : valid_doc r.

(** The layout [lines_of] of the tree of the document is what is printed from
    the start (this ties the layout to the printer; C08 and C12-C19 say what the
    layout is). *)
Theorem C01_layout_is_printed w st es :
  layout w (doc_shape r st) = Some es ->
  exists fl downs, printed doc w [] FStart st [] fl downs /\ lines_of es = all_lines [] fl downs.
Proof.
  intros Hes. pose proof (@full_root _ _ _ _ (val_eol) (@val_ovf _ _) doc st _ (rep_tree Hrep Hv st) (rep_root_ok Hv st) w) as H.
  rewrite Hes in H. destruct H as (fl & downs & Hp & Hl & Hd). exists fl, downs. split; auto.
  unfold all_lines. rewrite Hl. exact Hd.
Qed.

(** ... and there is nothing else that is printed. *)
Theorem C01_printed_has_layout w st path ft ups fl downs :
  is_text_target ft = false -> printed doc w path ft st ups fl downs ->
  exists es, layout w (doc_shape r st) = Some es /\ all_lines ups fl downs = lines_of es.
Proof.
  intros Hft (up & down & H1 & H2 & H3).
  pose proof (@around_root _ _ _ _ (val_eol) (@val_ovf _ _) doc st _ (rep_tree Hrep Hv st) (rep_root_ok Hv st) w _ _ _ _ _ Hft H1) as H.
  destruct (layout w (doc_shape r st)) as [es|].
  - destruct H as (ups' & downs' & H2' & H3' & H4). exists es. split; auto.
    pose proof (ev_det H2 H2') as E1. pose proof (ev_det H3 H3') as E2. injection E1 as ->. injection E2 as ->. symmetry. exact H4.
  - exfalso. destruct H as (f & _ & [H|H]); [pose proof (ev_det H2 H)|pose proof (ev_det H3 H)]; discriminate.
Qed.

(** C10.  The only failures are: a path that is not displayed, a missing mark
    or text, a mismatch between a notation and its document, text after an
    EndOfLine, and (only when compiled with overflow checks) an overflow of a
    line's width.  In particular, nothing else panics, no method is called
    outside its contract, and no document error is invented. *)
Theorem C10_only_these_failures w path ft st f :
  print_fails doc w path ft st f ->
  (exists i, In i path /\ f = FErr (InvalidPath i)) \/
  (ft = FMark /\ f = FErr MissingFocusMark) \/
  (is_text_target ft = true /\ f = FErr MissingText) \/
  f = FErr TextAfterEndOfLine \/
  (exists e, f = FErr e /\ mismatch_error e) \/
  (f = FPanic POverflow /\ ovf = true).
Proof.
  assert (Hval : forall f, val_fail f -> f = FErr TextAfterEndOfLine \/ (exists e, f = FErr e /\ mismatch_error e) \/ (f = FPanic POverflow /\ ovf = true)).
  { intros [e|p|]; simpl.
    - intros [H| ->]; [|auto]. right; left. exists e. split; auto.
    - intros [-> H]. auto.
    - intros []. }
  intros Hp.
  destruct (@total_root _ _ _ _ (val_eol) (@val_ovf _ _) doc st _ (rep_tree Hrep Hv st) (rep_root_ok Hv st) w path ft) as (res & Hev & H).
  destruct Hp as [Hp|(up & fl & down & Hp & Hc)].
  - pose proof (ev_det Hev Hp). subst res. destruct H as [H|[H|[H|(n & -> & ->)]]]; [|solve [auto 10]..].
    destruct (Hval _ H) as [?|[?|?]]; auto 10.
  - pose proof (ev_det Hev Hp). subst res. destruct H as (ru & rd & H1 & H2 & H3 & H4).
    destruct Hc as [Hc|Hc]; [pose proof (ev_det H1 Hc)|pose proof (ev_det H2 Hc)]; subst;
      [destruct (Hval _ (H3 _ eq_refl)) as [?|[?|?]]|destruct (Hval _ (H4 _ eq_refl)) as [?|[?|?]]]; auto 10.
Qed.

(** C11.  Methods that may panic outside their contract never panic. *)
Corollary C11_methods_used_as_documented w path ft st :
  ~ print_fails doc w path ft st (FPanic PMethod).
Proof.
  intros H. apply C10_only_these_failures in H.
  destruct H as [(i & _ & H)|[[_ H]|[[_ H]|[H|[(e & H & _)|[H _]]]]]]; discriminate.
Qed.

(** ** With distinct ids *)
Hypothesis Hu : unique_ids (id_at r).

Section Displayed.
Variables (w : N) (st : option Sty) (es : list event).
Hypothesis Hes : layout w (doc_shape r st) = Some es.
Hypothesis Hlin : linear es.

(** C06.  A path to a node that is not displayed is rejected, naming the first
    step that leads out of what is displayed. *)
Theorem C06_not_displayed_rejected path1 i path2 ft :
  (is_text_target ft = true -> splittable r) ->
  displayed es path1 -> ~ displayed es (path1 ++ [i]) ->
  ev (fun n => pretty_print n doc w (path1 ++ i :: path2) ft st) (Fail (FErr (InvalidPath i))).
Proof. intros. eapply path_rejected; eauto. Qed.

(** C06.  A path to a node that is displayed is accepted. *)
Theorem C06_displayed_accepted path ft :
  displayed es path -> ft = FStart \/ ft = FEnd ->
  exists ups fl downs, printed doc w path ft st ups fl downs.
Proof.
  intros Hd Hft.
  destruct (@path_accepted _ _ _ r doc Hrep Hv Hu w st es path ft Hes Hlin) as [(ups & fl & downs & pre & post & H & _)|[(-> & _)|(H & _)]]; eauto.
  - intros H. destruct Hft; subst; discriminate.
  - destruct Hft; discriminate.
  - destruct Hft; subst; discriminate.
Qed.

(** C06, the two together. *)
Theorem C06_accepted_iff_displayed path ft :
  ft = FStart \/ ft = FEnd ->
  (displayed es path <-> exists ups fl downs, printed doc w path ft st ups fl downs).
Proof.
  intros Hft. split; [intros; apply C06_displayed_accepted; auto|].
  intros (ups & fl & downs & (up & down & H1 & H2 & H3)).
  destruct (@lab_spec _ _ _ r doc Hrep Hv Hu w path ft st) as (res & Hev & H).
  { intros H. destruct Hft; subst; discriminate. }
  pose proof (ev_det Hev H1). subst res. destruct H as (ru & rd & _ & _ & _ & _ & H). rewrite Hes in H.
  destruct H as (? & ? & pre & post & _ & _ & Hdiv & _). eapply divided_displayed; eauto.
Qed.

(** C03.  The start of a node. *)
Theorem C03_start_focus path ups fl downs :
  printed doc w path FStart st ups fl downs ->
  exists before after, es = before ++ after /\ at_start before path /\
    lines_of before = rev ups ++ [left_segments fl] /\
    lines_of after = right_segments fl :: downs.
Proof.
  intros Hp. assert (Hd : displayed es path) by (apply (@C06_accepted_iff_displayed path FStart); eauto).
  destruct (@path_accepted _ _ _ r doc Hrep Hv Hu w st es path FStart Hes Hlin) as [(ups' & fl' & downs' & pre & post & Hp' & Hdiv & H1 & H2)|[(H & _)|(H & _)]]; auto; try discriminate.
  destruct (printed_det Hp Hp') as (-> & -> & ->).
  destruct Hdiv as [E Hs]. exists pre, post. split; auto. split; [|split; auto].
  eapply start_at_start; eauto.
Qed.

(** C04.  The end of a node. *)
Theorem C04_end_focus path ups fl downs :
  printed doc w path FEnd st ups fl downs ->
  exists before after, es = before ++ after /\ at_end before after path /\
    lines_of before = rev ups ++ [left_segments fl] /\
    lines_of after = right_segments fl :: downs.
Proof.
  intros Hp. assert (Hd : displayed es path) by (apply (@C06_accepted_iff_displayed path FEnd); eauto).
  destruct (@path_accepted _ _ _ r doc Hrep Hv Hu w st es path FEnd Hes Hlin) as [(ups' & fl' & downs' & pre & post & Hp' & Hdiv & H1 & H2)|[(H & _)|(H & _)]]; auto; try discriminate.
  destruct (printed_det Hp Hp') as (-> & -> & ->).
  destruct Hdiv as [E Hs]. exists pre, post. split; auto. split; [|split; auto].
  eapply end_at_end; eauto.
Qed.

Lemma mark_seen path j a mid c :
  es = a ++ mid ++ c -> start_at (NPL r) path a -> NPL r path j -> ~ In (EMark j) mid ->
  forall x j' y, a ++ mid = x ++ EMark j' :: y -> open_path x <> path.
Proof. intros E. eapply marks_after; eauto. Qed.

(** C05.  The first mark of a node, if one is displayed. *)
Theorem C05_mark_focus path :
  mark_displayed es path ->
  exists ups fl downs before after, printed doc w path FMark st ups fl downs /\
    es = before ++ after /\ at_mark before path /\
    lines_of before = rev ups ++ [left_segments fl] /\
    lines_of after = right_segments fl :: downs.
Proof.
  intros (x & j & y & E & Ho).
  assert (Hd : displayed es path) by (exists x, (EMark j :: y); auto).
  destruct (@path_accepted _ _ _ r doc Hrep Hv Hu w st es path FMark Hes Hlin) as [(ups & fl & downs & pre & post & Hp & Hdiv & H1 & H2)|[(_ & _ & j' & a & mid & E' & Hst & Hj & Hmid)|(H & _)]]; auto; try discriminate.
  - destruct Hdiv as [E' (a & mid & j' & -> & Hst & Hj & Hmid)].
    exists ups, fl, downs, (a ++ mid ++ [EMark j']), post. split; auto. split; auto. split; [|split; auto].
    exists (a ++ mid), j'. rewrite app_assoc. split; auto. split.
    + destruct (layout_good Hv _ _ Hes) as [G _]. eapply (@good_mark _ (id_at r) Hu); [exact G| |exact Hj].
      rewrite E', <- !app_assoc. reflexivity.
    + eapply mark_seen with (c := EMark j' :: post); eauto. rewrite E', <- !app_assoc. reflexivity.
  - exfalso. eapply (@mark_seen path j' a mid []); eauto.
    + rewrite app_nil_r. auto.
    + rewrite <- E'. exact E.
Qed.

(** C05.  A displayed node without a displayed mark. *)
Theorem C05_missing_mark path :
  displayed es path -> ~ mark_displayed es path ->
  ev (fun n => pretty_print n doc w path FMark st) (Fail (FErr MissingFocusMark)).
Proof.
  intros Hd Hno.
  destruct (@path_accepted _ _ _ r doc Hrep Hv Hu w st es path FMark Hes Hlin) as [(ups & fl & downs & pre & post & Hp & Hdiv & H1 & H2)|[(_ & H & _)|(H & _)]]; auto; try discriminate.
  exfalso. apply Hno. destruct Hdiv as [E (a & mid & j & -> & Hst & Hj & Hmid)].
  exists (a ++ mid), j, post. split.
  - rewrite E, <- !app_assoc. reflexivity.
  - destruct (layout_good Hv _ _ Hes) as [G _]. eapply (@good_mark _ (id_at r) Hu); [exact G| |exact Hj].
    rewrite E, <- !app_assoc. reflexivity.
Qed.

(** C02.  In the text of a node.  [splittable]: the width of each text in the
    document is the sum of the widths of its pieces. *)
Theorem C02_text_focus path i s n :
  splittable r -> node_at r path = Some (RText i s) -> text_displayed es path ->
  exists ups fl downs, printed doc w path (FText n) st ups fl downs /\
    map segs_to_string (all_lines ups fl downs) = map segs_to_string (lines_of es) /\
    exists before j t after lbefore lafter,
      es = before ++ EText j t :: after /\ open_path before = path /\ tx_str t = s /\
      lines_of before = rev ups ++ [lbefore] /\ lines_of after = lafter :: downs /\
      left_segments fl = lbefore ++ [Segment (firstn n s) (str_width (firstn n s)) (tx_style t)] /\
      right_segments fl = Segment (skipn n s) (str_width (skipn n s)) (tx_style t) :: lafter.
Proof.
  intros Hs Hleaf (a0 & j0 & t0 & b0 & E0 & Ht0 & Ho0).
  destruct (@text_focus _ _ _ r doc Hrep Hv Hu w st es path i s n Hes Hlin Hs Hleaf) as (ups & fl & downs & Hp & Hl & a & j & t & b & la & lb & H); eauto 10.
  exists ups, fl, downs. split; auto. split; auto. exists a, j, t, b, la, lb. intuition.
Qed.

(** C07.  What FocusTarget::Text does in general: the focus is in the first text
    (of any node) displayed at or after the start of the node, and if there is
    none, the call fails with MissingText. *)
Theorem C07_first_text_from_start path n :
  splittable r -> displayed es path ->
  (exists ups fl downs before j t after lbefore lafter,
     printed doc w path (FText n) st ups fl downs /\
     map segs_to_string (all_lines ups fl downs) = map segs_to_string (lines_of es) /\
     es = before ++ EText j t :: after /\ tx_from_text t = true /\
     (exists a mid, before = a ++ mid /\ at_start a path /\ (forall j' t', In (EText j' t') mid -> tx_from_text t' = false)) /\
     lines_of before = rev ups ++ [lbefore] /\ lines_of after = lafter :: downs /\
     left_segments fl = lbefore ++ [Segment (firstn n (tx_str t)) (str_width (firstn n (tx_str t))) (tx_style t)] /\
     right_segments fl = Segment (skipn n (tx_str t)) (str_width (skipn n (tx_str t))) (tx_style t) :: lafter) \/
  (ev (fun k => pretty_print k doc w path (FText n) st) (Fail (FErr MissingText)) /\
     exists a mid, es = a ++ mid /\ at_start a path /\ (forall j' t', In (EText j' t') mid -> tx_from_text t' = false)).
Proof.
  intros Hs Hd.
  assert (Hno : forall mid, existsb is_ftext mid = false -> forall j' t', In (EText j' t') mid -> tx_from_text t' = false).
  { intros mid Hm j' t' Hi. apply not_true_iff_false. intros Ht. apply not_true_iff_false in Hm. apply Hm.
    apply existsb_exists. exists (EText j' t'). auto. }
  destruct (@path_accepted _ _ _ r doc Hrep Hv Hu w st es path (FText n) Hes Hlin (fun _ => Hs) Hd)
    as [(ups & fl & downs & pre & post & Hp & Hdiv & H1 & H2)|[(E & _)|(_ & Hf & a & mid & E & Hst & Hm)]]; [|discriminate|].
  - left. destruct Hdiv as (a & mid & j & t & rest & E & -> & -> & Hst & Hmid & Ht).
    rewrite app_assoc in H1.
    destruct (lines_app (a ++ mid) [EText j (fst (split_at t n))] []) as (l & ls & A1 & A2).
    pose proof H1 as H0. unfold lines_of in H1. rewrite A2 in H1. simpl in H1. apply app_inj_tail in H1 as [-> H1].
    pose proof H2 as H3. simpl in H2. destruct (lines_cur rest [text_seg (snd (split_at t n))]) as (x & ls & B1 & B2).
    cbn [app text_seg tx_str tx_width tx_style split_at snd] in B2. rewrite B2 in H2. injection H2 as H2 ->.
    exists ups, fl, downs, (a ++ mid), j, t, rest, l, x. split; auto. split.
    { unfold all_lines. rewrite E, (app_assoc a).
      etransitivity; [|apply (split_strings j t n rest (a ++ mid))]. f_equal. symmetry. apply lines_join; auto. }
    rewrite <- app_assoc. split; auto. split; auto. split; [|auto].
    exists a, mid. split; auto. split; [eapply start_at_start; eauto|eauto].
  - right. split; auto. exists a, mid. split; auto. split; [eapply start_at_start; eauto|eauto].
Qed.

End Displayed.
End Focus.

(** C10, overflow.  [uw], [cf]: the width tables; compiled without
    ([Build_Env uw cf false]) or with ([Build_Env uw cf true]) overflow checks.
    If a document prints without overflow checks and none of its lines is wider
    than a u16 can hold, then with overflow checks no call panics, whatever
    path and target (and C01: the same lines are printed). *)
Section NoOverflow.
Context {pd : PrettyDoc} {ideq : IdEq pd}.
Variables (uw : str -> N) (cf : char -> bool).
Variables (r : rdoc) (doc : D).
Hypothesis Hrep : rep r doc.
Hypothesis Hv : valid_doc r.
Notation release := (Build_Env uw cf false).
Notation debug := (Build_Env uw cf true).

Lemma shape_same st : @doc_shape pd release r st = @doc_shape pd debug r st.
Proof. reflexivity. Qed.

Lemma debug_layout w st fl downs :
  @printed pd release doc w [] FStart st [] fl downs ->
  Forall (fun l => exact_width l < U16)%N (all_lines [] fl downs) ->
  exists es, @layout pd debug w (@doc_shape pd debug r st) = Some es /\ all_lines [] fl downs = lines_of es.
Proof.
  intros Hp Hn. destruct (@C01_printed_has_layout pd release ideq r doc Hrep Hv w st [] FStart [] fl downs eq_refl Hp) as (es & Hes & E).
  exists es. split; auto. apply layout_debug; [exact Hes|]. rewrite E in Hn. exact Hn.
Qed.

Theorem C10_no_overflow_no_panic w st fl downs :
  @printed pd release doc w [] FStart st [] fl downs ->
  Forall (fun l => exact_width l < U16)%N (all_lines [] fl downs) ->
  forall path ft pan, is_text_target ft = false ->
    ~ @print_fails pd debug doc w path ft st (FPanic pan).
Proof.
  intros Hp Hn path ft pan Hft Hf. destruct (debug_layout Hp Hn) as (es & Hes & _).
  destruct (@pp_spec pd debug ideq _ (@val_eol pd debug) (@val_ovf pd debug) top) with (NP := topN) (w := w) (doc := doc) (path := path) (ft := ft) (st := st) (root := @doc_shape pd debug r st)
    as (res & Hev & Hr); unfold top, topN, splits; auto.
  { intros m ->. discriminate. }
  { apply (@rep_tree pd debug r doc Hrep Hv). }
  { apply (@rep_root_ok pd debug r Hv). }
  rewrite Hes in Hr. destruct Hf as [Hf|(up & fl' & down & Hf & Hc)].
  - pose proof (ev_det Hev Hf). subst res.
    destruct Hr as [[_ H]|[(p1 & i & p2 & _ & H & _)|[(_ & H & _)|(n & _ & H & _)]]]; discriminate.
  - pose proof (ev_det Hev Hf). subst res. destruct Hr as (ru & rd & H1 & H2 & _ & _ & (? & ? & ? & ? & -> & -> & _)).
    destruct Hc as [Hc|Hc]; [pose proof (ev_det H1 Hc)|pose proof (ev_det H2 Hc)]; discriminate.
Qed.

(** The same for text targets, with distinct ids and additive widths. *)
Theorem C10_no_overflow_no_panic_text w st fl downs :
  unique_ids (id_at r) -> @splittable pd debug r ->
  @printed pd release doc w [] FStart st [] fl downs ->
  Forall (fun l => exact_width l < U16)%N (all_lines [] fl downs) ->
  forall path ft pan, ~ @print_fails pd debug doc w path ft st (FPanic pan).
Proof.
  intros Hu Hs Hp Hn path ft pan Hf. destruct (debug_layout Hp Hn) as (es & Hes & _).
  destruct (@lab_spec pd debug ideq r doc Hrep Hv Hu w path ft st (fun _ => Hs)) as (res & Hev & Hr).
  rewrite Hes in Hr. destruct Hf as [Hf|(up & fl' & down & Hf & Hc)].
  - pose proof (ev_det Hev Hf). subst res.
    destruct Hr as [[_ H]|[(p1 & i & p2 & _ & H & _)|[(_ & H & _)|(n & _ & H & _)]]]; discriminate.
  - pose proof (ev_det Hev Hf). subst res. destruct Hr as (ru & rd & H1 & H2 & _ & _ & (? & ? & ? & ? & -> & -> & _)).
    destruct Hc as [Hc|Hc]; [pose proof (ev_det H1 Hc)|pose proof (ev_det H2 Hc)]; discriminate.
Qed.

(** The string printer. *)
Theorem C10_to_string_no_panic w fl downs pan :
  @printed pd release doc w [] FStart None [] fl downs ->
  Forall (fun l => exact_width l < U16)%N (all_lines [] fl downs) ->
  ~ ev (fun n => @pretty_print_to_string pd debug n doc w) (Panic pan).
Proof.
  intros Hp Hn Hf. destruct (debug_layout Hp Hn) as (es & Hes & _).
  destruct (@C01_layout_is_printed pd debug ideq r doc Hrep Hv w None es Hes) as (fl' & downs' & Hp' & _).
  pose proof (@C24_to_string_joins_lines pd debug ideq doc w [] FStart [] fl' downs' (rep_finite Hrep) eq_refl Hp') as H.
  pose proof (ev_det Hf H). discriminate.
Qed.

(** C10, without overflow checks: nothing panics at all. *)
Theorem C10_release_never_panics w path ft st pan :
  ~ @print_fails pd release doc w path ft st (FPanic pan).
Proof.
  intros H. apply (@C10_only_these_failures pd release ideq r doc Hrep Hv) in H.
  destruct H as [(i & _ & H)|[[_ H]|[[_ H]|[H|[(e & H & _)|[_ H]]]]]]; discriminate.
Qed.

End NoOverflow.
