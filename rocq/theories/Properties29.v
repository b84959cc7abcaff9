(** C62: a pane asks for the lines that it shows, and for no others.
    Vocabulary: SpecPane ([printed_part]), SpecPane2 ([prints_visible]),
    SpecVisible, and for documents of which only some nodes are known SpecPeek. *)
From Verif Require Export PMono Properties23 PVisible.

Set Implicit Arguments.

Section Visible.
Context {pd : PrettyDoc} {env : Env} {L : Type}.
Variable get_content : L -> option (D * printing_options).
Notation pane := (pane L Sty).
Notation width_of r := (max_col r - min_col r)%N.
Notation height_of r := (max_row r - min_row r)%N.
Variables (WE : Type) (sz : Pane.size).
Hypothesis Hwin : window_size sz.
Notation drawn gc := (SpecPane.drawn gc WE sz).
Notation drawn_in gc := (SpecPane.drawn_in gc WE sz).
Notation displayed r p st calls := (ev (fun n => drawn_in get_content r n p st) (calls, Ok tt)).

(** A document pane (as C34_document_pane) whose focused line is on row [k].  It
    is enough that the [k] lines above the focused line and the lines below it
    down to the end of the pane can be printed: whether the rest of the document
    prints does not matter. *)
Theorem C62_document_pane l doc o st r k ups fl downs :
  get_content l = Some (doc, o) -> rect_in sz r -> (0 < width_of r)%N ->
  choose_focus_line_row (X := perr Er) o (height_of r) = Ok k -> (k < height_of r)%N ->
  printed_part doc o (width_of r) st (N.to_nat k) (N.to_nat (height_of r) - N.to_nat k - 1) ups fl downs ->
  (o_set_focus o = true -> (min_col r + total (map seg_width (left_segments fl)) < U16)%N) ->
  exists rows,
    shows_lines r (line_at ups fl downs (N.to_nat k)) st rows /\
    displayed r (PDoc l) st
      ((if o_set_focus o then [SetFocus (Pos (min_row r + k) (min_col r + total (map seg_width (left_segments fl))))] else [])
       ++ concat rows).
Proof.
  intros Hg Hr Hw Hk Hkh Hp Hfoc. pose proof (rect_in_ok Hwin Hr) as (R1 & R2 & R3 & R4).
  set (c := Content (line_at ups fl downs (N.to_nat k)) st (focus_point o k fl)).
  assert (Hc : content_of get_content l st (Size (width_of r) (height_of r)) (visible_lines ups fl downs (N.to_nat k) (N.to_nat (height_of r))) c).
  { apply (@content_printed pd env L get_content l st (Size (width_of r) (height_of r)) doc o k ups fl downs); auto. intros E. specialize (Hfoc E). lia. }
  destruct (@content_exists pd env WE sz c r) as (calls & Hin); [apply (rect_in_ok Hwin); auto| |].
  { unfold c, focus_point. cbn [c_focus]. destruct (o_set_focus o); [|exact I]. specialize (Hfoc eq_refl). cbn [p_row p_col]. lia. }
  pose proof Hin as (rows & Hrows & Hcalls). exists rows. split; [exact Hrows|].
  apply ev_displayed.
  assert (E : calls = (if o_set_focus o then [SetFocus (Pos (min_row r + k) (min_col r + total (map seg_width (left_segments fl))))] else []) ++ concat rows).
  { unfold c, focus_point in Hcalls. cbn [c_focus] in Hcalls. destruct (o_set_focus o); [destruct Hcalls as (_ & _ & ->); reflexivity|exact Hcalls]. }
  rewrite <- E. eapply PPane7.doc_ok; eauto.
Qed.

(** Conversely those lines are needed: if printing them fails, so does the pane,
    with the same error and before anything is displayed. *)
Theorem C62_needs_visible_lines l doc o st r k e :
  get_content l = Some (doc, o) -> rect_in sz r -> (0 < width_of r)%N ->
  choose_focus_line_row (X := perr Er) o (height_of r) = Ok k -> (k < height_of r)%N ->
  ev (fun n => SpecMask.window n doc (asked_width o (width_of r)) (o_focus_path o) (o_focus_target o) (Some st)
                 (N.to_nat k) (N.to_nat (height_of r) - N.to_nat k - 1)) (Err e) ->
  (o_set_focus o = true -> forall up fl down,
     ev (fun n => pretty_print n doc (asked_width o (width_of r)) (o_focus_path o) (o_focus_target o) (Some st)) (Ok (up, fl, down)) ->
     (total (map seg_width (left_segments fl)) < U16)%N) ->
  ev (fun n => drawn_in get_content r n (PDoc l) st) ([], Err (PrintingErr e)).
Proof.
  intros Hg Hr Hw Hk Hkh (N0 & HW) Hfoc. pose proof (rect_in_ok Hwin Hr) as (R1 & R2 & R3 & R4).
  exists N0. intros n Hn. unfold SpecPane.drawn_in. cbn [display_pane_rec]. rewrite Hg.
  assert (E : printed_doc_new n doc o (Size (width_of r) (height_of r)) st = Err e).
  { unfold printed_doc_new. cbn [s_width s_height].
    rewrite (proj2 (N.eqb_neq (height_of r) 0)) by lia. rewrite (proj2 (N.eqb_neq (width_of r) 0)) by lia. cbn [orb].
    rewrite Hk. cbn [bind]. rewrite choose_width_asked.
    specialize (HW n Hn). unfold SpecMask.window in HW.
    destruct (pretty_print n doc _ _ _ _) as [[[up fl] down]|f] eqn:Ep; [|cbn [bind] in HW |- *; exact (f_equal _ HW) || congruence].
    cbn [bind] in HW |- *.
    assert (Efp : (if o_set_focus o then col <- left_width fl ;; Ok (Some (Pos k col)) else Ok None) = Ok (focus_point o k fl)).
    { unfold focus_point. destruct (o_set_focus o); [|reflexivity]. rewrite left_width_exact; [reflexivity|].
      apply (Hfoc eq_refl up fl down). exists n. intros m Hm. rewrite <- Ep. symmetry.
      destruct (@pretty_print_mono pd env n m Hm doc (asked_width o (width_of r)) (o_focus_path o) (o_focus_target o) (Some st)) as [E|E]; congruence. }
    rewrite Efp. cbn [bind].
    destruct (SpecMask.take_lines (up_next n) (N.to_nat k) up) as [ups|f] eqn:E2; cbn [bind] in HW.
    2:{ injection HW as ->. rewrite (take_lines_err _ (@exhausted_up pd env n) _ _ E2). reflexivity. }
    apply (take_lines_same _ (@exhausted_up pd env n)) in E2 as (p2 & E2). rewrite E2. cbn [bind].
    rewrite add32_exact by lia. cbn [bind]. replace (N.to_nat (height_of r - (k + 1))) with (N.to_nat (height_of r) - N.to_nat k - 1) by lia.
    destruct (SpecMask.take_lines (down_next n) _ down) as [downs|f] eqn:E3; cbn [bind] in HW; [discriminate|].
    injection HW as ->. rewrite (take_lines_err _ (@exhausted_down pd env n) _ _ E3). reflexivity. }
  unfold rect_size, rect_height, rect_width. rewrite sub32_exact, sub16_exact by lia. cbn [bind].
  unfold mbind, pure, from_printing. rewrite E. reflexivity.
Qed.

(** Any pane.  Every well-made pane is displayed, without error or panic, if the
    lines that can be visible in the window can be printed (as C44_succeeds). *)
Theorem C62_succeeds p st : (s_height sz <= 2 ^ 24)%N -> sane sz p -> well_made p ->
  (forall l doc o, label_in l p -> get_content l = Some (doc, o) -> height_ok (o_focus_height o) /\ prints_visible sz doc o) ->
  exists calls, pane_shows get_content p st (rect_from_size sz) calls /\ ev (fun n => drawn get_content n p st) (calls, Ok tt).
Proof.
  intros Hh Hs Hm Hp. destruct (@shows_complete pd env sz L get_content Hwin Hh p st (rect_from_size sz) Hs Hm) as (calls & H); [|apply whole_in|].
  { intros l Hl doc o E. eapply Hp; eauto. }
  exists calls. split; auto. apply C44_display_pane; auto.
Qed.

(** Any pane.  Only what is visible matters: if the documents are replaced by
    others whose visible lines are the same, exactly the same is displayed. *)
Theorem C62_only_visible_matters get_content' p st calls : sane sz p ->
  (forall l, label_in l p -> looks_the_same sz (get_content l) (get_content' l)) ->
  pane_shows get_content p st (rect_from_size sz) calls ->
  ev (fun n => drawn get_content n p st) (calls, Ok tt) /\ ev (fun n => drawn get_content' n p st) (calls, Ok tt).
Proof.
  intros Hs Hl H. split; [apply C44_display_pane; auto|]. apply C44_display_pane; auto.
  eapply shows_same; eauto. apply whole_in.
Qed.

(** ... so two sets of documents with the same visible lines cannot be told apart. *)
Theorem C62_indistinguishable get_content' p st : (s_height sz <= 2 ^ 24)%N -> sane sz p -> well_made p ->
  (forall l, label_in l p -> looks_the_same sz (get_content l) (get_content' l)) ->
  (forall l doc o, label_in l p -> get_content l = Some (doc, o) -> height_ok (o_focus_height o) /\ prints_visible sz doc o) ->
  exists calls, ev (fun n => drawn get_content n p st) (calls, Ok tt) /\ ev (fun n => drawn get_content' n p st) (calls, Ok tt).
Proof.
  intros Hh Hs Hm Hl Hp. destruct (@C62_succeeds p st Hh Hs Hm Hp) as (calls & H & _). exists calls.
  apply C62_only_visible_matters; auto.
Qed.

(** A document of which only some nodes are known (C57), the others may be
    infinite or fail.  If the lines to be shown are known, the pane shows them. *)
Theorem C62_open_document {ideq : IdEq pd} o d l opts st r k path ups lft rgt downs b c a :
  get_content l = Some (d, opts) -> rect_in sz r -> (0 < width_of r)%N ->
  o_focus_path opts = path -> o_focus_target opts = FStart ->
  choose_focus_line_row (X := perr Er) opts (height_of r) = Ok k -> (k < height_of r)%N ->
  orep o d -> ovalid o -> ounique o ->
  leads (oid_at o) [] (open_layout (asked_width opts (width_of r)) o (Some st)) path b c a ->
  above b (N.to_nat k) ups lft -> below (c ++ a) (N.to_nat (height_of r) - N.to_nat k - 1) rgt downs ->
  (o_set_focus opts = true -> (min_col r + total (map seg_width lft) < U16)%N) ->
  exists rows,
    shows_lines r (line_at ups (FocusedLine lft rgt) downs (N.to_nat k)) st rows /\
    displayed r (PDoc l) st
      ((if o_set_focus opts then [SetFocus (Pos (min_row r + k) (min_col r + total (map seg_width lft)))] else [])
       ++ concat rows).
Proof.
  intros Hg Hr Hw Hpath Hft Hk Hkh H1 H2 H3 H4 H5 H6 Hf.
  apply (@C62_document_pane l d opts st r k ups (FocusedLine lft rgt) downs); auto.
  unfold printed_part. rewrite Hpath, Hft.
  assert (L1 : firstn (N.to_nat k) ups = ups).
  { apply firstn_all2. destruct H5 as [(u & all & _ & _ & ->)|(z & ind & u & _ & _ & E)]; [rewrite firstn_length|]; lia. }
  assert (L2 : firstn (N.to_nat (height_of r) - N.to_nat k - 1) downs = downs).
  { apply firstn_all2. destruct H6 as [(u & all & _ & _ & ->)|(z & ind & u & _ & _ & E)]; [rewrite firstn_length|]; lia. }
  rewrite L1, L2. eapply C57_window_at_start; eauto.
Qed.

End Visible.
