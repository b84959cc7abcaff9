(** Scrolling: what a pane shows of a document is a part of one picture (C75).

    A pane that shows a document shows, in each row, one of the lines of the whole
    document as printed at that width; the focus only says which line is on which
    row.  So moving the focus scrolls the picture, and never changes it.
    Vocabulary: SpecScroll, SpecPane. *)
From Verif Require Export PScroll.

Set Implicit Arguments.

Section Scrolling.
Context {pd : PrettyDoc} {env : Env} {ideq : IdEq pd} {L : Type}.
Variable get_content : L -> option (D * printing_options).
Variables (WE : Type) (sz : size).
Hypothesis Hwin : window_size sz.
Notation width_of r := (max_col r - min_col r)%N.
Notation height_of r := (max_row r - min_row r)%N.
Notation displayed r p st calls := (ev (fun n => drawn_in get_content WE sz r n p st) (calls, Ok tt)).

Variables (x : rdoc) (doc : D).
Hypothesis Hrep : rep x doc.
Hypothesis Hv : valid_doc x.
Hypothesis Hu : unique_ids (id_at x).

(** The whole document, printed at some width: the same lines, character by
    character and style by style, around every focus. *)
Theorem C75_one_picture w st path ft ups fl downs :
  (is_text_target ft = true -> splittable x) -> printed doc w path ft st ups fl downs ->
  exists fl0 downs0, printed doc w [] FStart st [] fl0 downs0 /\
    map styled_chars (all_lines ups fl downs) = map styled_chars (all_lines [] fl0 downs0).
Proof.
  intros Hs Hp. destruct (printed_page Hrep Hv Hu Hs Hp) as (es & Hes & E).
  destruct (C01_layout_is_printed Hrep Hv w st Hes) as (fl0 & downs0 & Hp0 & E0). exists fl0, downs0. split; [exact Hp0|]. rewrite E, E0. reflexivity.
Qed.

(** A pane for which the document can be printed. *)
Definition shown_in (l : L) (o : printing_options) (st : Sty) (r : rectangle) (ups : list line) (fl : focused_line) (downs : list line) : Prop :=
  get_content l = Some (doc, o) /\ rect_in sz r /\ (0 < width_of r)%N /\ (0 < height_of r <= 2 ^ 24)%N /\ height_ok (o_focus_height o) /\
  (is_text_target (o_focus_target o) = true -> splittable x) /\
  printed_in doc o (width_of r) st ups fl downs /\
  (o_set_focus o = true -> (min_col r + total (map seg_width (left_segments fl)) < U16)%N).

(** The calls that report the focus, when the focused line is on row [k]. *)
Definition report (o : printing_options) (r : rectangle) (k : N) (fl : focused_line) : list (call Sty) :=
  if o_set_focus o then [SetFocus (Pos (min_row r + k) (min_col r + total (map seg_width (left_segments fl))))] else [].

Lemma shows_page l o st r ups fl downs fl0 downs0 :
  shown_in l o st r ups fl downs ->
  printed doc (asked_width o (width_of r)) [] FStart (Some st) [] fl0 downs0 ->
  exists k rows, displayed r (PDoc l) st (report o r k fl ++ List.concat rows) /\
    choose_focus_line_row (X := perr Er) o (height_of r) = Ok k /\ rounded_row (height_of r) (o_focus_height o) k /\
    shows_chars r (fun i => page_line (all_lines [] fl0 downs0) (top_line ups k + Z.of_nat i)) st rows.
Proof.
  intros (Hg & Hr & Hw & Hh & Hf & Hs & Hp & Hfoc) Hp0.
  destruct (@doc_pane_row pd env L get_content WE sz Hwin l doc o st r ups fl downs) as (k & rows & K0 & K & R & D); auto.
  destruct (C75_one_picture Hs Hp) as (fl1 & downs1 & Hp1 & E). destruct (printed_det Hp0 Hp1) as (_ & <- & <-).
  exists k, rows. split; [exact D|]. split; [exact K0|]. split; [exact K|].
  destruct R as [R1 R2]. split; [exact R1|]. intros i row Hi. specialize (R2 i row Hi).
  unfold top_line. rewrite <- (N_nat_Z k). rewrite <- (line_at_page ups fl downs _ (N.to_nat k) i E). exact R2.
Qed.

(** C75.  Row [i] of the pane shows line [top + i] of the whole document, and the
    focused line is on the row for which the options ask. *)
Theorem C75_pane_shows_page l o st r ups fl downs fl0 downs0 :
  shown_in l o st r ups fl downs ->
  printed doc (asked_width o (width_of r)) [] FStart (Some st) [] fl0 downs0 ->
  exists k rows, displayed r (PDoc l) st (report o r k fl ++ List.concat rows) /\
    rounded_row (height_of r) (o_focus_height o) k /\
    shows_chars r (fun i => page_line (all_lines [] fl0 downs0) (top_line ups k + Z.of_nat i)) st rows.
Proof. intros S P. destruct (shows_page S P) as (k & rows & D & _ & K & R). eauto. Qed.

(** C75.  Two panes of the same width (anywhere in the window, of any heights, with
    any focuses) that show the document: a line that is visible in both looks the
    same in both.  ([k1] and [k2] are the rows of the focused lines, which are the
    same if the heights and focus heights are.) *)
Theorem C75_scroll l1 o1 st r1 ups1 fl1 downs1 l2 o2 r2 ups2 fl2 downs2 :
  shown_in l1 o1 st r1 ups1 fl1 downs1 -> shown_in l2 o2 st r2 ups2 fl2 downs2 ->
  width_of r1 = width_of r2 -> asked_width o1 (width_of r1) = asked_width o2 (width_of r2) ->
  exists k1 calls1 k2 calls2,
    displayed r1 (PDoc l1) st calls1 /\ rounded_row (height_of r1) (o_focus_height o1) k1 /\
    displayed r2 (PDoc l2) st calls2 /\ rounded_row (height_of r2) (o_focus_height o2) k2 /\
    (height_of r1 = height_of r2 -> o_focus_height o1 = o_focus_height o2 -> k1 = k2) /\
    forall i1 i2, (N.of_nat i1 < height_of r1)%N -> (N.of_nat i2 < height_of r2)%N ->
      (top_line ups1 k1 + Z.of_nat i1 = top_line ups2 k2 + Z.of_nat i2)%Z ->
      row_picture r1 calls1 i1 = row_picture r2 calls2 i2.
Proof.
  intros S1 S2 Hw Hask. pose proof S1 as (_ & Hr1 & _ & _ & _ & Hs1 & Hp1 & _). pose proof S2 as (_ & Hr2 & _ & _ & _ & Hs2 & Hp2 & _).
  destruct (C75_one_picture Hs1 Hp1) as (fl0 & downs0 & Hp0 & _).
  destruct (shows_page S1 Hp0) as (k1 & rows1 & D1 & F1 & K1 & R1). rewrite Hask in Hp0.
  destruct (shows_page S2 Hp0) as (k2 & rows2 & D2 & F2 & K2 & R2).
  do 2 eexists. exists k2. eexists. refine (conj D1 (conj K1 (conj D2 (conj K2 (conj _ _))))).
  { intros E1 E2. eapply same_focus_row; eauto. }
  intros i1 i2 H1 H2 Hi.
  assert (P : forall r k fl o rows i, row_picture r (report o r k fl ++ List.concat rows) i = row_picture r (List.concat rows) i).
  { intros. unfold row_picture, report. destruct (o_set_focus o); reflexivity. }
  rewrite !P.
  destruct (nth_error rows1 i1) as [row1|] eqn:X1; [|apply nth_error_None in X1; destruct R1; lia].
  destruct (nth_error rows2 i2) as [row2|] eqn:X2; [|apply nth_error_None in X2; destruct R2; lia].
  rewrite (picture_rows _ R1 X1), (picture_rows _ R2 X2). destruct R1 as [_ R1], R2 as [_ R2]. specialize (R1 _ _ X1). specialize (R2 _ _ X2).
  cbv beta in R1, R2. rewrite Hi in R1.
  destruct (rect_in_ok Hwin Hr1) as (? & ? & ? & ?). destruct (rect_in_ok Hwin Hr2) as (? & ? & ? & ?).
  eapply rel_row; [| |exact Hw|exact R1|exact R2]; lia.
Qed.

(** C75.  If the focus moves within its line, the picture stays as it is: only
    the focus that is reported moves. *)
Theorem C75_same_line l1 o1 st r ups1 fl1 downs1 l2 o2 ups2 fl2 downs2 :
  shown_in l1 o1 st r ups1 fl1 downs1 -> shown_in l2 o2 st r ups2 fl2 downs2 ->
  asked_width o1 (width_of r) = asked_width o2 (width_of r) -> o_focus_height o1 = o_focus_height o2 ->
  length ups1 = length ups2 ->
  exists k picture, rounded_row (height_of r) (o_focus_height o1) k /\ focus_calls picture = [] /\
    displayed r (PDoc l1) st (report o1 r k fl1 ++ picture) /\
    displayed r (PDoc l2) st (report o2 r k fl2 ++ picture).
Proof.
  intros S1 S2 Hask Hfh Hlen. pose proof S1 as (_ & _ & _ & _ & _ & Hs1 & Hp1 & _).
  destruct (C75_one_picture Hs1 Hp1) as (fl0 & downs0 & Hp0 & _).
  destruct (shows_page S1 Hp0) as (k1 & rows1 & D1 & F1 & K1 & R1). rewrite Hask in Hp0.
  destruct (shows_page S2 Hp0) as (k2 & rows2 & D2 & F2 & K2 & R2).
  pose proof (same_focus_row _ _ eq_refl Hfh F1 F2) as <-.
  assert (rows1 = rows2) as <-.
  { eapply same_rows; [exact R1|exact R2|]. intros i. unfold top_line. rewrite Hlen. reflexivity. }
  exists k1, (List.concat rows1). refine (conj K1 (conj _ (conj D1 D2))). eapply rows_no_focus; exact R1.
Qed.

(** C75.  In particular if the position within a text changes (the cursor moves in
    a word), or if it is put before or after the text. *)
Theorem C75_same_text l1 o1 st r ups1 fl1 downs1 l2 o2 ups2 fl2 downs2 path n1 n2 :
  shown_in l1 o1 st r ups1 fl1 downs1 -> shown_in l2 o2 st r ups2 fl2 downs2 ->
  asked_width o1 (width_of r) = asked_width o2 (width_of r) -> o_focus_height o1 = o_focus_height o2 ->
  o_focus_path o1 = path -> o_focus_path o2 = path -> o_focus_target o1 = FText n1 -> o_focus_target o2 = FText n2 ->
  exists k picture, rounded_row (height_of r) (o_focus_height o1) k /\ focus_calls picture = [] /\
    displayed r (PDoc l1) st (report o1 r k fl1 ++ picture) /\
    displayed r (PDoc l2) st (report o2 r k fl2 ++ picture).
Proof.
  intros S1 S2 Hask Hfh Q1 Q2 T1 T2. eapply C75_same_line; eauto.
  pose proof S1 as (_ & _ & _ & _ & _ & Hs1 & Hp1 & _). pose proof S2 as (_ & _ & _ & _ & _ & _ & Hp2 & _).
  unfold printed_in in Hp1, Hp2. rewrite Q1, T1 in Hp1. rewrite Q2, T2, <- Hask in Hp2. rewrite T1 in Hs1. specialize (Hs1 eq_refl).
  destruct (printed_page Hrep Hv Hu (fun _ => Hs1) Hp1) as (es & Hes & _).
  destruct Hp1 as (u1 & d1 & A1 & A2 & A3). destruct Hp2 as (u2 & d2 & B1 & B2 & B3).
  destruct (@first_lab_spec _ _ _ x doc Hrep Hv Hu (asked_width o1 (width_of r)) path (FText n1) (Some st)) as (res1 & Hev1 & H1); [auto|].
  pose proof (ev_det Hev1 A1). subst res1. rewrite Hes in H1. destruct H1 as (ru & rd & _ & _ & _ & _ & ? & ? & pre & post & _ & _ & Hdiv & _).
  destruct (first_divided Hv Hu _ _ Hes _ _ _ _ Hdiv) as (a & b & c & Hfd).
  assert (P1 : printed doc (asked_width o1 (width_of r)) path (FText n1) (Some st) ups1 fl1 downs1) by (exists u1, d1; auto).
  assert (P2 : printed doc (asked_width o1 (width_of r)) path (FText n2) (Some st) ups2 fl2 downs2) by (exists u2, d2; auto).
  destruct (@C68_text _ _ ideq _ _ Hrep Hv Hu _ _ _ Hes _ _ _ _ n1 Hs1 Hfd) as [(p1 & q1 & s1 & mid1 & j1 & t1 & rest1 & lb1 & la1 & X1 & E1 & G1 & N1 & L1 & _)|[F _]].
  2:{ pose proof (ev_det F A1). discriminate. }
  destruct (@C68_text _ _ ideq _ _ Hrep Hv Hu _ _ _ Hes _ _ _ _ n2 Hs1 Hfd) as [(p2 & q2 & s2 & mid2 & j2 & t2 & rest2 & lb2 & la2 & X2 & E2 & G2 & N2 & L2 & _)|[F _]].
  2:{ pose proof (ev_det F B1). discriminate. }
  destruct (printed_det P1 X1) as (-> & _). destruct (printed_det P2 X2) as (-> & _).
  assert (mid1 = mid2) as <-.
  { rewrite E1 in E2. clear - E2 N1 N2 G1 G2. revert mid2 E2 N2. induction mid1 as [|e m IH]; intros [|e2 m2] E2 N2; auto; cbn [app] in E2.
    - injection E2 as <- _. rewrite (N2 _ _ (or_introl eq_refl)) in G1. discriminate.
    - injection E2 as -> _. rewrite (N1 _ _ (or_introl eq_refl)) in G2. discriminate.
    - injection E2 as <- E2. f_equal. apply IH; auto; intros; [eapply N1|eapply N2]; right; eauto. }
  rewrite L1 in L2. apply app_inj_tail in L2 as [E _]. apply (f_equal (@length _)) in E. rewrite !rev_length in E. exact E.
Qed.

(** C75.  When the focused line is wanted at the top, making the pane higher keeps
    the rows that it has, and adds more below. *)
Theorem C75_taller l1 o1 st r1 ups fl downs l2 o2 r2 :
  shown_in l1 o1 st r1 ups fl downs -> shown_in l2 o2 st r2 ups fl downs ->
  width_of r1 = width_of r2 -> asked_width o1 (width_of r1) = asked_width o2 (width_of r2) ->
  o_focus_height o1 = f32_zero -> o_focus_height o2 = f32_zero ->
  exists calls1 calls2, displayed r1 (PDoc l1) st calls1 /\ displayed r2 (PDoc l2) st calls2 /\
    forall i, (N.of_nat i < N.min (height_of r1) (height_of r2))%N -> row_picture r1 calls1 i = row_picture r2 calls2 i.
Proof.
  intros S1 S2 Hw Hask F1 F2. destruct (C75_scroll S1 S2 Hw Hask) as (k1 & c1 & k2 & c2 & D1 & [_ K1] & D2 & [_ K2] & _ & H).
  rewrite F1 in K1. rewrite F2 in K2. cbn in K1, K2. subst k1 k2. exists c1, c2. refine (conj D1 (conj D2 _)). intros i Hi. apply H; lia.
Qed.

End Scrolling.
