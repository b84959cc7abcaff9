(** Displaying panes: what is written (C34-C37, C44, C45).

    [drawn_in get_content WE sz r fuel p st] is the list of calls that are made to
    display the pane [p] in the rectangle [r] of a window of size [sz], and the
    result; [drawn] is the same for the whole window.  [ev f x]: [f fuel = x] for
    every sufficiently large fuel.  By C31_any_window the same calls are made on
    every window, up to the first one that fails.
    Vocabulary: SpecPane, SpecPane2. *)
From Verif Require Export PPane9.

Set Implicit Arguments.

Section Panes.
Context {pd : PrettyDoc} {env : Env} {L : Type}.
Variable get_content : L -> option (D * printing_options).
Notation pane := (pane L Sty).
Notation width_of r := (max_col r - min_col r)%N.
Notation height_of r := (max_row r - min_row r)%N.
Variables (WE : Type) (sz : size).
Hypothesis Hwin : window_size sz.
Notation drawn := (drawn get_content WE sz).
Notation drawn_in := (drawn_in get_content WE sz).

(** The calls [calls] display [p] in [r], without error. *)
Notation displayed r p st calls := (ev (fun n => drawn_in r n p st) (calls, Ok tt)).

Lemma ev_displayed r p st calls : ev_emits (WE := WE) (sz := sz) (fun n => display_pane_rec get_content n p st r) calls -> displayed r p st calls.
Proof. intros (N & H). exists N. intros n Hn. apply emits_drawn. apply H. exact Hn. Qed.

(** ** C34 *)

(** C34.  The row of the focused line: [(h - 1) * focus_height], rounded. *)
Theorem C34_focus_row (X : Type) o h : (0 < h <= 2 ^ 24)%N -> height_ok (o_focus_height o) ->
  exists k, choose_focus_line_row (X := X) o h = Ok k /\ rounded_row h (o_focus_height o) k.
Proof. apply focus_row_spec. Qed.

(** C34.  A document pane: on row [k] there is the focused line, above it are the
    preceding lines without gaps, below it the following lines, and the other rows
    are blank.  Nothing else is displayed. *)
Theorem C34_document_pane l doc o st r ups fl downs :
  get_content l = Some (doc, o) -> rect_in sz r ->
  (0 < width_of r)%N -> (0 < height_of r <= 2 ^ 24)%N -> height_ok (o_focus_height o) ->
  printed_in doc o (width_of r) st ups fl downs ->
  (o_set_focus o = true -> (min_col r + total (map seg_width (left_segments fl)) < U16)%N) ->
  exists k rows,
    rounded_row (height_of r) (o_focus_height o) k /\
    shows_lines r (line_at ups fl downs (N.to_nat k)) st rows /\
    displayed r (PDoc l) st
      ((if o_set_focus o then [SetFocus (Pos (min_row r + k) (min_col r + total (map seg_width (left_segments fl))))] else [])
       ++ concat rows).
Proof.
  intros Hg Hr Hw Hh Hf Hp Hfoc. pose proof (rect_in_ok Hwin Hr) as (R1 & R2 & R3 & R4).
  destruct (@focus_row_spec pd env (perr Er) o (height_of r) Hh Hf) as (k & K1 & K2). pose proof K2 as [K3 _].
  set (c := Content (line_at ups fl downs (N.to_nat k)) st (focus_point o k fl)).
  assert (Hc : content_of get_content l st (Size (width_of r) (height_of r)) (visible_lines ups fl downs (N.to_nat k) (N.to_nat (height_of r))) c).
  { apply (@content_printed pd env L get_content l st (Size (width_of r) (height_of r)) doc o k ups fl downs); auto; [apply printed_in_part; exact Hp|]. intros E. specialize (Hfoc E). lia. }
  destruct (@content_exists pd env WE sz c r) as (calls & Hin); [apply (rect_in_ok Hwin); auto| |].
  { unfold c, focus_point. cbn [c_focus]. destruct (o_set_focus o); [|exact I]. specialize (Hfoc eq_refl). cbn [p_row p_col]. lia. }
  pose proof Hin as (rows & Hrows & Hcalls). exists k, rows. split; [exact K2|]. split; [exact Hrows|].
  apply ev_displayed.
  assert (E : calls = (if o_set_focus o then [SetFocus (Pos (min_row r + k) (min_col r + total (map seg_width (left_segments fl))))] else []) ++ concat rows).
  { unfold c, focus_point in Hcalls. cbn [c_focus] in Hcalls. destruct (o_set_focus o); [destruct Hcalls as (_ & _ & ->); reflexivity|exact Hcalls]. }
  rewrite <- E. eapply PPane7.doc_ok; eauto.
Qed.

(** C34.  A document for which there is no space: nothing is displayed. *)
Theorem C34_no_space l d st r :
  get_content l = Some d -> rect_in sz r -> width_of r = 0%N \/ height_of r = 0%N -> displayed r (PDoc l) st [].
Proof.
  intros Hg Hr H. apply ev_displayed.
  eapply PPane7.doc_ok; eauto; [eapply content_no_space; eauto|].
  destruct (@content_exists pd env WE sz (Content (fun _ => []) st None) r) as (calls & rows & H1 & H2); [apply (rect_in_ok Hwin); auto|exact I|].
  simpl in H2. replace calls with (@nil (call Sty)) in H2; [exists rows; split; [exact H1|exact H2]|]. rewrite H2.
  destruct H1 as [H1 H3]. destruct H as [H|H].
  - symmetry. apply concat_nil_Forall. apply Forall_forall. intros row Hrow. apply In_nth_error in Hrow as (i & Hi).
    destruct (H3 _ _ Hi) as (shown & (rest & _ & S1 & _) & ->). cbn [c_lines c_style] in *. rewrite H in S1.
    destruct shown as [|[ch s] shown].
    + simpl. unfold blanks, columns_of. simpl. replace (range (min_col r + 0) (max_col r)) with (@nil N); [reflexivity|].
      unfold range. replace (max_col r - (min_col r + 0))%N with 0%N by lia. reflexivity.
    + exfalso. unfold columns_of in S1. simpl in S1. unfold columns in S1. destruct (char_full_width ch); lia.
  - rewrite H in H1. destruct rows; [reflexivity|discriminate].
Qed.

(** C34.  A label without a document: nothing is displayed. *)
Theorem C34_no_document l st r : get_content l = None -> forall n, drawn_in r n (PDoc l) st = ([], Ok tt).
Proof. intros H n. unfold SpecPane.drawn_in. cbn [display_pane_rec]. rewrite H. reflexivity. Qed.

(** ** C35 *)

(** C35.  A line: the longest prefix of its characters that fits, each in the
    style of its segment, and blanks in the pane's style. *)
Theorem C35_line (l : line) relative_row r blank : rect_in sz r -> (min_row r + relative_row < max_row r)%N ->
  exists shown rest,
    styled_chars l = shown ++ rest /\ (columns_of shown <= width_of r)%N /\
    (forall c rest', rest = c :: rest' -> (width_of r < columns_of shown + columns (fst c))%N) /\
    ev (fun n => @display_line pd env (recorder Sty WE sz) n l relative_row r blank [])
       (place (min_row r + relative_row) (min_col r) shown ++
        blanks (min_row r + relative_row) (min_col r + columns_of shown) (max_col r) blank, Ok tt).
Proof.
  intros Hr Hrow. pose proof (rect_in_ok Hwin Hr) as Hok.
  destruct (@line_spec pd env WE sz (S (N.to_nat (width_of r))) l relative_row r blank Hok Hrow) as (_ & _ & full0 & _ & (shown & Hfit & E0) & _).
  pose proof Hfit as (rest & S1 & S2 & S3). exists shown, rest. split; [exact S1|]. split; [exact S2|].
  split; [intros c rest' ->; exact S3|]. exists (S (N.to_nat (width_of r))). intros n Hn.
  destruct (@line_spec pd env WE sz n l relative_row r blank Hok Hrow) as (cs & res & full & H1 & H2 & _ & H3 & H4).
  rewrite H4 in * by lia. destruct H3 as [H3|[_ ->]]; [discriminate|].
  pose proof (H1 []) as H. cbn [app] in H. unfold rwin7 in *. etransitivity; [exact H|]. f_equal.
  rewrite <- E0. eapply row_shows_det; [exact H2|]. exists shown. split; auto.
Qed.

(** C35.  There is only one such prefix. *)
Theorem C35_prefix_unique w chs shown1 shown2 :
  longest_fitting w chs shown1 -> longest_fitting w chs shown2 -> shown1 = shown2.
Proof. apply fitting_det. Qed.

(** C35.  No character is cut: all the cells of every character are in the rectangle
    (and so in the window). *)
Lemma place_cells row : forall shown col c cell, In c (place row col shown) -> In cell (cells c) ->
  fst cell = row /\ (col <= snd cell < col + columns_of shown)%N.
Proof.
  induction shown as [|[ch s] shown IH]; intros col c cell Hc Hcell; [destruct Hc|].
  change (columns_of ((ch, s) :: shown)) with (columns ch + columns_of shown)%N. destruct Hc as [<-|Hc].
  - assert (H0 : (0 <= columns_of shown)%N) by lia. revert H0. generalize (columns_of shown). intros z _.
    unfold columns. destruct (char_full_width ch); simpl in Hcell.
    + destruct Hcell as [<-|[<-|[]]]; cbn [fst snd]; lia.
    + destruct Hcell as [<-|[]]; cbn [fst snd]; lia.
  - destruct (IH _ _ _ Hc Hcell). unfold columns in *. split; auto. lia.
Qed.
Theorem C35_not_cut r row chs blank calls : (min_col r <= max_col r)%N -> row_shows r row chs blank calls ->
  forall c cell, In c calls -> In cell (cells c) -> fst cell = row /\ (min_col r <= snd cell < max_col r)%N.
Proof.
  intros Hr (shown & (rest & _ & S2 & _) & ->) c cell Hc Hcell. apply in_app_iff in Hc as [Hc|Hc].
  - destruct (place_cells _ _ _ _ _ Hc Hcell). split; auto. lia.
  - unfold blanks in Hc. apply in_map_iff in Hc as (col & <- & Hcol). apply range_in in Hcol. destruct Hcell as [<-|[]]. simpl. lia.
Qed.

(** ** C36 *)

(** The calls of set_focus. *)
Definition focus_calls (calls : list (call Sty)) : list pos :=
  flat_map (fun c => match c with SetFocus p => [p] | Put _ _ _ _ => [] end) calls.

Lemma place_no_focus row : forall chs col, focus_calls (place row col chs) = [].
Proof. induction chs as [|[ch s] chs IH]; intros col; [reflexivity|]. apply IH. Qed.
Lemma blanks_no_focus row a b (st : Sty) : focus_calls (blanks row a b st) = [].
Proof. unfold blanks. induction (range a b); [reflexivity|assumption]. Qed.
Lemma focus_calls_app c1 c2 : focus_calls (c1 ++ c2) = focus_calls c1 ++ focus_calls c2.
Proof. apply flat_map_app. Qed.
Lemma rows_no_focus r chars blank rows : shows_chars r chars blank rows -> focus_calls (concat rows) = [].
Proof.
  intros [_ H]. assert (X : forall row, In row rows -> focus_calls row = []).
  { intros row Hr. apply In_nth_error in Hr as (i & Hi). destruct (H _ _ Hi) as (shown & _ & ->).
    rewrite focus_calls_app, place_no_focus, blanks_no_focus. reflexivity. }
  clear H. induction rows as [|row rows IH]; [reflexivity|]. cbn [concat]. rewrite focus_calls_app, X by (left; auto). apply IH. intros; apply X; right; auto.
Qed.

(** C36.  set_focus is called exactly once for a document, if that was asked for,
    with the row of the focused line and the column after its left segments. *)
Theorem C36_focus_once l doc o st r ups fl downs :
  get_content l = Some (doc, o) -> rect_in sz r ->
  (0 < width_of r)%N -> (0 < height_of r <= 2 ^ 24)%N -> height_ok (o_focus_height o) ->
  printed_in doc o (width_of r) st ups fl downs ->
  (o_set_focus o = true -> (min_col r + total (map seg_width (left_segments fl)) < U16)%N) ->
  exists k calls,
    rounded_row (height_of r) (o_focus_height o) k /\ displayed r (PDoc l) st calls /\
    focus_calls calls =
      if o_set_focus o then [Pos (min_row r + k) (min_col r + total (map seg_width (left_segments fl)))] else [].
Proof.
  intros. destruct (@C34_document_pane l doc o st r ups fl downs) as (k & rows & K & R & D); auto.
  do 2 eexists. split; [exact K|]. split; [exact D|]. rewrite focus_calls_app, (rows_no_focus R), app_nil_r.
  destruct (o_set_focus o); reflexivity.
Qed.

(** C36.  That is where the first character after the focus is displayed, if it
    fits, and if the width of the text before the focus is the number of columns
    its characters take. *)
Theorem C36_focus_at_character l doc o st r ups fl downs ch chst rest :
  get_content l = Some (doc, o) -> rect_in sz r ->
  (0 < width_of r)%N -> (0 < height_of r <= 2 ^ 24)%N -> height_ok (o_focus_height o) ->
  printed_in doc o (width_of r) st ups fl downs -> o_set_focus o = true ->
  total (map seg_width (left_segments fl)) = columns_of (styled_chars (left_segments fl)) ->
  styled_chars (right_segments fl) = (ch, chst) :: rest ->
  (total (map seg_width (left_segments fl)) + columns ch <= width_of r)%N ->
  exists calls p, displayed r (PDoc l) st calls /\
    focus_calls calls = [p] /\ in_rect r (p_row p, p_col p) /\ In (Put ch p chst (char_full_width ch)) calls.
Proof.
  intros Hg Hr Hw Hh Hf Hp Ho Hcols Hchs Hfit. pose proof (rect_in_ok Hwin Hr) as (R1 & R2 & R3 & R4).
  assert (Hc1 : (1 <= columns ch)%N) by (unfold columns; destruct (char_full_width ch); lia).
  destruct (@C34_document_pane l doc o st r ups fl downs) as (k & rows & K & R & D); auto; [intros; lia|]. rewrite Ho in D.
  set (p := Pos (min_row r + k) (min_col r + total (map seg_width (left_segments fl)))) in *.
  do 2 eexists. split; [exact D|]. split; [rewrite focus_calls_app, (rows_no_focus R), app_nil_r; reflexivity|].
  destruct K as [K _]. split; [unfold p, in_rect; simpl; lia|].
  apply in_app_iff. right. destruct R as [Rl R].
  destruct (nth_error rows (N.to_nat k)) as [row|] eqn:Erow; [|apply nth_error_None in Erow; lia].
  apply in_concat. exists row. split; [eapply nth_error_In; eauto|].
  specialize (R _ _ Erow). rewrite N2Nat.id in R. destruct R as (shown & (rest' & S1 & S2 & S3) & ->).
  apply in_app_iff. left.
  assert (Eline : line_at ups fl downs (N.to_nat k) (N.to_nat k) = left_segments fl ++ right_segments fl).
  { unfold line_at. rewrite Nat.ltb_irrefl, Nat.eqb_refl. reflexivity. }
  rewrite Eline in S1. unfold styled_chars in S1. rewrite flat_map_app in S1.
  fold (styled_chars (left_segments fl)) in S1. fold (styled_chars (right_segments fl)) in S1. rewrite Hchs in S1.
  assert (Happ : forall a b, columns_of (a ++ b) = (columns_of a + columns_of b)%N).
  { intros a b. unfold columns_of. rewrite map_app. clear. induction (map (fun c : char * Sty => columns (fst c)) a) as [|x xs IHx]; [reflexivity|].
    cbn [app]. change (total (x :: ?l)) with (x + total l)%N in *. cbn [total fold_right] in *. unfold total in *. simpl. rewrite IHx. lia. }
  assert (Hpre : exists more, shown = styled_chars (left_segments fl) ++ (ch, chst) :: more).
  { rewrite Hcols in Hfit. revert S1 S2 S3 Hfit. generalize (styled_chars (left_segments fl)). intros pre S1 S2 S3 Hfit.
    destruct (Nat.le_gt_cases (S (length pre)) (length shown)) as [Hlen|Hlen].
    - exists (skipn (S (length pre)) shown).
      assert (E : firstn (S (length pre)) shown = pre ++ [(ch, chst)]).
      { assert (Ef : firstn (S (length pre)) (pre ++ (ch, chst) :: rest) = firstn (S (length pre)) (shown ++ rest')) by (rewrite S1; reflexivity).
        rewrite !firstn_app in Ef. replace (S (length pre) - length shown) with 0 in Ef by lia. rewrite ?firstn_O in Ef. rewrite app_nil_r in Ef.
        rewrite <- Ef. rewrite firstn_all2 by lia. replace (S (length pre) - length pre) with 1 by lia. reflexivity. }
      rewrite <- (firstn_skipn (S (length pre)) shown) at 1. rewrite E, <- app_assoc. reflexivity.
    - exfalso. assert (Es : shown = firstn (length shown) pre).
      { assert (Ef : firstn (length shown) (pre ++ (ch, chst) :: rest) = firstn (length shown) (shown ++ rest')) by (rewrite S1; reflexivity).
        rewrite !firstn_app in Ef. replace (length shown - length pre) with 0 in Ef by lia. rewrite Nat.sub_diag in Ef. rewrite ?firstn_O in Ef.
        rewrite !app_nil_r, firstn_all in Ef. symmetry. exact Ef. }
      assert (Er : rest' = skipn (length shown) pre ++ (ch, chst) :: rest).
      { rewrite <- (firstn_skipn (length shown) pre) in S1. rewrite <- Es in S1. rewrite <- app_assoc in S1. apply app_inv_head in S1. symmetry. exact S1. }
      rewrite Er in S3. destruct (skipn (length shown) pre) as [|c more] eqn:Esk.
      + cbn [app fst] in S3. rewrite <- (firstn_skipn (length shown) pre), Esk, app_nil_r, <- Es in Hfit. lia.
      + cbn [app] in S3. rewrite <- (firstn_skipn (length shown) pre), Esk, <- Es in Hfit.
        rewrite Happ in Hfit. change (columns_of (c :: more)) with (columns (fst c) + columns_of more)%N in Hfit. lia. }
  destruct Hpre as (more & ->).
  assert (Hplace : forall a col b, place (min_row r + k) col (a ++ b) = place (min_row r + k) col a ++ place (min_row r + k) (col + columns_of a) b).
  { induction a as [|[c s] a IHa]; intros col b; [unfold columns_of; cbn; rewrite N.add_0_r; reflexivity|].
    cbn [place app]. rewrite IHa. change (columns_of ((c, s) :: a)) with (columns c + columns_of a)%N. rewrite N.add_assoc. reflexivity. }
  rewrite Hplace. apply in_app_iff. right. cbn [place]. left. unfold p. rewrite Hcols. reflexivity.
Qed.

(** ** C37 *)

(** C37.  The space for the Dynamic subpanes of a Horz: the sizes and contents
    [ns] are computed from left to right, each from the space that Fixed and
    earlier Dynamic subpanes left ([horz_needs]).  The division of the space
    succeeds (so its assertion does not fail), a Dynamic subpane gets what was
    computed, and shows its content there; the other subpanes are displayed in
    their own parts. *)
Theorem C37_horz ps st r ns :
  sane_split sz ps -> rect_in sz r -> divisible (width_of r) (map fst ps) ->
  horz_needs get_content st ps (Size (after_fixed (width_of r) (map fst ps)) (height_of r)) ns ->
  exists widths,
    divvy (X := unit) false (width_of r) (map fst ps) (map fst ns) = Ok widths /\ (total widths <= width_of r)%N /\
    (forall i p, nth_error ps i = Some (Dynamic, p) ->
       nth_error widths i = nth_error (map fst ns) (dynamic_count (map fst (firstn i ps)))) /\
    forall parts,
      parts_shown (fun p r' part => displayed r' p st part) (column_slice r widths) ps ns parts ->
      displayed r (Horz ps) st (concat parts).
Proof.
  intros Hs Hr Hdiv Hn. pose proof (rect_in_ok Hwin Hr) as (R1 & R2 & R3 & R4).
  pose proof (after_fixed_le (width_of r) (map fst ps)) as Haf.
  assert (Hneeds := fun a b => @horz_needs_spec pd env unit sz L get_content st ps _ ns a b Hn). destruct Hneeds as (T1 & _); [simpl; lia|simpl; lia|]. cbn [s_width] in T1.
  assert (Hlen : length (map fst ns) = dynamic_count (map fst ps)) by (rewrite map_length; eapply needs_len; exact Hn).
  destruct (@divvy_spec unit false _ _ _ Hdiv Hlen T1) as (widths & D & D2 & _). exists widths. split; [exact D|]. split; [exact D2|].
  split.
  { intros i p Hi. destruct (@give_ok _ _ _ _ _ _ D) as (_ & _ & Hd & _). rewrite Hd, firstn_map; [reflexivity|]. rewrite nth_error_map, Hi. reflexivity. }
  intros parts [P1 P2]. apply ev_displayed. eapply horz_ok; eauto. split; auto. intros i k p part Hi Hp.
  destruct (P2 i k p part Hi Hp) as [A B]. split; auto. intros Hk. destruct (B Hk) as (N & HN). exists N. intros n Hn'.
  pose proof (HN n Hn') as E. pose proof (@drawn_emits pd env L get_content WE sz n p st (column_slice r widths i)) as He. rewrite E in He. exact He.
Qed.

(** C37.  Likewise for Vert. *)
Theorem C37_vert ps st r ns :
  sane_split sz ps -> rect_in sz r -> divisible (height_of r) (map fst ps) ->
  vert_needs get_content st ps (Size (width_of r) (after_fixed (height_of r) (map fst ps))) ns ->
  exists heights,
    divvy (X := unit) false (height_of r) (map fst ps) (map fst ns) = Ok heights /\ (total heights <= height_of r)%N /\
    (forall i p, nth_error ps i = Some (Dynamic, p) ->
       nth_error heights i = nth_error (map fst ns) (dynamic_count (map fst (firstn i ps)))) /\
    forall parts,
      parts_shown (fun p r' part => displayed r' p st part) (row_slice r heights) ps ns parts ->
      displayed r (Vert ps) st (concat parts).
Proof.
  intros Hs Hr Hdiv Hn. pose proof (rect_in_ok Hwin Hr) as (R1 & R2 & R3 & R4).
  pose proof (after_fixed_le (height_of r) (map fst ps)) as Haf.
  assert (Hneeds := fun a => @vert_needs_spec pd env unit sz L get_content st ps _ ns a Hn). destruct Hneeds as (T1 & _); [simpl; lia|]. cbn [s_height] in T1.
  assert (Hlen : length (map fst ns) = dynamic_count (map fst ps)) by (rewrite map_length; eapply needs_len; exact Hn).
  destruct (@divvy_spec unit false _ _ _ Hdiv Hlen T1) as (heights & D & D2 & _). exists heights. split; [exact D|]. split; [exact D2|].
  split.
  { intros i p Hi. destruct (@give_ok _ _ _ _ _ _ D) as (_ & _ & Hd & _). rewrite Hd, firstn_map; [reflexivity|]. rewrite nth_error_map, Hi. reflexivity. }
  intros parts [P1 P2]. apply ev_displayed. eapply vert_ok; eauto. split; auto. intros i k p part Hi Hp.
  destruct (P2 i k p part Hi Hp) as [A B]. split; auto. intros Hk. destruct (B Hk) as (N & HN). exists N. intros n Hn'.
  pose proof (HN n Hn') as E. pose proof (@drawn_emits pd env L get_content WE sz n p st (row_slice r heights i)) as He. rewrite E in He. exact He.
Qed.

(** C37.  The space that was computed suffices for the content: in a Vert, if
    there are enough lines above the focused line, its rows are exactly the
    visible lines; *)
Theorem C37_vert_all_lines ups fl downs k h i : k <= length ups -> k < h -> i < length (visible_lines ups fl downs k h) ->
  line_at ups fl downs k i = nth i (visible_lines ups fl downs k h) [].
Proof.
  intros Hk Hh Hi. unfold visible_lines in *. rewrite app_length, rev_length in Hi. cbn [length] in Hi. rewrite !firstn_length in Hi. unfold line_at.
  assert (Er : length (rev (firstn k ups)) = k) by (rewrite rev_length, firstn_length; lia).
  destruct (Nat.ltb_spec i k) as [H|H].
  - rewrite app_nth1 by lia. rewrite rev_nth by (rewrite firstn_length; lia). rewrite firstn_length. rewrite nth_firstn_lt by lia. f_equal. lia.
  - rewrite app_nth2 by lia. rewrite Er. destruct (Nat.eqb_spec i k) as [->|H2].
    + rewrite Nat.sub_diag. reflexivity.
    + remember (i - k - 1) as j. replace (i - k) with (S j) by lia. cbn [nth]. rewrite nth_firstn_lt by lia. reflexivity.
Qed.

(** C37.  ... and in a Horz every visible line is no wider than its space, if
    there is enough. *)
Theorem C37_horz_widest av lines l : In l lines ->
  (fold_right N.max 0 (map (fun l => total (map seg_width l)) lines) <= s_width av)%N ->
  (total (map seg_width l) <= widest av lines)%N.
Proof.
  intros Hin Hle. unfold widest. rewrite N.min_l by exact Hle. clear Hle. induction lines as [|x lines IH]; [destruct Hin|].
  cbn [map fold_right]. destruct Hin as [->|Hin]; [lia|]. specialize (IH Hin). lia.
Qed.

(** ** C44 *)

(** C44.  [pane_shows p st r calls] is the meaning of a pane notation, defined
    without reference to the implementation (SpecPane).  What it says is what is
    displayed. *)
Theorem C44_displays_meaning p st r calls :
  sane sz p -> rect_in sz r -> pane_shows get_content p st r calls -> displayed r p st calls.
Proof. intros Hs Hr H. apply ev_displayed. apply shows_sound; auto. Qed.

(** C44.  In particular in the whole window, *)
Theorem C44_display_pane p st calls :
  sane sz p -> pane_shows get_content p st (rect_from_size sz) calls -> ev (fun n => drawn n p st) (calls, Ok tt).
Proof. intros Hs H. apply C44_displays_meaning; auto. apply whole_in. Qed.

(** ... on any window. *)
Theorem C44_any_window (pw : PrettyWindow Sty) p st calls (w : Win) :
  w_size w = MOk sz -> sane sz p -> pane_shows get_content p st (rect_from_size sz) calls ->
  ev (fun n => display_pane get_content n p st w) (replay calls (Ok tt) w).
Proof.
  intros Hw Hs H. destruct (@shows_sound pd env WErr sz L get_content Hwin _ _ _ _ Hs (whole_in sz) H) as (N & HN).
  exists N. intros n Hn. rewrite (@C31_any_window pd env L get_content pw sz n p st w Hw).
  assert (X : SpecPane.drawn get_content WErr sz n p st = (calls, Ok tt)) by (apply emits_drawn; apply HN; exact Hn).
  rewrite X. reflexivity.
Qed.

(** C44.  Every well-made pane whose documents print without error is displayed,
    without error or panic. *)
Theorem C44_succeeds p st : (s_height sz <= 2 ^ 24)%N -> sane sz p -> well_made p ->
  (forall l doc o, label_in l p -> get_content l = Some (doc, o) -> height_ok (o_focus_height o) /\ prints_in_window sz doc o) ->
  exists calls, pane_shows get_content p st (rect_from_size sz) calls /\ ev (fun n => drawn n p st) (calls, Ok tt).
Proof.
  intros Hh Hs Hm Hp. destruct (@shows_complete pd env sz L get_content Hwin Hh p st (rect_from_size sz) Hs Hm) as (calls & H); [|apply whole_in|].
  { intros l Hl doc o E. destruct (Hp _ _ _ Hl E). split; auto. apply prints_all_visible; auto. }
  exists calls. split; auto. apply C44_display_pane; auto.
Qed.

(** ** C45 *)

(** C45.  A Dynamic pane that is not a (styled) document: nothing is displayed of
    the Horz or Vert, and the call fails. *)
Theorem C45_dynamic_must_be_document ps p st r fuel : In (Dynamic, p) ps -> ~ styled_doc p ->
  (exists f, drawn_in r fuel (Horz ps) st = ([], Fail f)) /\ (exists f, drawn_in r fuel (Vert ps) st = ([], Fail f)).
Proof. intros Hin Hn. apply (@misuse_fails pd env (recorder Sty WE sz) L get_content fuel ps p st r [] Hin Hn). Qed.

(** C45.  Dynamic panes that are documents are as good as others: every
    InvalidUseOfDynamic is about a Dynamic pane that is not a document, every
    window error was returned by a method of the window, and every printing error
    by printing a document of the pane. *)
Theorem C45_error_causes (pw : PrettyWindow Sty) fuel p st (w w' : Win) e :
  display_pane get_content fuel p st w = (w', Err e) -> error_cause get_content fuel p e.
Proof.
  unfold display_pane. destruct (w_size w) as [s|e'|] eqn:E; intros H.
  - eapply errs_rec; eauto.
  - injection H as <- <-. eapply cause_size; eauto.
  - discriminate.
Qed.

End Panes.

(** C34.  For panes with more than 2^24 rows the row is not always in the pane:
    [height - 1] is not a [f32]. *)
Theorem C34_huge_pane_refuted (pd : PrettyDoc) (env : Env) (X : Type) path ft ws sf :
  let o := PrintingOptions path ft f32_one ws sf in
  choose_focus_line_row (X := X) o 16777220 = Ok 16777220%N /\
  choose_focus_line_row (X := X) o 4294967295 = Ok 4294967295%N.
Proof. split; vm_compute; reflexivity. Qed.

(** C34.  A focus height that is not between 0 and 1 (or is not a number): a
    panic (printing_options.rs:38-39). *)
Theorem C34_bad_focus_height (pd : PrettyDoc) (env : Env) (X : Type) o h :
  f32_le f32_zero (o_focus_height o) = false \/ f32_le (o_focus_height o) f32_one = false ->
  choose_focus_line_row (X := X) o h = Panic PAssert.
Proof. intros [H|H]; unfold choose_focus_line_row; rewrite H; [reflexivity|]. destruct (f32_le f32_zero _); reflexivity. Qed.
