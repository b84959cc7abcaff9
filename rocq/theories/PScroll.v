(** Lemmas for C75: what a pane shows is a part of the whole document. *)
From Verif Require Export SpecScroll Properties35 Properties10.

Set Implicit Arguments.

Section Page.
Context {pd : PrettyDoc} {env : Env} {ideq : IdEq pd}.

Lemma styled_chars_app (a b : line) : styled_chars (a ++ b) = styled_chars a ++ styled_chars b.
Proof. apply flat_map_app. Qed.

Lemma printed_page (r : rdoc) (doc : D) (Hrep : rep r doc) (Hv : valid_doc r) (Hu : unique_ids (id_at r)) w st path ft ups fl downs :
  (is_text_target ft = true -> splittable r) -> printed doc w path ft st ups fl downs ->
  exists es, layout w (doc_shape r st) = Some es /\
    map styled_chars (all_lines ups fl downs) = map styled_chars (lines_of es).
Proof.
  intros Hsp Hp. destruct (is_text_target ft) eqn:Hft.
  - destruct Hp as (up & down & H1 & H2 & H3).
    destruct (@first_lab_spec _ _ _ r doc Hrep Hv Hu w path ft st) as (res & Hev & H); [auto|].
    pose proof (ev_det Hev H1). subst res. destruct H as (ru & rd & Hru & Hrd & _ & _ & H).
    pose proof (ev_det Hru H2). pose proof (ev_det Hrd H3). subst ru rd.
    destruct (layout w (doc_shape r st)) as [es|]; [|destruct H; discriminate].
    exists es. split; [reflexivity|].
    destruct H as (ups' & downs' & pre & post & E1 & E2 & Hdiv & L1 & L2). injection E1 as <-. injection E2 as <-.
    destruct ft as [| | |n]; try discriminate.
    destruct Hdiv as (a & mid & j & t & rest & -> & -> & -> & _).
    rewrite (app_assoc a mid (EText j t :: rest)).
    rewrite (app_assoc a mid [EText j (fst (split_at t n))]) in L1.
    destruct (lines_app (a ++ mid) [EText j (fst (split_at t n))] []) as (l & ls & A1 & A2).
    unfold lines_of in L1. rewrite A2 in L1.
    destruct (lines_app (a ++ mid) (EText j t :: rest) []) as (l' & ls' & B1 & B2).
    rewrite A1 in B1. apply app_inj_tail in B1 as [<- <-]. unfold lines_of. rewrite B2.
    cbn [lines_from] in L1, L2 |- *. apply app_inj_tail in L1 as [-> L1].
    destruct (lines_cur rest [text_seg (snd (split_at t n))]) as (r0 & rs & C1 & C2).
    cbn [app] in L2. rewrite C2 in L2. injection L2 as L2 <-.
    destruct (lines_cur rest (l ++ [text_seg t])) as (r1 & rs1 & D1 & D2).
    rewrite C1 in D1. injection D1 as <- <-. rewrite D2.
    unfold all_lines. rewrite !map_app. cbn [map].
    assert (E : styled_chars [text_seg (fst (split_at t n))] ++ styled_chars [text_seg (snd (split_at t n))] = styled_chars [text_seg t]).
    { unfold styled_chars, split_at, text_seg. cbn [flat_map seg_str seg_style fst snd tx_str tx_style app].
      rewrite !app_nil_r, <- map_app, firstn_skipn. reflexivity. }
    assert (E' : styled_chars (left_segments fl ++ right_segments fl) = styled_chars (l ++ text_seg t :: r0)).
    { rewrite <- L1, <- L2. change (text_seg t :: r0) with ([text_seg t] ++ r0). rewrite !styled_chars_app, <- E, <- !app_assoc. do 2 f_equal. unfold styled_chars. cbn [flat_map]. rewrite ?app_nil_r. reflexivity. }
    rewrite E'. rewrite <- app_assoc. reflexivity.
  - destruct (C01_printed_has_layout Hrep Hv Hft Hp) as (es & Hes & E). exists es. split; [exact Hes|]. rewrite E. reflexivity.
Qed.

Lemma nth_map_nil (ls : list line) (ls' : list line) i :
  map styled_chars ls = map styled_chars ls' -> styled_chars (nth i ls []) = styled_chars (nth i ls' []).
Proof.
  intros H. change (@nil (char * Sty)) with (styled_chars []) || idtac.
  rewrite <- (map_nth styled_chars ls [] i), <- (map_nth styled_chars ls' [] i), H. reflexivity.
Qed.

(** The line on row [i] of a pane is a line of the document. *)
Lemma line_at_page ups fl downs whole k i :
  map styled_chars (all_lines ups fl downs) = map styled_chars whole ->
  styled_chars (line_at ups fl downs k i) = page_line whole (Z.of_nat (length ups) - Z.of_nat k + Z.of_nat i).
Proof.
  intros H. unfold page_line, line_at.
  destruct (Z.ltb_spec (Z.of_nat (length ups) - Z.of_nat k + Z.of_nat i) 0) as [Hz|Hz].
  { destruct (Nat.ltb_spec i k); [|lia]. rewrite nth_overflow by lia. reflexivity. }
  rewrite <- (nth_map_nil (all_lines ups fl downs) whole _ H). f_equal. unfold all_lines.
  destruct (Nat.ltb_spec i k).
  - rewrite app_nth1 by (rewrite rev_length; lia). rewrite rev_nth by lia. f_equal. lia.
  - rewrite app_nth2 by (rewrite rev_length; lia). rewrite rev_length.
    replace (Z.to_nat (Z.of_nat (length ups) - Z.of_nat k + Z.of_nat i) - length ups) with (i - k) by lia.
    destruct (Nat.eqb_spec i k) as [->|]; [rewrite Nat.sub_diag; reflexivity|].
    destruct (i - k) as [|x] eqn:Ex; [lia|]. cbn [nth]. f_equal. lia.
Qed.

(** ** The calls of a row *)

Notation rel r := (fun c : call Sty =>
    match c with Put ch p st full => [((p_col p - min_col r)%N, ch, st, full)] | SetFocus _ => [] end).

Lemma rel_place (r1 r2 : rectangle) row1 row2 chs : forall c1 c2, (c1 - min_col r1 = c2 - min_col r2)%N ->
  (min_col r1 <= c1)%N -> (min_col r2 <= c2)%N ->
  flat_map (rel r1) (place row1 c1 chs) = flat_map (rel r2) (place row2 c2 chs).
Proof.
  induction chs as [|[ch s] chs IH]; intros c1 c2 H H1 H2; [reflexivity|]. cbn [place flat_map app p_col].
  rewrite H. f_equal. apply IH; lia.
Qed.

Lemma rel_blanks (r1 r2 : rectangle) row1 row2 st n : forall c1 c2 d1 d2, n = N.to_nat (d1 - c1) -> (c1 - min_col r1 = c2 - min_col r2)%N ->
  (min_col r1 <= c1)%N -> (min_col r2 <= c2)%N -> (d1 - c1 = d2 - c2)%N ->
  flat_map (rel r1) (blanks row1 c1 d1 st) = flat_map (rel r2) (blanks row2 c2 d2 st).
Proof.
  induction n as [|n IH]; intros c1 c2 d1 d2 Hn H H1 H2 Hd; unfold blanks.
  - rewrite (@range_nil c1 d1), (@range_nil c2 d2) by lia. reflexivity.
  - rewrite (@range_cons c1 d1), (@range_cons c2 d2) by lia. cbn [map flat_map app p_col]. rewrite H. f_equal. apply IH; lia.
Qed.

Lemma rel_row (r1 r2 : rectangle) row1 row2 chs st cs1 cs2 :
  (min_col r1 <= max_col r1)%N -> (min_col r2 <= max_col r2)%N ->
  (max_col r1 - min_col r1 = max_col r2 - min_col r2)%N ->
  row_shows r1 row1 chs st cs1 -> row_shows r2 row2 chs st cs2 -> flat_map (rel r1) cs1 = flat_map (rel r2) cs2.
Proof.
  intros O1 O2 Hw (s1 & H1 & ->) (s2 & H2 & ->). rewrite Hw in H1. rewrite (fitting_det H2 H1). rewrite !flat_map_app. f_equal.
  - apply rel_place; lia.
  - destruct H1 as (rest & _ & Hc & _). eapply rel_blanks; [reflexivity|lia..].
Qed.

Lemma row_calls r row chs st cs : row_shows r row chs st cs -> forall c, In c cs -> exists ch col s full, c = Put ch (Pos row col) s full.
Proof.
  intros (shown & _ & ->) c Hc. apply in_app_iff in Hc as [Hc|Hc].
  - revert Hc. generalize (min_col r). induction shown as [|[ch s] shown IH]; intros col Hc; [destruct Hc|destruct Hc as [<-|Hc]]; eauto 10.
  - unfold blanks in Hc. apply in_map_iff in Hc as (col & <- & _). eauto 10.
Qed.

Lemma picture_row r i row chs st cs : row_shows r row chs st cs ->
  row_picture r cs i = if (row =? min_row r + N.of_nat i)%N then flat_map (rel r) cs else [].
Proof.
  intros H. pose proof (row_calls H) as Hc. clear H. unfold row_picture. induction cs as [|c cs IH]; [destruct (_ =? _)%N; reflexivity|].
  cbn [flat_map]. rewrite IH by (intros; apply Hc; right; auto). destruct (Hc c (or_introl eq_refl)) as (ch & col & s & full & ->).
  cbn [p_row]. destruct (_ =? _)%N; reflexivity.
Qed.

Lemma picture_app r c1 c2 i : row_picture r (c1 ++ c2) i = row_picture r c1 i ++ row_picture r c2 i.
Proof. apply flat_map_app. Qed.

Lemma picture_rows r chars st rows i : shows_chars r chars st rows ->
  forall row, nth_error rows i = Some row -> row_picture r (List.concat rows) i = flat_map (rel r) row.
Proof.
  intros [_ H].
  assert (G : forall rows k, (forall j row, nth_error rows j = Some row -> row_shows r (min_row r + N.of_nat (k + j)) (chars (k + j)%nat) st row) ->
    row_picture r (List.concat rows) i = if i <? k then [] else match nth_error rows (i - k) with Some row => flat_map (rel r) row | None => [] end).
  { clear. induction rows as [|row rows IH]; intros k H.
    - replace (nth_error (@nil (list (call Sty))) (i - k)) with (@None (list (call Sty))) by (destruct (i - k); reflexivity). destruct (i <? k); reflexivity.
    - cbn [List.concat]. rewrite picture_app.
      pose proof (H 0 row eq_refl) as H0. rewrite Nat.add_0_r in H0. rewrite (picture_row i H0).
      rewrite (IH (S k)).
      2:{ intros j row' E. specialize (H (S j) row' E). replace (S k + j) with (k + S j) by lia. exact H. }
      destruct (N.eqb_spec (min_row r + N.of_nat k) (min_row r + N.of_nat i)) as [E|E].
      + replace i with k by lia. rewrite Nat.ltb_irrefl, Nat.sub_diag. destruct (Nat.ltb_spec k (S k)); [|lia]. cbn [nth_error]. apply app_nil_r.
      + cbn [app]. destruct (Nat.ltb_spec i (S k)), (Nat.ltb_spec i k); try lia; [reflexivity|].
        replace (i - k) with (S (i - S k)) by lia. reflexivity. }
  intros row Hrow. rewrite (G rows 0) by (intros; apply H; auto). rewrite Nat.sub_0_r, Hrow. reflexivity.
Qed.

End Page.

Section PaneRow.
Context {pd : PrettyDoc} {env : Env} {L : Type}.
Variable get_content : L -> option (D * printing_options).
Variables (WE : Type) (sz : size).
Hypothesis Hwin : window_size sz.
Notation width_of r := (max_col r - min_col r)%N.
Notation height_of r := (max_row r - min_row r)%N.

(** C34 with the row that is computed. *)
Lemma doc_pane_row l doc o st r ups fl downs :
  get_content l = Some (doc, o) -> rect_in sz r ->
  (0 < width_of r)%N -> (0 < height_of r <= 2 ^ 24)%N -> height_ok (o_focus_height o) ->
  printed_in doc o (width_of r) st ups fl downs ->
  (o_set_focus o = true -> (min_col r + total (map seg_width (left_segments fl)) < U16)%N) ->
  exists k rows,
    choose_focus_line_row (X := perr Er) o (height_of r) = Ok k /\
    rounded_row (height_of r) (o_focus_height o) k /\
    shows_lines r (line_at ups fl downs (N.to_nat k)) st rows /\
    ev (fun n => drawn_in get_content WE sz r n (PDoc l) st)
      ((if o_set_focus o then [SetFocus (Pos (min_row r + k) (min_col r + total (map seg_width (left_segments fl))))] else [])
       ++ List.concat rows, Ok tt).
Proof.
  intros Hg Hr Hw Hh Hf Hp Hfoc. pose proof (rect_in_ok Hwin Hr) as (R1 & R2 & R3 & R4).
  destruct (@focus_row_spec pd env (perr Er) o (height_of r) Hh Hf) as (k & K1 & K2). pose proof K2 as [K3 _].
  set (c := Content (line_at ups fl downs (N.to_nat k)) st (focus_point o k fl)).
  assert (Hc : content_of get_content l st (Size (width_of r) (height_of r)) (visible_lines ups fl downs (N.to_nat k) (N.to_nat (height_of r))) c).
  { apply (@content_printed pd env L get_content l st (Size (width_of r) (height_of r)) doc o k ups fl downs); auto; [apply printed_in_part; exact Hp|]. intros E. specialize (Hfoc E). lia. }
  destruct (@content_exists pd env WE sz c r) as (calls & Hin); [apply (rect_in_ok Hwin); auto| |].
  { unfold c, focus_point. cbn [c_focus]. destruct (o_set_focus o); [|exact I]. specialize (Hfoc eq_refl). cbn [p_row p_col]. lia. }
  pose proof Hin as (rows & Hrows & Hcalls). exists k, rows. split; [exact K1|]. split; [exact K2|]. split; [exact Hrows|].
  apply ev_displayed.
  assert (E : calls = (if o_set_focus o then [SetFocus (Pos (min_row r + k) (min_col r + total (map seg_width (left_segments fl))))] else []) ++ List.concat rows).
  { unfold c, focus_point in Hcalls. cbn [c_focus] in Hcalls. destruct (o_set_focus o); [destruct Hcalls as (_ & _ & ->); reflexivity|exact Hcalls]. }
  rewrite <- E. eapply PPane7.doc_ok; eauto.
Qed.

Lemma same_focus_row o1 o2 h1 h2 k1 k2 : h1 = h2 -> o_focus_height o1 = o_focus_height o2 ->
  choose_focus_line_row (X := perr Er) o1 h1 = Ok k1 -> choose_focus_line_row (X := perr Er) o2 h2 = Ok k2 -> k1 = k2.
Proof. intros -> E. unfold choose_focus_line_row. rewrite E. intros H1 H2. rewrite H1 in H2. injection H2 as ->. reflexivity. Qed.

Lemma top_focus_row o h k : o_focus_height o = f32_zero ->
  choose_focus_line_row (X := perr Er) o h = Ok k -> rounded_row h (o_focus_height o) k -> k = 0%N.
Proof. intros -> _ [_ H]. exact H. Qed.

(** Rows that show the same characters are the same. *)
Lemma same_rows r chars1 chars2 st rows1 rows2 : shows_chars r chars1 st rows1 -> shows_chars r chars2 st rows2 ->
  (forall i, chars1 i = chars2 i) -> rows1 = rows2.
Proof.
  intros [L1 H1] [L2 H2] E.
  assert (G : forall i, nth_error rows1 i = nth_error rows2 i).
  2:{ clear - G. revert rows2 G. induction rows1 as [|a l IH]; intros [|b l2] G; auto.
      - discriminate (G 0).
      - discriminate (G 0).
      - pose proof (G 0) as G0. injection G0 as ->. f_equal. apply IH. intros i. exact (G (S i)). }
  intros i. destruct (nth_error rows1 i) as [row1|] eqn:X1; destruct (nth_error rows2 i) as [row2|] eqn:X2; auto.
  - f_equal. specialize (H1 _ _ X1). specialize (H2 _ _ X2). rewrite E in H1. eapply row_shows_det; eauto.
  - apply nth_error_None in X2. assert (i < length rows1) by (apply nth_error_Some; congruence). lia.
  - apply nth_error_None in X1. assert (i < length rows2) by (apply nth_error_Some; congruence). lia.
Qed.
End PaneRow.
