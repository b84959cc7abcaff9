(** PlainText (C38).

    [plain_text_window Sty] is PlainText as a window; [replay calls r t] performs
    a sequence of calls of display_char and set_focus on [t].  Vocabulary:
    SpecPlain. *)
From Verif Require Export PPlain Properties10.
From Coq Require Import Permutation.

Set Implicit Arguments.

Section Plain.
Context {pd : PrettyDoc}.
Notation win := (plain_text_window Sty).
Implicit Types (calls : list (call Sty)) (t : plain_text).

(** C38.  After any sequence of calls on a new PlainText: no call failed or
    panicked, the text is that of the grid of cells in which every cell holds
    what was last written to it, and the focus points are those that were set. *)
Theorem C38_plain_text w h calls :
  exists t, @replay pd win unit calls (Ok tt) (plain_text_new w h) = (t, Ok tt) /\
    plain_text_string t = grid_text calls /\
    pt_focus_points t = focus_positions calls /\ pt_size t = Size w h.
Proof.
  destruct (@replay_holds pd unit (Ok tt) calls [] (plain_text_new w h) (@holds_new pd w h)) as (t & E & H & S & F).
  exists t. split; [exact E|]. split; [apply holds_text; exact H|]. split; [exact F|exact S].
Qed.

(** C38.  The text is made of rows that end with a newline; each row is as long
    as needed for its rightmost cell, and there are as many as needed for the
    lowest one. *)
Theorem C38_extent calls row col : In (row, col) (flat_map (@cells Sty) calls) ->
  (row < rows_used calls)%N /\ (col < cols_used calls row)%N.
Proof. apply used_bounds. Qed.
Theorem C38_no_extra_row calls : rows_used calls = 0%N \/
  exists row col, In (row, col) (flat_map (@cells Sty) calls) /\ rows_used calls = (row + 1)%N.
Proof.
  destruct (max_attained (map (fun cell => fst cell + 1)%N (flat_map (@cells Sty) calls))) as [E|E]; [left; exact E|right].
  apply in_map_iff in E as ([row col] & E & H). exists row, col. split; auto.
Qed.
Theorem C38_no_extra_col calls row : cols_used calls row = 0%N \/
  exists col, In (row, col) (flat_map (@cells Sty) calls) /\ cols_used calls row = (col + 1)%N.
Proof.
  destruct (max_attained (map (fun cell => if N.eqb (fst cell) row then snd cell + 1 else 0)%N (flat_map (@cells Sty) calls))) as [E|E]; [left; exact E|].
  pose proof E as E'. apply in_map_iff in E' as ([r col] & E' & H). cbn [fst snd] in E'. destruct (N.eqb_spec r row) as [->|_].
  - right. exists col. split; [exact H|]. unfold cols_used. rewrite <- E'. reflexivity.
  - left. unfold cols_used. rewrite <- E'. reflexivity.
Qed.

(** C38.  If no two calls write to the same cell, every character is in the cell
    where it was put (with its second half in the next), and the other cells are
    gaps. *)
Theorem C38_characters calls : NoDup (flat_map (@cells Sty) calls) ->
  (forall ch row col st fw, In (Put ch (Pos row col) st fw) calls ->
     cell_after calls (row, col) = Some (Letter ch) /\
     (fw = true -> cell_after calls (row, col + 1)%N = Some SecondHalf)) /\
  (forall cell, ~ In cell (flat_map (@cells Sty) calls) -> cell_after calls cell = None).
Proof.
  intros Hn. split.
  - intros ch row col st fw Hin. split.
    + apply (@apart_cell Sty calls _ (row, col) _ Hn Hin). cbn [puts]. rewrite (proj2 (same_cell_spec _ _) eq_refl). reflexivity.
    + intros ->. apply (@apart_cell Sty calls _ (row, col + 1)%N _ Hn Hin). cbn [puts].
      rewrite (proj2 (same_cell_spec (row, (col + 1)%N) _) eq_refl). cbn [andb]. unfold same_cell. cbn [fst snd]. rewrite N.eqb_refl.
      destruct (N.eqb_spec (col + 1) col); [lia|]. reflexivity.
  - intros cell H. apply cell_after_none. exact H.
Qed.

(** C38.  ... and the order of the calls does not matter. *)
Theorem C38_any_order w h calls1 calls2 : NoDup (flat_map (@cells Sty) calls1) -> Permutation calls1 calls2 ->
  exists t1 t2,
    @replay pd win unit calls1 (Ok tt) (plain_text_new w h) = (t1, Ok tt) /\
    @replay pd win unit calls2 (Ok tt) (plain_text_new w h) = (t2, Ok tt) /\
    plain_text_string t1 = plain_text_string t2.
Proof.
  intros Hn Hp. destruct (C38_plain_text w h calls1) as (t1 & E1 & S1 & _). destruct (C38_plain_text w h calls2) as (t2 & E2 & S2 & _).
  exists t1, t2. split; [exact E1|]. split; [exact E2|]. rewrite S1, S2. apply grid_perm; auto.
Qed.

(** ** With display_pane *)
Context {env : Env} {L : Type}.
Variable get_content : L -> option (D * printing_options).
Notation pane := (pane L Sty).

Definition text_of (x : plain_text * res (pane_err Empty_set Er) unit) : str * list pos * res (pane_err Empty_set Er) unit :=
  (plain_text_string (fst x), pt_focus_points (fst x), snd x).

Lemma display_plain w h fuel (p : pane) st calls r :
  drawn get_content Empty_set (Size w h) fuel p st = (calls, r) ->
  text_of (@display_pane pd env win L get_content fuel p st (plain_text_new w h)) = (grid_text calls, focus_positions calls, r).
Proof.
  intros E. rewrite (@C31_any_window pd env L get_content win (Size w h) fuel p st (plain_text_new w h) eq_refl).
  cbn [WErr plain_text_window]. rewrite E.
  destruct (@replay_holds pd unit r calls [] (plain_text_new w h) (@holds_new pd w h)) as (t & E' & H & S & F).
  rewrite E'. unfold text_of. cbn [fst snd]. rewrite (holds_text H), F. reflexivity.
Qed.

Section Filled.
Variables w h : N.
Hypothesis Hwin : window_size (Size w h).
Hypothesis Hw : (0 < w)%N.

Lemma filled_used fuel (p : pane) st calls : sane (Size w h) p ->
  (forall row col, (row < h)%N -> (col < w)%N -> exists c, In c calls /\ In (row, col) (cells c)) ->
  drawn get_content Empty_set (Size w h) fuel p st = (calls, Ok tt) ->
  rows_used calls = h /\ forall row, (row < h)%N -> cols_used calls row = w.
Proof.
  intros Hs Hf E. pose proof (@C31_inside_window pd env L get_content Empty_set (Size w h) Hwin _ _ _ _ _ Hs E) as Hin. cbn [s_height s_width] in Hin.
  assert (Hin' : forall row col, In (row, col) (flat_map (@cells Sty) calls) -> (row < h)%N /\ (col < w)%N).
  { intros row col H. apply in_flat_map in H as (c & H1 & H2). eapply Hin; eauto. }
  assert (Hf' : forall row col, (row < h)%N -> (col < w)%N -> In (row, col) (flat_map (@cells Sty) calls)).
  { intros row col H1 H2. apply in_flat_map. apply Hf; assumption. }
  split.
  - destruct (C38_no_extra_row calls) as [H|(row & col & H1 & H2)].
    + rewrite H. destruct (N.eq_dec h 0) as [->|Hh]; [reflexivity|]. destruct (@C38_extent calls (h - 1) (w - 1)); [apply Hf'; lia|]. lia.
    + apply Hin' in H1 as [H1 H3]. destruct (@C38_extent calls (h - 1) (w - 1)); [apply Hf'; lia|]. lia.
  - intros row Hr. destruct (C38_no_extra_col calls row) as [H|(col & H1 & H2)].
    + destruct (@C38_extent calls row (w - 1)); [apply Hf'; lia|]. lia.
    + apply Hin' in H1. destruct (@C38_extent calls row (w - 1)); [apply Hf'; lia|]. lia.
Qed.

Lemma grid_full calls : rows_used calls = h -> (forall row, (row < h)%N -> cols_used calls row = w) ->
  grid_text calls = flat_map (fun row => flat_map (fun col => cell_text (cell_after calls (row, col))) (range 0 w) ++ [newline_char]) (range 0 h).
Proof.
  intros H1 H2. unfold grid_text, row_text. rewrite H1.
  assert (X : forall l, (forall r, In r l -> (r < h)%N) ->
    flat_map (fun row => flat_map (fun col => cell_text (cell_after calls (row, col))) (range 0 (cols_used calls row)) ++ [newline_char]) l =
    flat_map (fun row => flat_map (fun col => cell_text (cell_after calls (row, col))) (range 0 w) ++ [newline_char]) l).
  { induction l as [|r l IH]; intros Hl; [reflexivity|]. cbn [flat_map]. rewrite IH by (intros; apply Hl; right; auto). rewrite H2 by (apply Hl; left; auto). reflexivity. }
  apply X. intros r Hr. apply range_in in Hr. lia.
Qed.

(** C38.  A pane that fills its window, displayed without error: the text has
    [h] rows, each made of the contents of its [w] cells; there are no gaps. *)
Theorem C38_display_pane fuel (p : pane) st calls :
  sane (Size w h) p -> filled get_content p -> drawn get_content Empty_set (Size w h) fuel p st = (calls, Ok tt) ->
  text_of (@display_pane pd env win L get_content fuel p st (plain_text_new w h)) =
    (flat_map (fun row => flat_map (fun col => cell_text (cell_after calls (row, col))) (range 0 w) ++ [newline_char]) (range 0 h),
     focus_positions calls, Ok tt) /\
  forall row col, (row < h)%N -> (col < w)%N -> cell_after calls (row, col) <> None.
Proof.
  intros Hs Hf E. pose proof (fun row col => @C33_every_cell pd env L get_content Empty_set (Size w h) Hwin fuel p st calls row col Hs Hf E) as Hc.
  cbn [s_height s_width] in Hc. destruct (@filled_used fuel p st calls Hs Hc E) as [U1 U2].
  split.
  - rewrite (@display_plain w h _ _ _ _ _ E), (@grid_full calls U1 U2). reflexivity.
  - intros row col H1 H2. apply cell_after_in. apply in_flat_map. apply Hc; auto.
Qed.

(** The text of a row. *)
Lemma placed_text calls row : forall shown col,
  (forall c cell x, In c (place row col shown) -> puts c cell = Some x -> cell_after calls cell = Some x) ->
  flat_map (fun col => cell_text (cell_after calls (row, col))) (range col (col + columns_of shown)) =
  filter (fun ch => negb (N.eqb ch 0)) (map fst shown).
Proof.
  induction shown as [|[ch st] shown IH]; intros col H.
  - unfold columns_of. cbn [map total fold_right]. rewrite range_nil by lia. reflexivity.
  - change (columns_of ((ch, st) :: shown)) with (columns ch + columns_of shown)%N.
    rewrite (@range_app col (col + columns ch)) by lia. rewrite flat_map_app. replace (col + (columns ch + columns_of shown))%N with (col + columns ch + columns_of shown)%N by lia.
    rewrite IH by (intros c cell x Hc; apply H; right; exact Hc).
    assert (H1 : cell_after calls (row, col) = Some (Letter ch)).
    { eapply H; [left; reflexivity|]. cbn [puts]. rewrite (proj2 (same_cell_spec _ _) eq_refl). reflexivity. }
    assert (H2 : char_full_width ch = true -> cell_after calls (row, col + 1)%N = Some SecondHalf).
    { intros Hfw. eapply H; [left; reflexivity|]. cbn [puts]. rewrite Hfw, (proj2 (same_cell_spec (row, (col + 1)%N) _) eq_refl). cbn [andb].
      unfold same_cell. cbn [fst snd]. rewrite N.eqb_refl. destruct (N.eqb_spec (col + 1) col); [lia|]. reflexivity. }
    assert (E : flat_map (fun col => cell_text (cell_after calls (row, col))) (range col (col + columns ch)) = if N.eqb ch 0 then [] else [ch]).
    { unfold columns. destruct (char_full_width ch) eqn:Efw.
      - rewrite range_cons by lia. rewrite range_cons by lia. rewrite range_nil by lia. cbn [flat_map]. rewrite H1, H2 by reflexivity.
        cbn [cell_text]. rewrite !app_nil_r. reflexivity.
      - rewrite range_cons by lia. rewrite range_nil by lia. cbn [flat_map]. rewrite H1. cbn [cell_text]. rewrite app_nil_r. reflexivity. }
    rewrite E. cbn [map filter fst]. destruct (N.eqb ch 0); reflexivity.
Qed.

Lemma blanks_text calls row st : forall n a b, n = N.to_nat (b - a) ->
  (forall c cell x, In c (blanks row a b st) -> puts c cell = Some x -> cell_after calls cell = Some x) ->
  flat_map (fun col => cell_text (cell_after calls (row, col))) (range a b) = repeat space n.
Proof.
  induction n as [|n IH]; intros a b E H.
  - rewrite range_nil by lia. reflexivity.
  - rewrite range_cons by lia. cbn [flat_map repeat]. rewrite (IH (a + 1)%N b) by (lia || (intros c cell x Hc; apply H; unfold blanks in *; rewrite (@range_cons a b) by lia; right; exact Hc)).
    assert (H1 : cell_after calls (row, a) = Some (Letter space)).
    { apply (H (Put space (Pos row a) st false)); [unfold blanks; rewrite (@range_cons a b) by lia; left; reflexivity|].
      cbn [puts]. rewrite (proj2 (same_cell_spec _ _) eq_refl). reflexivity. }
    rewrite H1. reflexivity.
Qed.

(** C38.  A document in a PlainText: each row is the longest prefix of its line
    that fits, and spaces. *)
Theorem C38_document l doc o st ups fl downs :
  get_content l = Some (doc, o) -> (0 < h <= 2 ^ 24)%N -> height_ok (o_focus_height o) ->
  printed_in doc o w st ups fl downs ->
  (o_set_focus o = true -> (total (map seg_width (left_segments fl)) < U16)%N) ->
  exists k rows,
    rounded_row h (o_focus_height o) k /\
    length rows = N.to_nat h /\
    (forall i row, nth_error rows i = Some row -> text_of_row w (styled_chars (line_at ups fl downs (N.to_nat k) i)) row) /\
    ev (fun n => text_of (@display_pane pd env win L get_content n (PDoc l) st (plain_text_new w h)))
       (flat_map (fun row => row ++ [newline_char]) rows,
        (if o_set_focus o then [Pos k (total (map seg_width (left_segments fl)))] else []), Ok tt).
Proof.
  intros Hg Hh Hf Hp Hfoc.
  destruct (@C34_document_pane pd env L get_content Empty_set (Size w h) Hwin l doc o st (rect_from_size (Size w h)) ups fl downs)
    as (k & crows & K & R & (N0 & HN)); auto.
  { apply whole_in. }
  { cbn. lia. }
  { cbn. lia. }
  { cbn [rect_from_size max_col min_col s_width]. rewrite N.sub_0_r. exact Hp. }
  cbn [rect_from_size min_row max_row min_col max_col s_width s_height] in *. rewrite N.sub_0_r in *. rewrite !N.add_0_l in *.
  set (calls := (if o_set_focus o then _ else _) ++ concat crows) in *.
  assert (Hs : sane (Size w h) (PDoc l : pane)) by constructor.
  assert (E0 : drawn get_content Empty_set (Size w h) N0 (PDoc l) st = (calls, Ok tt)) by (apply HN; lia).
  pose proof (@C32_no_cell_twice pd env L get_content Empty_set (Size w h) Hwin _ _ _ _ _ Hs E0) as Hnd.
  pose proof (fun row col => @C33_every_cell pd env L get_content Empty_set (Size w h) Hwin N0 (PDoc l) st calls row col Hs (@filled_doc _ _ _ get_content l _ Hg) E0) as Hc.
  cbn [s_height s_width] in Hc. destruct (@filled_used N0 (PDoc l) st calls Hs Hc E0) as [U1 U2].
  pose proof (@grid_full calls U1 U2) as G.
  assert (Erows : forall n i, n + i = N.to_nat h -> exists rows, length rows = n /\
    (forall j row, nth_error rows j = Some row -> text_of_row w (styled_chars (line_at ups fl downs (N.to_nat k) (i + j))) row) /\
    flat_map (fun row => flat_map (fun col => cell_text (cell_after calls (row, col))) (range 0 w) ++ [newline_char]) (range (N.of_nat i) h) =
    flat_map (fun row => row ++ [newline_char]) rows).
  { induction n as [|n IH]; intros i Hi.
    - exists []. split; [reflexivity|]. split; [intros [|j] row H; discriminate|]. rewrite (@range_nil (N.of_nat i) h) by lia. reflexivity.
    - destruct (IH (S i)) as (rows & R1 & R2 & R3); [lia|]. rewrite (@range_cons (N.of_nat i) h) by lia. cbn [flat_map].
      replace (N.of_nat i + 1)%N with (N.of_nat (S i)) by lia. rewrite R3.
      destruct R as [Rl R]. cbn [rect_from_size max_row min_row s_height] in Rl. destruct (nth_error crows i) as [crow|] eqn:Ei; [|apply nth_error_None in Ei; lia].
      destruct (R _ _ Ei) as (shown & Hfit & Ecrow). cbn [rect_from_size min_row max_row min_col max_col s_width s_height] in *.
      rewrite N.sub_0_r in Hfit. rewrite !N.add_0_l in Ecrow. unfold shows_lines in *.
      exists ((filter (fun ch => negb (N.eqb ch 0)) (map fst shown) ++ repeat space (N.to_nat (w - columns_of shown))) :: rows).
      split; [simpl; lia|]. split.
      + intros [|j] row Hj.
        * cbn [nth_error] in Hj. injection Hj as <-. rewrite Nat.add_0_r. exists shown. split; [exact Hfit|reflexivity].
        * replace (i + S j) with (S i + j) by lia. apply R2. exact Hj.
      + cbn [flat_map]. f_equal. f_equal.
        assert (Hlook : forall c cell x, In c crow -> puts c cell = Some x -> cell_after calls cell = Some x).
        { intros c cell x Hcin Hpx. apply (@apart_cell Sty calls c cell x Hnd); [|exact Hpx]. unfold calls. apply in_app_iff. right.
          apply in_concat. exists crow. split; [eapply nth_error_In; eauto|exact Hcin]. }
        assert (Hcols : (columns_of shown <= w)%N) by (destruct Hfit as (rest & _ & H & _); exact H).
        rewrite (@range_app 0 (columns_of shown) w) by lia. rewrite flat_map_app. f_equal.
        * replace (columns_of shown) with (0 + columns_of shown)%N by lia. apply placed_text. intros c cell x H1. apply Hlook. rewrite Ecrow. apply in_app_iff. auto.
        * apply (@blanks_text calls (N.of_nat i) st); [lia|]. intros c cell x H1. apply Hlook. rewrite Ecrow. apply in_app_iff. auto. }
  destruct (Erows (N.to_nat h) 0) as (rows & R1 & R2 & R3); [lia|]. exists k, rows. split; [exact K|]. split; [exact R1|]. split; [exact R2|].
  exists N0. intros n Hn.
  assert (E : drawn get_content Empty_set (Size w h) n (PDoc l) st = (calls, Ok tt)) by (apply HN; lia).
  rewrite (@display_plain w h _ _ _ _ _ E), G. change (N.of_nat 0) with 0%N in R3. rewrite R3. f_equal. f_equal.
  unfold calls. change (@focus_positions Sty) with (@focus_calls pd). rewrite focus_calls_app, (rows_no_focus R), app_nil_r.
  destruct (o_set_focus o); reflexivity.
Qed.

End Filled.

End Plain.

(** C38.  The character U+0000 is not printed, so that the characters after it on
    a row move to the left. *)
Theorem C38_nul_refuted (pd : PrettyDoc) (st : Sty) :
  let a := 97%N in let calls := [Put 0%N (Pos 0 0) st false; Put a (Pos 0 1) st false] in
  NoDup (flat_map (@cells Sty) calls) /\
  exists t, @replay pd (plain_text_window Sty) unit calls (Ok tt) (plain_text_new 10 10) = (t, Ok tt) /\
    plain_text_string t = [a; newline_char].
Proof.
  split.
  - cbn. constructor; [intros [H|[]]; discriminate|constructor; [intros []|constructor]].
  - eexists. split; reflexivity.
Qed.
