(** Documents shown in full, one below the other (C65).  Vocabulary: SpecPage. *)
From Verif Require Export SpecPage Properties11 Properties25.

Set Implicit Arguments.

(** A fraction of zero is row 0, in panes of any height. *)
Lemma zero_row {pd : PrettyDoc} {env : Env} {X} o h sign : o_focus_height o = S754_zero sign -> (0 < h)%N ->
  choose_focus_line_row (X := X) o h = Ok 0%N.
Proof.
  intros E Hh. unfold choose_focus_line_row. rewrite E.
  replace (f32_le f32_zero (S754_zero sign)) with true by reflexivity. replace (f32_le (S754_zero sign) f32_one) with true by reflexivity.
  unfold sub32, subM. destruct (N.leb_spec 1 h); [|lia]. cbn [bind]. f_equal. destruct (f32_of_uint (h - 1)); reflexivity.
Qed.

Lemma nth_error_same A (l1 : list A) : forall l2, (forall i, nth_error l1 i = nth_error l2 i) -> l1 = l2.
Proof.
  induction l1 as [|x l1 IH]; intros [|y l2] H; auto; try (specialize (H 0); discriminate).
  pose proof (H 0) as H0. injection H0 as ->. f_equal. apply IH. intros i. apply (H (S i)).
Qed.

Section Rows.
Context {pd : PrettyDoc} {env : Env}.
Variable w : N.
Hypothesis Hw : (0 < w)%N.

(** Rows of calls, one below the other from row [a] on, that show these characters. *)
Inductive rows_from : N -> list (list (char * Sty)) -> list (list (call Sty)) -> Prop :=
| rf_nil a : rows_from a [] []
| rf_cons a chs ls shown blank rows :
    longest_fitting w chs shown -> rows_from (a + 1) ls rows ->
    rows_from a (chs :: ls) ((place a 0 shown ++ blanks a (columns_of shown) w blank) :: rows).

Lemma rows_from_app a l1 r1 l2 r2 :
  rows_from a l1 r1 -> rows_from (a + N.of_nat (length l1)) l2 r2 -> rows_from a (l1 ++ l2) (r1 ++ r2).
Proof.
  induction 1 as [a|a chs ls shown blank rows H1 H2 IH]; cbn [app length]; intros H.
  - rewrite N.add_0_r in H. exact H.
  - constructor; [exact H1|]. apply IH. replace (a + 1 + N.of_nat (length ls))%N with (a + N.of_nat (S (length ls)))%N by lia. exact H.
Qed.

Lemma shows_rows (ls : list line) chars blank : forall a rows,
  (forall i l, nth_error ls i = Some l -> chars i = styled_chars l) ->
  shows_chars (Rectangle a (a + N.of_nat (length ls)) 0 w) chars blank rows ->
  rows_from a (map styled_chars ls) rows.
Proof.
  intros a rows Hc [H1 H2]. cbn [min_row max_row] in *. replace (a + N.of_nat (length ls) - a)%N with (N.of_nat (length ls)) in H1 by lia.
  rewrite Nat2N.id in H1. revert a chars rows Hc H1 H2. induction ls as [|l ls IH]; intros a chars rows Hc H1 H2.
  - destruct rows; [constructor|discriminate].
  - destruct rows as [|row rows]; [discriminate|]. cbn [map].
    destruct (H2 0 row eq_refl) as (shown & S1 & S2). cbn [min_col max_col] in S1, S2. rewrite N.sub_0_r in S1. rewrite N.add_0_r in S2. rewrite N.add_0_l in S2.
    rewrite (Hc 0 l eq_refl) in S1. rewrite S2. constructor; [exact S1|].
    apply (IH (a + 1)%N (fun i => chars (S i)) rows); [intros i l0 Hi; apply (Hc (S i)); exact Hi|cbn [length] in H1; lia|].
    intros i row' Hi. specialize (H2 (S i) row' Hi).
    replace (a + N.of_nat (S i))%N with (a + 1 + N.of_nat i)%N in H2 by lia. exact H2.
Qed.

Lemma rows_cells a ls rows : rows_from a ls rows -> forall cell, In cell (flat_map (@cells Sty) (concat rows)) <->
  (a <= fst cell < a + N.of_nat (length ls) /\ snd cell < w)%N.
Proof.
  induction 1 as [a|a chs ls shown blank rows H1 H2 IH]; intros cell; cbn [concat length flat_map].
  - simpl. split; [tauto|]. lia.
  - rewrite flat_map_app, in_app_iff, (IH cell).
    assert (E : flat_map (@cells Sty) (place a 0 shown ++ blanks a (columns_of shown) w blank) = row_cells (Rectangle a (a + 1) 0 w) a).
    { apply (@row_shows_cells pd env (Rectangle a (a + 1) 0 w) a chs blank); [cbn; lia|]. exists shown. cbn [min_col max_col]. rewrite N.sub_0_r, N.add_0_l. auto. }
    rewrite E. unfold row_cells. cbn [min_col max_col]. rewrite in_map_iff. destruct cell as [r c]. cbn [fst snd]. split.
    + intros [(x & Ex & Hx)|H]; [injection Ex as <- <-; apply range_in in Hx; lia|lia].
    + intros [H3 H4]. destruct (N.eq_dec r a) as [->|Hne]; [left; exists c; split; [reflexivity|apply range_in; lia]|right; lia].
Qed.

(** What the cells hold, if these rows are among calls that never write to a cell twice. *)
Lemma rows_text calls : NoDup (flat_map (@cells Sty) calls) -> forall a ls rows, rows_from a ls rows ->
  (forall c, In c (concat rows) -> In c calls) ->
  exists texts, Forall2 (text_of_row w) ls texts /\
    flat_map (fun row => flat_map (fun col => cell_text (cell_after calls (row, col))) (range 0 w) ++ [newline_char])
      (range a (a + N.of_nat (length ls))) =
    flat_map (fun row => row ++ [newline_char]) texts.
Proof.
  intros Hnd. induction 1 as [a|a chs ls shown blank rows H1 H2 IH]; intros Hin.
  - exists []. split; [constructor|]. rewrite (@range_nil a) by (cbn [length]; lia). reflexivity.
  - destruct IH as (texts & T1 & T2).
    { intros c Hc. apply Hin. cbn [concat]. apply in_app_iff. auto. }
    exists ((filter (fun ch => negb (N.eqb ch 0)) (map fst shown) ++ repeat space (N.to_nat (w - columns_of shown))) :: texts).
    split; [constructor; [exists shown; auto|exact T1]|].
    rewrite (@range_cons a) by (cbn [length]; lia). cbn [flat_map length]. f_equal.
    2: { replace (a + N.of_nat (S (length ls)))%N with (a + 1 + N.of_nat (length ls))%N by lia. exact T2. }
    f_equal.
    assert (Hlook : forall c cell x, In c (place a 0 shown ++ blanks a (columns_of shown) w blank) -> puts c cell = Some x -> cell_after calls cell = Some x).
    { intros c cell x Hc Hp. apply (@apart_cell Sty calls c cell x Hnd); [|exact Hp]. apply Hin. cbn [concat]. apply in_app_iff. auto. }
    assert (Hcols : (columns_of shown <= w)%N) by (destruct H1 as (rest & _ & H & _); exact H).
    rewrite (@range_app 0 (columns_of shown) w) by lia. rewrite flat_map_app. f_equal.
    + replace (columns_of shown) with (0 + columns_of shown)%N by lia. apply (@placed_text pd env w Hw). intros c cell x Hc. apply Hlook. apply in_app_iff. auto.
    + apply (@blanks_text pd w Hw calls a blank); [lia|]. intros c cell x Hc. apply Hlook. apply in_app_iff. auto.
Qed.

Lemma rows_grid calls ls rows : NoDup (flat_map (@cells Sty) calls) -> rows_from 0 ls rows ->
  (forall c, In c (concat rows) -> In c calls) ->
  (forall cell, In cell (flat_map (@cells Sty) calls) -> In cell (flat_map (@cells Sty) (concat rows))) ->
  exists texts, Forall2 (text_of_row w) ls texts /\ grid_text calls = flat_map (fun row => row ++ [newline_char]) texts.
Proof.
  intros Hnd Hr Hin Hcells.
  destruct (@rows_text calls Hnd 0%N ls rows Hr Hin) as (texts & T1 & T2). exists texts. split; [exact T1|]. rewrite N.add_0_l in T2. rewrite <- T2.
  assert (Hc : forall row col, In (row, col) (flat_map (@cells Sty) calls) <-> (row < N.of_nat (length ls) /\ col < w)%N).
  { intros row col. pose proof (rows_cells Hr (row, col)) as H. cbn [fst snd] in H. rewrite N.add_0_l in H. split.
    - intros H0. apply Hcells in H0. apply H in H0. lia.
    - intros H0. assert (H3 : In (row, col) (flat_map (@cells Sty) (concat rows))) by (apply H; lia).
      apply in_flat_map in H3 as (c & H3 & H4). apply in_flat_map. exists c. split; auto. }
  apply (@grid_full pd w _ Hw).
  - destruct (@C38_no_extra_row pd calls) as [H|(row & col & H1 & H2)].
    + rewrite H. destruct (N.eq_dec (N.of_nat (length ls)) 0) as [->|Hh]; [reflexivity|].
      destruct (@C38_extent pd calls (N.of_nat (length ls) - 1) 0); [apply Hc; lia|]. lia.
    + apply Hc in H1. destruct (@C38_extent pd calls (N.of_nat (length ls) - 1) 0); [apply Hc; lia|]. lia.
  - intros row Hrow. destruct (@C38_no_extra_col pd calls row) as [H|(col & H1 & H2)].
    + destruct (@C38_extent pd calls row (w - 1)); [apply Hc; lia|]. lia.
    + apply Hc in H1. destruct (@C38_extent pd calls row (w - 1)); [apply Hc; lia|]. lia.
Qed.

End Rows.

Section Pages.
Context {pd : PrettyDoc} {env : Env} {L : Type}.
Variable get_content : L -> option (D * printing_options).
Variables w h : N.
Hypothesis Hwin : window_size (Size w h).
Hypothesis Hw : (0 < w)%N.
Notation pane := (pane L Sty).
Notation narrow := (fun l : line => (total (map seg_width l) < U16)%N).

Definition shows_page (g : page) (n : N * content) : Prop :=
  fst n = N.of_nat (length (page_lines g)) /\
  (forall i l, nth_error (page_lines g) i = Some l -> c_lines (snd n) i = l) /\
  c_focus (snd n) = (if pg_marked g then Some (Pos 0 (total (map seg_width (left_segments (pg_focused g))))) else None) /\
  (pg_marked g = true -> (total (map seg_width (left_segments (pg_focused g))) < U16)%N).

Lemma pages_needs st : forall (ps : list pane) gs, Forall2 (has_page get_content w st) ps gs ->
  forall hh, Forall narrow (flat_map page_lines gs) ->
  (N.of_nat (length (flat_map page_lines gs)) <= hh)%N ->
  exists ns, vert_needs get_content st (map (fun p => (Dynamic, p)) ps) (Size w hh) ns /\ Forall2 shows_page gs ns.
Proof.
  induction 1 as [|p g ps gs H H' IH]; intros hh Hn Hle.
  - exists []. split; constructor.
  - cbn [flat_map] in Hn, Hle. rewrite app_length in Hle. apply Forall_app in Hn as [Hn1 Hn2].
    destruct H as (l & st' & doc & o & ups & Hd & Hg & (sign & Hz) & Hf & Hp).
    assert (Hlen : length (page_lines g) = S (length (pg_downs g))) by reflexivity.
    destruct (IH (hh - N.of_nat (length (page_lines g)))%N Hn2) as (ns & N1 & N2); [lia|].
    assert (Hleft : (total (map seg_width (left_segments (pg_focused g))) < U16)%N).
    { inversion Hn1 as [|? ? H1 _]; subst. rewrite map_app, total_app in H1. lia. }
    set (c := Content (line_at ups (pg_focused g) (pg_downs g) 0) st' (focus_point o 0 (pg_focused g))).
    assert (Hvis : visible_lines ups (pg_focused g) (pg_downs g) 0 (N.to_nat hh) = page_lines g).
    { unfold visible_lines. cbn [firstn rev app]. rewrite firstn_all2 by lia. reflexivity. }
    assert (Hc : content_of get_content l st' (Size w hh) (page_lines g) c).
    { rewrite <- Hvis. unfold c. change 0 with (N.to_nat 0) at 1 2.
      apply (@content_printed pd env L get_content l st' (Size w hh) doc o 0%N ups (pg_focused g) (pg_downs g)); cbn [s_width s_height]; auto.
      - apply (@zero_row pd env _ o hh sign Hz). lia.
      - lia.
      - apply printed_in_part. exact Hp. }
    exists ((how_many (Size w hh) (page_lines g), c) :: ns). split.
    + cbn [map]. unfold vert_needs. eapply needs_dynamic; eauto.
    + constructor; [|exact N2]. split; [reflexivity|]. cbn [snd c c_lines c_focus].
      split.
      * intros i l0 Hi. unfold line_at. destruct i as [|i]; [cbn in Hi; injection Hi as <-; reflexivity|].
        cbn [Nat.ltb Nat.leb Nat.eqb]. replace (S i - 0 - 1) with i by lia. cbn [page_lines nth_error] in Hi. apply nth_error_nth. exact Hi.
      * unfold focus_point. rewrite Hf. split; [reflexivity|]. intros _. exact Hleft.
Qed.

Lemma pages_parts : forall gs ns, Forall2 shows_page gs ns -> forall a,
  (a + N.of_nat (length (flat_map page_lines gs)) <= h)%N ->
  exists parts rows, length parts = length ns /\
    (forall i n c part, nth_error ns i = Some (n, c) -> nth_error parts i = Some part ->
       content_in c (Rectangle (a + total (firstn i (map fst ns))) (a + total (firstn (S i) (map fst ns))) 0 w) part) /\
    rows_from w a (map styled_chars (flat_map page_lines gs)) rows /\
    (forall c, In c (concat rows) -> In c (concat parts)) /\
    flat_map (@cells Sty) (concat parts) = flat_map (@cells Sty) (concat rows) /\
    focus_positions (concat parts) = focuses a gs.
Proof.
  destruct Hwin as [Hw1 Hw2]. cbn [s_width s_height] in Hw1, Hw2.
  induction 1 as [|g n gs ns Hg Hgs IH]; intros a Hle.
  - exists [], []. split; [reflexivity|]. split; [intros [|i]; discriminate|]. split; [constructor|]. split; [intros c []|]. split; reflexivity.
  - cbn [flat_map] in Hle. rewrite app_length in Hle. destruct n as [n c]. destruct Hg as (G1 & G2 & G3 & G4). cbn [fst snd] in *.
    destruct (IH (a + N.of_nat (length (page_lines g)))%N) as (parts & rows & P1 & P2 & P3 & P4 & P5 & P6); [lia|].
    set (r := Rectangle a (a + N.of_nat (length (page_lines g))) 0 w).
    destruct (@content_exists pd env unit (Size w h) c r) as (calls & Hin).
    { unfold rect_ok, r. cbn [min_row max_row min_col max_col]. lia. }
    { rewrite G3. destruct (pg_marked g); [|exact I]. specialize (G4 eq_refl). cbn [p_row p_col r min_row min_col].
      assert (0 < length (page_lines g)) by (cbn; lia). lia. }
    destruct Hin as (rows0 & R1 & R2).
    assert (R3 : rows_from w a (map styled_chars (page_lines g)) rows0).
    { apply (@shows_rows pd env w Hw (page_lines g) (fun i => styled_chars (c_lines c i)) (c_style c) a rows0); [|exact R1]. intros i l Hi. rewrite (G2 i l Hi). reflexivity. }
    assert (Hfoc : focus_positions (concat rows0) = []) by (change (@focus_positions Sty) with (@focus_calls pd); eapply rows_no_focus; exact R1).
    exists (calls :: parts), (rows0 ++ rows). split; [cbn; congruence|]. split; [|split; [|split; [|split]]].
    + intros [|i] n' c' part Hn Hp.
      * cbn in Hn, Hp. injection Hn as <- <-. injection Hp as <-. cbn [map firstn fst]. unfold total. cbn [fold_right]. rewrite !N.add_0_r, G1.
        exists rows0. split; [exact R1|exact R2].
      * cbn in Hn, Hp. specialize (P2 i n' c' part Hn Hp). cbn [map fst]. rewrite !firstn_cons.
        change (total (n :: ?l)) with (n + total l)%N. cbn [total fold_right] in *.
        replace (a + N.of_nat (length (page_lines g)) + total (firstn i (map fst ns)))%N with (a + (n + total (firstn i (map fst ns))))%N in P2 by lia.
        replace (a + N.of_nat (length (page_lines g)) + total (firstn (S i) (map fst ns)))%N with (a + (n + total (firstn (S i) (map fst ns))))%N in P2 by lia.
        exact P2.
    + cbn [flat_map]. rewrite map_app. apply rows_from_app; [exact Hw|exact R3|]. rewrite map_length. exact P3.
    + intros x Hx. rewrite concat_app in Hx. cbn [concat]. apply in_app_iff in Hx as [Hx|Hx]; apply in_app_iff; [left|right; auto].
      rewrite G3 in R2. destruct (pg_marked g); [destruct R2 as (_ & _ & ->); right; exact Hx|rewrite R2; exact Hx].
    + cbn [concat]. rewrite concat_app, !flat_map_app, P5. f_equal. rewrite G3 in R2.
      destruct (pg_marked g); [destruct R2 as (_ & _ & ->); reflexivity|rewrite R2; reflexivity].
    + cbn [concat focuses]. unfold focus_positions in *. rewrite flat_map_app, P6. f_equal. rewrite G3 in R2.
      destruct (pg_marked g); [destruct R2 as (_ & _ & ->)|rewrite R2; exact Hfoc].
      cbn [flat_map app]. rewrite Hfoc. cbn [p_row p_col r min_row min_col]. rewrite N.add_0_r, N.add_0_l. reflexivity.
Qed.

(** C65.  Dynamic documents below each other in a PlainText that has enough rows
    for all of their lines: the text has one row for each line, and nothing else. *)
Theorem C65_all_lines (ps : list pane) gs st :
  (N.of_nat (length ps) < U32)%N ->
  Forall2 (has_page get_content w st) ps gs ->
  Forall narrow (flat_map page_lines gs) ->
  (N.of_nat (length (flat_map page_lines gs)) <= h)%N ->
  exists rows, Forall2 (fun l => text_of_row w (styled_chars l)) (flat_map page_lines gs) rows /\
    ev (fun n => text_of (@display_pane pd env (plain_text_window Sty) L get_content n (Vert (map (fun p => (Dynamic, p)) ps)) st (plain_text_new w h)))
       (flat_map (fun row => row ++ [newline_char]) rows, focuses 0 gs, Ok tt).
Proof.
  intros Hlen Hps Hn Hle. pose proof Hwin as [Hw1 Hw2]. cbn [s_width s_height] in Hw1, Hw2.
  set (qs := map (fun p => (Dynamic, p)) ps).
  assert (Hsizes : map fst qs = repeat Dynamic (length ps)).
  { unfold qs. rewrite map_map. clear. induction ps as [|q0 ps0 IHq]; [reflexivity|]. cbn [map length repeat fst]. f_equal. exact IHq. }
  assert (Hwt : forall k, weight_total (repeat Dynamic k) = 0%N) by (induction k; simpl; auto).
  assert (Hft : forall k, fixed_total (repeat Dynamic k) = 0%N) by (induction k; simpl; auto).
  assert (Hdc : forall k, dynamic_count (repeat Dynamic k) = k) by (induction k; simpl; auto).
  assert (Hdocs : forall p, In p ps -> sane (Size w h) p).
  { intros p Hp. clear -Hps Hp. induction Hps as [|q g ps gs H _ IH]; [destruct Hp|]. destruct Hp as [->|Hp]; [|auto].
    destruct H as (l & st' & _ & _ & _ & Hd & _). clear -Hd; induction Hd as [|? ? ? ? ? Hd IHd]; constructor; exact IHd. }
  assert (Hsp : sane_split (Size w h) qs).
  { constructor; rewrite ?Hsizes, ?Hwt; try (reflexivity); [rewrite N.mul_0_r; reflexivity|unfold qs; rewrite map_length; exact Hlen|].
    intros k p Hin. apply in_map_iff in Hin as (q & E & Hq). injection E as <- <-. auto. }
  assert (Hs : sane (Size w h) (Vert qs : pane)) by (constructor; exact Hsp).
  destruct (@pages_needs st ps gs Hps h Hn Hle) as (ns & N1 & N2).
  destruct (@C37_vert pd env L get_content Empty_set (Size w h) Hwin qs st (rect_from_size (Size w h)) ns Hsp (whole_in _)) as (hs & D1 & D2 & D3 & D4).
  { cbn [rect_from_size max_row min_row s_height]. rewrite N.sub_0_r, Hsizes. unfold divisible. rewrite Hwt, N.mul_0_r.
    change USIZE with 18446744073709551616%N. change U32 with 4294967296%N in *. split; [lia|]. split; [lia|]. split; [lia|].
    intros (k & Hk). apply repeat_spec in Hk. discriminate. }
  { cbn [rect_from_size max_row min_row max_col min_col s_height s_width]. rewrite !N.sub_0_r, Hsizes. unfold after_fixed. rewrite Hft, N.sub_0_r. exact N1. }
  cbn [rect_from_size max_row min_row max_col min_col s_height s_width] in *. rewrite N.sub_0_r in *.
  assert (Hnl : length ns = length ps).
  { rewrite <- (Forall2_length N2). symmetry. eapply Forall2_length; exact Hps. }
  assert (Hhs : hs = map fst ns).
  { destruct (@give_ok _ _ _ _ _ _ D1) as (E1 & _). rewrite Hsizes, repeat_length in E1.
    apply nth_error_same. intros i. destruct (nth_error ps i) as [p|] eqn:Ei.
    - rewrite (D3 i p) by (unfold qs; rewrite nth_error_map, Ei; reflexivity). f_equal.
      assert (i < length ps) by (apply nth_error_Some; congruence).
      rewrite <- firstn_map, Hsizes.
      replace (firstn i (repeat Dynamic (length ps))) with (repeat Dynamic i); [apply Hdc|].
      replace (length ps) with (i + (length ps - i)) by lia. rewrite repeat_app, firstn_app, repeat_length, Nat.sub_diag, firstn_all2 by (rewrite repeat_length; lia).
      cbn [firstn]. rewrite app_nil_r. reflexivity.
    - apply nth_error_None in Ei. rewrite (proj2 (nth_error_None hs i)) by lia. symmetry. apply nth_error_None. rewrite map_length. lia. }
  subst hs.
  destruct (@pages_parts gs ns N2 0%N) as (parts & rows & P1 & P2 & P3 & P4 & P5 & P6); [rewrite N.add_0_l; exact Hle|].
  destruct (D4 parts) as (N0 & HN).
  { split; [unfold qs; rewrite map_length; congruence|]. intros i k p part Hi Hp.
    unfold qs in Hi. rewrite nth_error_map in Hi. destruct (nth_error ps i) as [q|] eqn:Ei; [|discriminate]. injection Hi as <- <-.
    split; [|congruence]. intros _.
    assert (i < length ps) by (apply nth_error_Some; congruence).
    destruct (nth_error ns i) as [[n c]|] eqn:En; [|apply nth_error_None in En; lia].
    exists n, c. split.
    - rewrite <- firstn_map, Hsizes.
      replace (firstn i (repeat Dynamic (length ps))) with (repeat Dynamic i); [rewrite Hdc; exact En|].
      replace (length ps) with (i + (length ps - i)) by lia. rewrite repeat_app, firstn_app, repeat_length, Nat.sub_diag, firstn_all2 by (rewrite repeat_length; lia).
      cbn [firstn]. rewrite app_nil_r. reflexivity.
    - unfold row_slice. cbn [rect_from_size max_row min_row max_col min_col s_height s_width]. eapply P2; eauto. }
  assert (E0 : forall n, N0 <= n -> drawn get_content Empty_set (Size w h) n (Vert qs) st = (concat parts, Ok tt)) by (intros n Hn'; apply HN; exact Hn').
  pose proof (@C32_no_cell_twice pd env L get_content Empty_set (Size w h) Hwin _ _ _ _ _ Hs (E0 N0 (le_n _))) as Hnd.
  destruct (@rows_grid pd env w Hw (concat parts) _ rows Hnd P3 P4) as (texts & T1 & T2).
  { intros cell Hc. rewrite <- P5. exact Hc. }
  exists texts. split.
  - clear -T1. remember (map styled_chars (flat_map page_lines gs)) as m eqn:Em. revert Em. generalize (flat_map page_lines gs). intros ls Em.
    revert ls Em. induction T1; intros [|l0 ls] Em; try discriminate; constructor; injection Em as E1 E2; subst; auto.
  - exists N0. intros n Hn'. rewrite (@display_plain pd env L get_content w h n _ _ _ _ (E0 n Hn')), T2, P6. reflexivity.
Qed.

End Pages.

Section Whole.
Context {pd : PrettyDoc} {env : Env} {L : Type}.
Variable get_content : L -> option (D * printing_options).
Variable w : N.
Hypothesis Hw : (0 < w)%N.
Hypothesis Hw2 : (w + 2 < U16)%N.
Notation narrow := (fun l : line => (total (map seg_width l) < U16)%N).

(** C65.  In a PlainText of unbounded height, as long as there are fewer than
    2^32 lines in all. *)
Theorem C65_unbounded_height (ps : list (pane L Sty)) gs st :
  (N.of_nat (length ps) < 2 ^ 32)%N ->
  Forall2 (has_page get_content w st) ps gs ->
  Forall narrow (flat_map page_lines gs) ->
  (N.of_nat (length (flat_map page_lines gs)) < 2 ^ 32)%N ->
  exists rows, Forall2 (fun l => text_of_row w (styled_chars l)) (flat_map page_lines gs) rows /\
    ev (fun n => text_of (@display_pane pd env (plain_text_window Sty) L get_content n (Vert (map (fun p => (Dynamic, p)) ps)) st (plain_text_unbounded w)))
       (flat_map (fun row => row ++ [newline_char]) rows, focuses 0 gs, Ok tt).
Proof.
  intros H1 H2 H3 H4. change (2 ^ 32)%N with 4294967296%N in *.
  apply (@C65_all_lines pd env L get_content w (U32 - 1)); auto.
  - split; [exact Hw2|]. cbn [s_height]. change U32 with 4294967296%N. lia.
  - change U32 with 4294967296%N. lia.
Qed.

Lemma columns_styled (l : line) : columns_of (styled_chars l) = text_columns (segs_to_string l).
Proof.
  unfold columns_of, text_columns, styled_chars, segs_to_string. f_equal. induction l as [|s l IH]; [reflexivity|].
  cbn [flat_map map concat]. rewrite !map_app, IH. f_equal. rewrite map_map. apply map_ext. reflexivity.
Qed.

Lemma styled_text (l : line) : map fst (styled_chars l) = segs_to_string l.
Proof.
  unfold styled_chars, segs_to_string. induction l as [|s l IH]; [reflexivity|].
  cbn [flat_map map concat]. rewrite map_app, IH. f_equal. rewrite map_map. cbn. apply map_id.
Qed.

Lemma row_padded (l : line) row : text_of_row w (styled_chars l) row ->
  (text_columns (segs_to_string l) <= w)%N -> ~ In 0%N (segs_to_string l) -> row = padded w (segs_to_string l).
Proof.
  intros (shown & (rest & E & H1 & H2) & ->) Hc Hn.
  assert (rest = []) as ->.
  { destruct rest as [|c rest]; [reflexivity|]. exfalso. rewrite <- columns_styled, E, columns_of_app in Hc.
    change (columns_of (c :: rest)) with (columns (fst c) + columns_of rest)%N in Hc. lia. }
  rewrite app_nil_r in E. subst shown. rewrite columns_styled, styled_text. unfold padded. f_equal.
  clear -Hn. induction (segs_to_string l) as [|ch s IH]; [reflexivity|]. cbn [filter].
  destruct (N.eqb_spec ch 0) as [->|_]; [destruct Hn; left; reflexivity|]. cbn [negb]. f_equal. apply IH. intros H. apply Hn. right. exact H.
Qed.

Lemma rows_padded (ls : list line) rows : Forall2 (fun l => text_of_row w (styled_chars l)) ls rows ->
  Forall (fun l => (text_columns (segs_to_string l) <= w)%N /\ ~ In 0%N (segs_to_string l)) ls ->
  rows = map (padded w) (map segs_to_string ls).
Proof.
  induction 1 as [|l row ls rows H H' IH]; intros Hf; [reflexivity|]. inversion Hf as [|? ? [F1 F2] F3]; subst.
  cbn [map]. f_equal; [apply row_padded; auto|auto].
Qed.

Lemma like_text (l l' : line) : line_like (but_styles (pd := pd)) l l' -> segs_to_string l' = segs_to_string l /\ map seg_width l' = map seg_width l.
Proof.
  unfold segs_to_string. induction 1 as [|s s' l l' (H1 & H2 & _) _ [IH1 IH2]]; [split; reflexivity|]. cbn [map concat]. split; congruence.
Qed.
Lemma likes_text (ls ls' : list line) : Forall2 (line_like (but_styles (pd := pd))) ls ls' ->
  map segs_to_string ls' = map segs_to_string ls /\ map (map seg_width) ls' = map (map seg_width) ls.
Proof.
  induction 1 as [|l l' ls ls' H _ [IH1 IH2]]; [split; reflexivity|]. destruct (like_text H). cbn [map]. split; congruence.
Qed.

(** C65.  The text of pretty_print_to_string and the text of a PlainText with the
    document in it are the same, up to the spaces at the ends of the lines:
    whatever the style of the pane, whichever column strategy.  (If no line is
    cut off and there are no characters U+0000.) *)
Theorem C65_same_as_string l doc o sign st fl downs :
  get_content l = Some (doc, o) ->
  o_focus_path o = [] -> o_focus_target o = FStart -> o_focus_height o = S754_zero sign ->
  printed doc (asked_width o w) [] FStart None [] fl downs ->
  let lines := all_lines [] fl downs in
  Forall narrow lines -> (N.of_nat (length lines) < 2 ^ 32)%N ->
  Forall (fun l => (text_columns (segs_to_string l) <= w)%N /\ ~ In 0%N (segs_to_string l)) lines ->
  ev (fun n => pretty_print_to_string n doc (asked_width o w)) (Ok (join_lines (map segs_to_string lines))) /\
  ev (fun n => text_of (@display_pane pd env (plain_text_window Sty) L get_content n (Vert [(Dynamic, PDoc l)]) st (plain_text_unbounded w)))
     (flat_map (fun s => padded w s ++ [newline_char]) (map segs_to_string lines),
      (if o_set_focus o then [Pos 0 (total (map seg_width (left_segments fl)))] else []), Ok tt).
Proof.
  intros Hg Hpath Hft Hz Hp lines Hn Hlen Hfit. split.
  { replace (join_lines (map segs_to_string lines)) with (focused_to_string fl ++ line_tail downs).
    - apply (to_string_ok Hp).
    - apply (string_lines (segs_to_string (left_segments fl ++ right_segments fl)) downs). }
  destruct (@C59_root_style_print pd env doc None (Some st) _ _ _ _ _ _ Hp) as (ups' & fl' & downs' & Hp' & L1 & [L2 L2'] & L3).
  inversion L1; subst.
  assert (Hlines : Forall2 (line_like (but_styles (pd := pd))) lines ((left_segments fl' ++ right_segments fl') :: downs')).
  { unfold lines, all_lines. cbn [rev app]. constructor; [apply Forall2_app; assumption|exact L3]. }
  set (g := Page fl' downs' (o_set_focus o)).
  assert (Hgl : flat_map page_lines [g] = page_lines g) by (cbn [flat_map]; apply app_nil_r).
  change (Forall2 (line_like (but_styles (pd := pd))) lines (page_lines g)) in Hlines.
  destruct (likes_text Hlines) as [E1 E2].
  destruct (@C65_unbounded_height [PDoc l] [g] st) as (rows & R1 & R2).
  - reflexivity.
  - constructor; [|constructor]. exists l, st, doc, o, []. split; [constructor|]. split; [exact Hg|]. split; [eauto|]. split; [reflexivity|].
    unfold printed_in. rewrite Hpath, Hft. exact Hp'.
  - rewrite Hgl. clear -Hn E2. revert E2. generalize (page_lines g). induction Hn as [|x xs H _ IH]; intros [|y ys] E; try discriminate; constructor.
    + cbn [map] in E. injection E as -> _. exact H.
    + apply IH. cbn [map] in E. injection E as _ ->. reflexivity.
  - rewrite Hgl, <- (Forall2_length Hlines). exact Hlen.
  - rewrite Hgl in R1. rewrite (rows_padded R1) in R2.
    + rewrite E1 in R2. cbn [focuses map pg_marked pg_focused g] in R2. rewrite app_nil_r in R2.
      destruct (like_text L2) as [_ E3]. rewrite E3 in R2.
      replace (flat_map (fun s => padded w s ++ [newline_char]) (map segs_to_string lines)) with
        (flat_map (fun row => row ++ [newline_char]) (map (padded w) (map segs_to_string lines))); [exact R2|].
      clear. induction (map segs_to_string lines) as [|x xs IH]; [reflexivity|]. cbn [map flat_map]. rewrite IH. reflexivity.
    + clear -Hfit E1. revert E1. generalize (page_lines g). induction Hfit as [|x xs H _ IH]; intros [|y ys] E; try discriminate; constructor.
      * cbn [map] in E. injection E as -> _. exact H.
      * apply IH. cbn [map] in E. injection E as _ ->. reflexivity.
Qed.

Lemma no_such_row n doc o st ups fl downs h row :
  choose_focus_line_row (X := perr Er) o h = Ok row -> (0 < h)%N -> (U32 <= row + 1)%N -> ovf = true ->
  narrow (left_segments fl) ->
  window n doc (asked_width o w) (o_focus_path o) (o_focus_target o) (Some st) (N.to_nat row) 0 = Ok (ups, fl, downs) ->
  printed_doc_new n doc o (Size w h) st = Panic POverflow.
Proof.
  intros Hrow Hh Hmax Hov Hn HN. unfold printed_doc_new. cbn [s_width s_height]. rewrite (proj2 (N.eqb_neq w 0)) by lia.
  rewrite (proj2 (N.eqb_neq h 0)) by lia. cbn [orb]. rewrite Hrow. cbn [bind]. rewrite choose_width_asked. unfold SpecMask.window in HN.
  destruct (pretty_print n doc _ _ _ _) as [[[up fl'] down]|]; [|discriminate]. cbn [bind] in HN.
  destruct (SpecMask.take_lines (up_next n) (N.to_nat row) up) as [ups'|] eqn:E2; [|discriminate]. cbn [bind] in HN.
  destruct (SpecMask.take_lines (down_next n) 0 down) as [downs'|] eqn:E3; [|discriminate]. cbn [bind] in HN.
  assert (fl' = fl) as -> by congruence. clear HN. cbn [bind].
  apply (take_lines_same _ (@exhausted_up pd env n)) in E2 as (p2 & E2).
  rewrite left_width_exact by exact Hn. cbn [bind]. rewrite E2.
  destruct (o_set_focus o); cbn [bind]; unfold add32, addM; rewrite Hov, (proj2 (N.ltb_ge (row + 1) U32)) by exact Hmax; reflexivity.
Qed.

Lemma display_doc_panics l doc o st h n : get_content l = Some (doc, o) -> printed_doc_new n doc o (Size w h) st = Panic POverflow ->
  snd (@display_pane pd env (plain_text_window Sty) L get_content n (PDoc l) st (plain_text_new w h)) = Panic POverflow.
Proof.
  intros Hg E. unfold display_pane. cbn [plain_text_window w_size plain_text_new pt_size display_pane_rec]. rewrite Hg. unfold mbind, from_printing.
  replace (rect_size (rect_from_size (Size w h))) with (Ok (X := pane_err Empty_set Er) (Size w h)).
  - unfold pure. rewrite E. reflexivity.
  - unfold rect_size, rect_height, rect_width, rect_from_size, sub32, sub16, subM. cbn [max_row min_row max_col min_col s_height s_width].
    rewrite (proj2 (N.leb_le 0 w)) by lia. rewrite (proj2 (N.leb_le 0 h)) by lia. cbn [bind]. rewrite !N.sub_0_r. reflexivity.
Qed.

(** C65.  The other end of a PlainText of unbounded height is out of reach: a
    document whose focused line is asked to be on the last row makes
    display_pane panic (with overflow checks). *)
Theorem C65_last_row_refuted l doc o st ups fl downs :
  get_content l = Some (doc, o) -> o_focus_height o = f32_one -> ovf = true ->
  printed_in doc o w st ups fl downs -> narrow (left_segments fl) ->
  ev (fun n => snd (@display_pane pd env (plain_text_window Sty) L get_content n (PDoc l) st (plain_text_unbounded w))) (Panic POverflow).
Proof.
  intros Hg Hh Hov Hp Hn.
  assert (Hrow : exists row, choose_focus_line_row (X := perr Er) o (U32 - 1) = Ok row /\ (U32 <= row + 1)%N).
  { exists 4294967295%N. split; [|vm_compute; discriminate]. unfold choose_focus_line_row. rewrite Hh. vm_compute. reflexivity. }
  destruct Hrow as (row & Hrow & Hmax).
  destruct (@printed_in_part pd env _ _ _ _ _ _ _ (N.to_nat row) 0 Hp) as (N0 & HN).
  exists N0. intros n Hle. apply (@display_doc_panics l doc o st (U32 - 1) n Hg).
  exact (@no_such_row n doc o st _ fl _ (U32 - 1) row Hrow eq_refl Hmax Hov Hn (HN n Hle)).
Qed.
End Whole.
