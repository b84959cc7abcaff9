(** Displaying panes: where characters are written (C31-C33).

    [drawn get_content WE sz fuel p st] is the list of calls that display_pane
    makes to a window of size [sz], and its result.  [cells c] are the cells a
    call writes to (two for a full-width character).  The theorems hold for every
    amount of fuel, for debug and release builds, and also when display_pane
    fails half way.  Vocabulary: SpecPane. *)
From Verif Require Export PPane5.
From Coq Require Import Permutation.

Set Implicit Arguments.

Section Panes.
Context {pd : PrettyDoc} {env : Env} {L : Type}.
Variable get_content : L -> option (D * printing_options).
Notation pane := (pane L Sty).

(** C31.  What happens on any window (which may fail at any call): the calls are
    those that a recording window sees, up to the first one that fails. *)
Theorem C31_any_window (pw : PrettyWindow Sty) (sz : size) fuel (p : pane) st (w : Win) :
  w_size w = MOk sz ->
  display_pane get_content fuel p st w =
  let '(calls, r) := drawn get_content (@WErr _ pw) sz fuel p st in replay calls r w.
Proof. intros H. rewrite (@any_window pd env pw sz L get_content fuel p st w H). destruct (drawn get_content WErr sz fuel p st). reflexivity. Qed.

(** ... and if the window cannot tell its size, nothing is written. *)
Theorem C31_size_error (pw : PrettyWindow Sty) fuel (p : pane) st (w : Win) e :
  w_size w = MErr e -> display_pane get_content fuel p st w = (w, Err (PrettyWindowError e)).
Proof. intros H. unfold display_pane. rewrite H. reflexivity. Qed.

Variables (WE : Type) (sz : size).
Hypothesis Hwin : window_size sz.
Notation drawn := (drawn get_content WE sz).
Notation drawn_in := (drawn_in get_content WE sz).

Lemma drawn_emits fuel p st r : emits (WE := WE) (sz := sz) (display_pane_rec get_content fuel p st r) (fst (drawn_in r fuel p st)) (snd (drawn_in r fuel p st)).
Proof.
  destruct (@rec_draws pd env WE sz L get_content fuel p st r) as (cs & res & H). pose proof (H []) as H0. simpl in H0.
  assert (E : drawn_in r fuel p st = (cs, res)) by exact H0. rewrite E. exact H.
Qed.

Lemma drawn_is_in fuel p st : drawn fuel p st = drawn_in (rect_from_size sz) fuel p st.
Proof. reflexivity. Qed.

Lemma whole_in : rect_in sz (rect_from_size sz).
Proof. unfold rect_in, rect_from_size. simpl. lia. Qed.

Lemma emits_drawn fuel p st r cs res : emits (WE := WE) (sz := sz) (display_pane_rec get_content fuel p st r) cs res -> drawn_in r fuel p st = (cs, res).
Proof.
  intros H. destruct (emits_det H (drawn_emits fuel p st r)) as [-> ->]. destruct (drawn_in r fuel p st). reflexivity.
Qed.

(** C31.  A pane displayed in a rectangle of the window writes only there. *)
Theorem C31_inside_rectangle r fuel (p : pane) st calls res :
  sane sz p -> rect_in sz r -> drawn_in r fuel p st = (calls, res) ->
  forall c cell, In c calls -> In cell (cells c) -> in_rect r cell.
Proof.
  intros Hs Hr E c cell Hc Hcell. destruct (@rec_spec pd env WE sz L get_content Hwin fuel p st r Hs Hr) as (cs & res' & H1 & [_ H2] & _).
  rewrite (emits_drawn _ _ _ _ H1) in E. injection E as -> ->. apply H2. apply in_flat_map. eauto.
Qed.

(** C31.  In particular, nothing is written outside the window. *)
Theorem C31_inside_window fuel (p : pane) st calls res :
  sane sz p -> drawn fuel p st = (calls, res) ->
  forall c row col, In c calls -> In (row, col) (cells c) -> (row < s_height sz)%N /\ (col < s_width sz)%N.
Proof.
  intros Hs E c row col Hc Hcell. destruct (@C31_inside_rectangle _ _ _ _ _ _ Hs whole_in E c (row, col) Hc Hcell) as [H1 H2].
  simpl in *. lia.
Qed.

(** C31.  The subpanes of a Horz are drawn side by side, each in the part of the
    rectangle that was allocated to it.  ([parts] is shorter than [ps] when a
    failure occurs.) *)
Theorem C31_horz_subpanes r fuel ps st calls res :
  sane_split sz ps -> rect_in sz r -> drawn_in r fuel (Horz ps) st = (calls, res) ->
  (calls = [] /\ res <> Ok tt) \/
  exists dyn widths parts,
    divvy (X := pane_err WE Er) ovf (max_col r - min_col r) (map fst ps) dyn = Ok widths /\
    length widths = length ps /\ (total widths <= max_col r - min_col r)%N /\
    calls = concat parts /\ length parts <= length ps /\ (res = Ok tt -> length parts = length ps) /\
    forall i part, nth_error parts i = Some part ->
      (forall c cell, In c part -> In cell (cells c) -> in_rect (column_slice r widths i) cell) /\
      (forall k p, nth_error ps i = Some (k, p) -> k <> Dynamic -> fst (drawn_in (column_slice r widths i) fuel p st) = part).
Proof.
  intros Hs Hr E. pose proof Hs as Hs'. inversion Hs' as [? _ _ _ Hkids]; subst.
  destruct (@horz_in_parts pd env WE sz L get_content Hwin fuel ps st r Hs Hr) as [(f & Hf)|(dyn & docs & widths & _ & Hd & D1 & D2 & _ & (parts & res' & P1 & P2 & P3 & P4))].
  { left. rewrite (emits_drawn _ _ _ _ Hf) in E. injection E as <- <-. split; [auto|discriminate]. }
  right. rewrite (emits_drawn _ _ _ _ P1) in E. injection E as <- <-. exists dyn, widths, parts. split; auto. split; auto. split; auto.
  split; auto. split; auto. split; auto. intros i part Hi.
  destruct (P4 _ _ Hi) as (res_i & (k & c & Hn & Hc) & _). rewrite offset_slice_h in Hc.
  assert (Hin : rect_in sz (column_slice r widths i)).
  { rewrite <- offset_slice_h. pose proof (offset_bound (min_col r) widths i). pose proof (offset_bound (min_col r) widths (S i)).
    destruct Hr as [Hr1 Hr2]. apply hslice_ok; [split; auto|lia|apply offset_mono|lia]. }
  assert (Hkid : k <> Dynamic -> emits (WE := WE) (sz := sz) (display_pane_rec get_content fuel c st (column_slice r widths i)) part res_i ->
      (forall c cell, In c part -> In cell (cells c) -> in_rect (column_slice r widths i) cell) /\
      (forall k p, nth_error ps i = Some (k, p) -> k <> Dynamic -> fst (drawn_in (column_slice r widths i) fuel p st) = part)).
  { intros Hk He. apply emits_drawn in He. split.
    - eapply C31_inside_rectangle; eauto. eapply Hkids. eapply nth_error_In. eauto.
    - intros k' p' Hn' _. rewrite Hn in Hn'. injection Hn' as <- <-. rewrite He. reflexivity. }
  destruct k; [apply Hkid; auto; discriminate| |apply Hkid; auto; discriminate].
  destruct Hc as (doc & _ & He). split; [|intros k' p' Hn' Hk; congruence].
  destruct (@doc_spec pd env WE sz fuel doc (column_slice r widths i)) as (cs & r2 & I1 & [_ I2] & _); [eapply rect_in_ok; eauto|].
  destruct (emits_det He I1) as [-> _]. intros c' cell Hc' Hcell. apply I2. apply in_flat_map. eauto.
Qed.

(** C31.  Likewise for Vert, from top to bottom. *)
Theorem C31_vert_subpanes r fuel ps st calls res :
  sane_split sz ps -> rect_in sz r -> drawn_in r fuel (Vert ps) st = (calls, res) ->
  (calls = [] /\ res <> Ok tt) \/
  exists dyn heights parts,
    divvy (X := pane_err WE Er) ovf (max_row r - min_row r) (map fst ps) dyn = Ok heights /\
    length heights = length ps /\ (total heights <= max_row r - min_row r)%N /\
    calls = concat parts /\ length parts <= length ps /\ (res = Ok tt -> length parts = length ps) /\
    forall i part, nth_error parts i = Some part ->
      (forall c cell, In c part -> In cell (cells c) -> in_rect (row_slice r heights i) cell) /\
      (forall k p, nth_error ps i = Some (k, p) -> k <> Dynamic -> fst (drawn_in (row_slice r heights i) fuel p st) = part).
Proof.
  intros Hs Hr E. pose proof Hs as Hs'. inversion Hs' as [? _ _ _ Hkids]; subst.
  destruct (@vert_in_parts pd env WE sz L get_content Hwin fuel ps st r Hs Hr) as [(f & Hf)|(dyn & docs & widths & _ & Hd & D1 & D2 & _ & (parts & res' & P1 & P2 & P3 & P4))].
  { left. rewrite (emits_drawn _ _ _ _ Hf) in E. injection E as <- <-. split; [auto|discriminate]. }
  right. rewrite (emits_drawn _ _ _ _ P1) in E. injection E as <- <-. exists dyn, widths, parts. split; auto. split; auto. split; auto.
  split; auto. split; auto. split; auto. intros i part Hi.
  destruct (P4 _ _ Hi) as (res_i & (k & c & Hn & Hc) & _). rewrite offset_slice_v in Hc.
  assert (Hin : rect_in sz (row_slice r widths i)).
  { rewrite <- offset_slice_v. pose proof (offset_bound (min_row r) widths i). pose proof (offset_bound (min_row r) widths (S i)).
    destruct Hr as [Hr1 Hr2]. apply vslice_ok; [split; auto|lia|apply offset_mono|lia]. }
  assert (Hkid : k <> Dynamic -> emits (WE := WE) (sz := sz) (display_pane_rec get_content fuel c st (row_slice r widths i)) part res_i ->
      (forall c cell, In c part -> In cell (cells c) -> in_rect (row_slice r widths i) cell) /\
      (forall k p, nth_error ps i = Some (k, p) -> k <> Dynamic -> fst (drawn_in (row_slice r widths i) fuel p st) = part)).
  { intros Hk He. apply emits_drawn in He. split.
    - eapply C31_inside_rectangle; eauto. eapply Hkids. eapply nth_error_In. eauto.
    - intros k' p' Hn' _. rewrite Hn in Hn'. injection Hn' as <- <-. rewrite He. reflexivity. }
  destruct k; [apply Hkid; auto; discriminate| |apply Hkid; auto; discriminate].
  destruct Hc as (doc & _ & He). split; [|intros k' p' Hn' Hk; congruence].
  destruct (@doc_spec pd env WE sz fuel doc (row_slice r widths i)) as (cs & r2 & I1 & [_ I2] & _); [eapply rect_in_ok; eauto|].
  destruct (emits_det He I1) as [-> _]. intros c' cell Hc' Hcell. apply I2. apply in_flat_map. eauto.
Qed.

(** C32.  No cell is written twice. *)
Theorem C32_no_cell_twice fuel (p : pane) st calls res :
  sane sz p -> drawn fuel p st = (calls, res) -> NoDup (flat_map (@cells Sty) calls).
Proof.
  intros Hs E. destruct (@rec_spec pd env WE sz L get_content Hwin fuel p st _ Hs whole_in) as (cs & res' & H1 & [H2 _] & _).
  rewrite drawn_is_in, (emits_drawn _ _ _ _ H1) in E. injection E as -> ->. exact H2.
Qed.

(** C33.  Every cell is written. *)
Theorem C33_every_cell fuel (p : pane) st calls row col :
  sane sz p -> filled get_content p -> drawn fuel p st = (calls, Ok tt) ->
  (row < s_height sz)%N -> (col < s_width sz)%N -> exists c, In c calls /\ In (row, col) (cells c).
Proof.
  intros Hs Hf E Hr Hc. destruct (@rec_spec pd env WE sz L get_content Hwin fuel p st _ Hs whole_in) as (cs & res' & H1 & _ & H2).
  rewrite drawn_is_in, (emits_drawn _ _ _ _ H1) in E. injection E as -> ->.
  apply in_flat_map. apply H2; auto. unfold in_rect. simpl. lia.
Qed.

(** C32 and C33 together: the cells written are the cells of the window. *)
Theorem C33_exactly_once fuel (p : pane) st calls :
  sane sz p -> filled get_content p -> drawn fuel p st = (calls, Ok tt) ->
  Permutation (flat_map (@cells Sty) calls) (rect_cells (rect_from_size sz)).
Proof.
  intros Hs Hf E. apply NoDup_Permutation; [eapply C32_no_cell_twice; eauto|apply rect_cells_nodup|].
  intros [row col]. rewrite rect_cells_in, in_flat_map. split.
  - intros (c & H1 & H2). eapply C31_inside_rectangle; [exact Hs|apply whole_in|exact E|exact H1|exact H2].
  - intros [H1 H2]. simpl in *. eapply C33_every_cell; eauto; lia.
Qed.

End Panes.
