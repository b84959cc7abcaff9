(** Concrete cases for C34-C37, C44 and C45, and a refutation of C37 for Vert. *)
From Verif Require Export Properties10 Properties9Ex.
From Coq Require Import String.

Set Implicit Arguments.

(** One half, as a [f32]. *)
Definition f32_half : f32 := S754_finite false 8388608 (-24).

(** Three lines; the focus is in the second one, after "> ". *)
Definition doc3 : sdoc :=
  Node 7 (Concat (lit "first") (Concat Newline (Concat (lit "> ") (Concat (Child 0) (Concat Newline (lit "a longer line"))))))
    [Leaf 8 Text ([97; 1000; 98]%N)].
Definition half_focus : printing_options := PrintingOptions [0] FStart f32_half WFull true.
Definition low_focus : printing_options := PrintingOptions [] FStart f32_one WFull true.
Definition contents3 (l : nat) : option (sdoc * printing_options) :=
  match l with 0 => Some (doc3, half_focus) | 1 => Some (pane_doc, low_focus) | _ => None end.

Notation PP n doc w o st := (@pretty_print spd (wide_env true) n doc w (o_focus_path o) (o_focus_target o) (Some st)).

(** Running with enough fuel is [printed]. *)
Lemma run_printed K (doc : sdoc) o w st up fl down ups downs :
  (forall m, PP (K + m) doc (asked_width o w) o st = Ok (up, fl, down)) ->
  (forall m, collect (K + m) (@up_next spd (wide_env true) (K + m)) up = Ok ups) ->
  (forall m, collect (K + m) (@down_next spd (wide_env true) (K + m)) down = Ok downs) ->
  @printed_in spd (wide_env true) doc o w st ups fl downs.
Proof.
  intros H1 H2 H3. exists up, down.
  split; [|split]; exists K; intros n Hn; replace n with (K + (n - K)) by lia; auto.
Qed.

Definition seg (s : str) (w : N) (st : list nat) : @segment spd := Segment s w st.

Lemma doc3_printed w st : @printed_in spd (wide_env true) doc3 half_focus w st
  [[seg (codes "first") 5 (st ++ [107])]]
  {| left_segments := [seg (codes "> ") 2 (st ++ [107])]; right_segments := [seg ([97; 1000; 98]%N) 4 ((st ++ [107]) ++ [108])] |}
  [[seg (codes "a longer line") 13 (st ++ [107])]].
Proof.
  eapply (@run_printed 200); intros m.
  - vm_compute. reflexivity.
  - vm_compute. reflexivity.
  - vm_compute. reflexivity.
Qed.

Lemma half_ok : height_ok f32_half.
Proof. repeat split. Qed.
Lemma zero_ok : height_ok f32_zero.
Proof. repeat split. Qed.
Lemma one_ok : height_ok f32_one.
Proof. repeat split. Qed.

Definition size3 : Pane.size := Size 12 8.
Definition rect3 : rectangle := Rectangle 1 7 2 10.
Lemma window3 : window_size size3. Proof. split; reflexivity. Qed.
Lemma rect3_in : rect_in size3 rect3. Proof. repeat split; discriminate. Qed.

(** C34: six rows, so the focused line is on row round(2.5) = 3. *)
Example C34_case_row : choose_focus_line_row (env := wide_env true) (X := unit) half_focus 6 = Ok 3%N /\ rounded_row 6 f32_half 3.
Proof. split; [reflexivity|]. repeat split; intros; discriminate. Qed.

Example C34_case b : exists k rows,
  rounded_row 6 f32_half k /\
  @shows_lines spd (wide_env true) rect3
    (line_at [[seg (codes "first") 5 [107]]]
       {| left_segments := [seg (codes "> ") 2 [107]]; right_segments := [seg ([97; 1000; 98]%N) 4 [107; 108]] |}
       [[seg (codes "a longer line") 13 [107]]] (N.to_nat k)) [] rows /\
  ev (fun n => @drawn_in spd (wide_env true) nat contents3 b size3 rect3 n (PDoc 0) [])
     (SetFocus (Pos (1 + k) 4) :: List.concat rows, Ok tt).
Proof.
  assert (H1 : (0 < max_col rect3 - min_col rect3)%N) by reflexivity.
  assert (H2 : (0 < max_row rect3 - min_row rect3 <= 2 ^ 24)%N) by (split; [reflexivity|discriminate]).
  pose proof (@C34_document_pane spd (wide_env true) nat contents3 b size3 window3 0 doc3 half_focus [] rect3 _ _ _ eq_refl rect3_in
    H1 H2 half_ok (doc3_printed 8 [])) as H.
  apply H. intros _. vm_compute. reflexivity.
Qed.

Definition drawn3 := @drawn_in spd (wide_env true) nat contents3 unit size3 rect3 1000 (PDoc 0) [].
Example C34_run : snd drawn3 = Ok tt /\
  map (screen_row (fst drawn3)) (range 0 8) =
    [[]; codes "        "; codes "        "; codes "first   "; [62; 32; 97; 1000; 98; 32; 32]%N; codes "a longer"; codes "        "; []] /\
  focus_calls (fst drawn3) = [Pos 4 4].
Proof. vm_compute. repeat split. Qed.

(** C35: a full-width character that does not fit is left out. *)
Example C35_run :
  @display_line spd (wide_env true) (recorder (list nat) unit size3) 10
    [seg (codes "ab") 2 [1]; seg ([99; 1000; 1001]%N) 5 [2]] 0 (Rectangle 0 1 3 7) [] [] =
  ([Put 97%N (Pos 0 3) [1] false; Put 98%N (Pos 0 4) [1] false; Put 99%N (Pos 0 5) [2] false; Put 32%N (Pos 0 6) [] false], Ok tt).
Proof. vm_compute. reflexivity. Qed.

(** C36: the focus is where the character 'a' is displayed. *)
Example C36_case b : exists calls p,
  ev (fun n => @drawn_in spd (wide_env true) nat contents3 b size3 rect3 n (PDoc 0) []) (calls, Ok tt) /\
  focus_calls calls = [p] /\ in_rect rect3 (p_row p, p_col p) /\ In (Put 97%N p [107; 108] false) calls.
Proof.
  assert (H1 : (0 < max_col rect3 - min_col rect3)%N) by reflexivity.
  assert (H2 : (0 < max_row rect3 - min_row rect3 <= 2 ^ 24)%N) by (split; [reflexivity|discriminate]).
  eapply (@C36_focus_at_character spd (wide_env true) nat contents3 b size3 window3 0 doc3 half_focus [] rect3 _ _ _ 97%N [107; 108] _ eq_refl rect3_in
    H1 H2 half_ok (doc3_printed 8 []) eq_refl).
  - vm_compute. reflexivity.
  - vm_compute. reflexivity.
  - vm_compute. discriminate.
Qed.

(** C37: a Dynamic document between two Proportional panes. *)
Definition split3 : list (pane_size * pane nat (list nat)) :=
  [(Proportional 1, PFill 46%N); (Dynamic, PStyle [5] (PDoc 0)); (Proportional 1, PFill 46%N); (Fixed 1, PFill 124%N)].
Lemma sane3 sz : (N.max (s_width sz) (s_height sz) < U32)%N -> sane_split sz split3.
Proof.
  intros H. constructor.
  - reflexivity.
  - change (weight_total (map fst split3)) with 2%N. change U32 with 4294967296%N in H. change USIZE with 18446744073709551616%N. lia.
  - reflexivity.
  - intros k p [E|[E|[E|[E|[]]]]]; injection E as <- <-; repeat constructor.
Qed.
Lemma divisible3 w : (w < U32)%N -> divisible w (map fst split3).
Proof.
  intros H. change U32 with 4294967296%N in H. unfold divisible. change (weight_total (map fst split3)) with 2%N. change USIZE with 18446744073709551616%N.
  repeat split; lia.
Qed.

(** 30 columns, 2 rows: the focused line and the line above it are visible, so 6 columns are needed. *)
Lemma needs3 : exists c, @horz_needs spd (wide_env true) nat contents3 [] split3 (Size 29 2) [(6%N, c)].
Proof.
  pose proof (@content_printed spd (wide_env true) nat contents3 0 [5] (Size 29 2) doc3 half_focus 1%N _ _ _ eq_refl eq_refl eq_refl eq_refl (printed_in_part _ _ (doc3_printed 29 [5])) (fun _ => eq_refl)) as H.
  eexists. unfold horz_needs, split3. apply (@needs_other spd (wide_env true) nat contents3 widest less_wide []); [discriminate|].
  match type of H with @content_of _ _ _ _ _ _ _ ?ls ?c =>
    change 6%N with (@widest spd (Size 29 2) ls);
    refine (@needs_dynamic spd (wide_env true) nat contents3 widest less_wide [] _ _ _ 0 [5] ls c _ _ H _ _)
  end.
  - constructor. constructor.
  - repeat constructor.
  - apply (@needs_other spd (wide_env true) nat contents3 widest less_wide []); [discriminate|].
    apply (@needs_other spd (wide_env true) nat contents3 widest less_wide []); [discriminate|].
    apply (@needs_nil spd (wide_env true) nat contents3 widest less_wide []).
Qed.

Example C37_case b : exists c widths,
  @horz_needs spd (wide_env true) nat contents3 [] split3 (Size 29 2) [(6%N, c)] /\
  divvy (X := unit) false 30 (map fst split3) [6%N] = Ok widths /\ nth_error widths 1 = Some 6%N /\
  forall parts,
    @parts_shown spd (wide_env true) nat (fun p r' part => ev (fun n => @drawn_in spd (wide_env true) nat contents3 b (Size 30 2) r' n p []) (part, Ok tt))
      (column_slice (Rectangle 0 2 0 30) widths) split3 [(6%N, c)] parts ->
    ev (fun n => @drawn_in spd (wide_env true) nat contents3 b (Size 30 2) (Rectangle 0 2 0 30) n (Horz split3) []) (List.concat parts, Ok tt).
Proof.
  destruct needs3 as (c & Hc).
  assert (Hw : window_size (Size 30 2)) by (split; reflexivity).
  assert (Hr : rect_in (Size 30 2) (Rectangle 0 2 0 30)) by (repeat split; discriminate).
  destruct (@C37_horz spd (wide_env true) nat contents3 b (Size 30 2) Hw split3 [] (Rectangle 0 2 0 30) [(6%N, c)] (@sane3 (Size 30 2) eq_refl) Hr (@divisible3 30 eq_refl) Hc)
    as (widths & H1 & H2 & H3 & H4).
  exists c, widths. split; [exact Hc|]. split; [exact H1|]. split; [exact (H3 1 _ eq_refl)|exact H4].
Qed.

Example C37_run : let d := @drawn spd (wide_env true) nat contents3 unit (Size 30 2) 1000 (Horz split3) [] in
  snd d = Ok tt /\ map (screen_row (fst d)) (range 0 2) =
    [codes "............first ...........|"; codes "............> a" ++ [1000%N] ++ codes "b...........|"].
Proof. vm_compute. repeat split. Qed.

(** C37, for Vert: the Dynamic pane gets as many rows as the document has visible
    lines, but the document is displayed there with the focused line on the row
    that was computed from the height that was available, so its lines may be cut
    off.  Here the focus is on the first line, which is to be at the bottom of 8
    rows: there is only one visible line, so the pane gets one row, which is left
    blank, and the focus is set 7 rows below the pane. *)
Theorem C37_vert_refuted (X : Type) b :
  let d := @drawn spd (wide_env b) nat contents3 X (Size 6 8) 1000 (Vert [(Dynamic, PDoc 1); (Proportional 1, PFill 46%N)]) [] in
  snd d = Ok tt /\ focus_calls (fst d) = [Pos 7 0] /\
  map (screen_row (fst d)) (range 0 8) =
    [codes "      "; codes "......"; codes "......"; codes "......"; codes "......"; codes "......"; codes "......"; codes "......"].
Proof. cbv zeta. destruct b; vm_compute; repeat split. Qed.

(** C44: the pane of C31-C33 is displayed. *)
Lemma pane_doc_prints : @prints_in_window spd (wide_env true) size1 pane_doc focus_first.
Proof.
  intros w st Hw.
  exists [], {| left_segments := []; right_segments := [seg (codes "ab") 2 ((st ++ [107]) ++ [108])] |},
    [[seg ([97; 1000; 98; 1001; 99]%N) 7 ((st ++ [107]) ++ [109])]; [seg (codes "last") 4 (st ++ [107])]].
  split; [|split].
  - eapply (@run_printed 200); intros m.
    + vm_compute. reflexivity.
    + vm_compute. reflexivity.
    + vm_compute. reflexivity.
  - cbn [app left_segments right_segments]. repeat (apply Forall_cons; [vm_compute; reflexivity|]). apply Forall_nil.
  - intros _. vm_compute. reflexivity.
Qed.
Lemma pane1_made : @well_made spd nat pane1.
Proof.
  apply (@well_made_horz spd nat). split; [|split].
  - intros p [E|[E|[]]]; discriminate E.
  - intros h p _. reflexivity.
  - intros k p [E|[E|[]]] _; injection E as <- <-; [constructor|]. apply (@well_made_vert spd nat). split; [|split].
    + intros p [E|[E|[E|[]]]]; try discriminate E. injection E as <-. repeat constructor.
    + intros h p _. reflexivity.
    + intros k p [E|[E|[E|[]]]] _; injection E as <- <-; repeat constructor.
Qed.
Example C44_case b : exists calls,
  @pane_shows spd (wide_env true) nat contents pane1 [] (rect_from_size size1) calls /\
  ev (fun n => @drawn spd (wide_env true) nat contents b size1 n pane1 []) (calls, Ok tt).
Proof.
  apply (@C44_succeeds spd (wide_env true) nat contents b size1 window1 pane1 []).
  - discriminate.
  - exact sane1.
  - exact pane1_made.
  - intros l doc o _ E. destruct l; [|discriminate]. injection E as <- <-. split; [exact zero_ok|exact pane_doc_prints].
Qed.

(** C45: a Dynamic Fill, and a Dynamic Horz. *)
Example C45_case : ~ @styled_doc spd nat (PStyle [3] (PFill 46%N)).
Proof. intros H. inversion H as [|? ? H']. inversion H'. Qed.
Example C45_run :
  @drawn spd (wide_env true) nat contents3 unit (Size 6 8) 100 (Vert [(Proportional 1, PFill 46%N); (Dynamic, PStyle [3] (PFill 46%N))]) [] = ([], Err InvalidUseOfDynamic) /\
  @drawn spd (wide_env true) nat contents3 unit (Size 6 8) 100 (Horz [(Dynamic, Horz [])]) [] = ([], Err InvalidUseOfDynamic).
Proof. split; vm_compute; reflexivity. Qed.
(** A document whose path is wrong: the error is reported. *)
Example C45_run_printing :
  @drawn spd (wide_env true) nat (fun _ : nat => Some (doc3, PrintingOptions [0; 0] FStart f32_zero WFull false)) unit (Size 6 8) 100
    (Horz [(Proportional 1, PDoc 0)]) [] = ([], Err (PrintingErr (InvalidPath 0))).
Proof. vm_compute. reflexivity. Qed.
