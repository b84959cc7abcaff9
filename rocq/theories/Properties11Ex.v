(** Concrete cases for C38. *)
From Verif Require Export Properties11 Properties10Ex.
From Coq Require Import String.

Set Implicit Arguments.

Definition nl : str := [newline_char].

(** Writes in no particular order, with gaps, and a full-width character. *)
Definition calls38 : list (call (list nat)) :=
  [Put 98%N (Pos 2 4) [] false; Put 1000%N (Pos 0 1) [] true; SetFocus (Pos 5 6); Put 97%N (Pos 2 0) [] false; Put 99%N (Pos 0 3) [] false].
Example C38_case_calls : NoDup (flat_map (@cells (list nat)) calls38) /\
  grid_text calls38 = ([32; 1000; 99] ++ nl ++ nl ++ [97; 32; 32; 32; 98] ++ nl)%N.
Proof.
  split; [|vm_compute; reflexivity].
  vm_compute. repeat (constructor; [intros H; repeat (destruct H as [H|H]; [discriminate|]); exact H|]). constructor.
Qed.
Example C38_run : exists t, @replay spd (plain_text_window (list nat)) unit calls38 (Ok tt) (plain_text_new 80 25) = (t, Ok tt) /\
  plain_text_string t = ([32; 1000; 99] ++ nl ++ nl ++ [97; 32; 32; 32; 98] ++ nl)%N /\ pt_focus_points t = [Pos 5 6].
Proof. eexists. split; [|split]; vm_compute; reflexivity. Qed.

(** Overlapping writes: the last one counts. *)
Example C38_run_overlap : exists t,
  @replay spd (plain_text_window (list nat)) unit
    [Put 1000%N (Pos 0 0) [] true; Put 97%N (Pos 0 1) [] false; Put 1001%N (Pos 0 2) [] true; Put 98%N (Pos 0 2) [] false] (Ok tt) (plain_text_new 80 25) = (t, Ok tt) /\
  plain_text_string t = ([1000; 97; 98] ++ nl)%N.
Proof. eexists. split; vm_compute; reflexivity. Qed.

(** A document in a window of 8 columns and 6 rows. *)
Definition size38 : Pane.size := Size 8 6.
Lemma window38 : window_size size38. Proof. split; reflexivity. Qed.
Example C38_case_document : exists k rows,
  rounded_row 6 f32_half k /\ List.length rows = 6 /\
  (forall i row, nth_error rows i = Some row -> @text_of_row spd (wide_env true) 8 (@styled_chars spd
      (line_at [[seg (codes "first") 5 [107]]]
       {| left_segments := [seg (codes "> ") 2 [107]]; right_segments := [seg ([97; 1000; 98]%N) 4 [107; 108]] |}
       [[seg (codes "a longer line") 13 [107]]] (N.to_nat k) i)) row) /\
  ev (fun n => @text_of spd (@display_pane spd (wide_env true) (plain_text_window (list nat)) nat contents3 n (PDoc 0) [] (plain_text_new 8 6)))
     (flat_map (fun row => row ++ [newline_char]) rows, [Pos k 2], Ok tt).
Proof.
  assert (H1 : (0 < 8)%N) by reflexivity.
  assert (H2 : (0 < 6 <= 2 ^ 24)%N) by (split; [reflexivity|discriminate]).
  pose proof (@C38_document spd (wide_env true) nat contents3 8 6 window38 H1 0 doc3 half_focus [] _ _ _ eq_refl H2 half_ok (doc3_printed 8 [])) as H.
  destruct H as (k & rows & A & B & C & E); [intros _; vm_compute; reflexivity|].
  exists k, rows. split; [exact A|]. split; [exact B|]. split; [exact C|exact E].
Qed.
Example C38_run_document :
  @text_of spd (@display_pane spd (wide_env true) (plain_text_window (list nat)) nat contents3 1000 (PDoc 0) [] (plain_text_new 8 6)) =
  (codes "        " ++ nl ++ codes "        " ++ nl ++ codes "first   " ++ nl ++ [62; 32; 97; 1000; 98; 32; 32]%N ++ nl ++ codes "a longer" ++ nl ++ codes "        " ++ nl,
   [Pos 3 2], Ok tt).
Proof. vm_compute. reflexivity. Qed.

(** The same pane with a border: it fills the window. *)
Definition pane38 : pane nat (list nat) := Vert [(Fixed 1, PFill 45%N); (Proportional 1, Horz [(Proportional 1, PDoc 0); (Fixed 1, PFill 124%N)])].
Lemma sane38 : sane size38 pane38.
Proof.
  apply sane_vert. constructor; [reflexivity|reflexivity|reflexivity|].
  intros k p [H|[H|[]]]; injection H as <- <-; [constructor|].
  apply sane_horz. constructor; [reflexivity|reflexivity|reflexivity|].
  intros k p [H|[H|[]]]; injection H as <- <-; constructor.
Qed.
Lemma filled38 : filled contents3 pane38.
Proof.
  apply filled_vert; [reflexivity|].
  intros k p [H|[H|[]]] _; injection H as <- <-; [constructor|].
  apply filled_horz; [reflexivity|].
  intros k p [H|[H|[]]] _; injection H as <- <-; [|constructor]. eapply filled_doc. reflexivity.
Qed.
Example C38_case_pane : exists calls,
  @drawn spd (wide_env true) nat contents3 Empty_set size38 1000 pane38 [] = (calls, Ok tt) /\
  forall row col, (row < 6)%N -> (col < 8)%N -> cell_after calls (row, col) <> None.
Proof.
  assert (E : snd (@drawn spd (wide_env true) nat contents3 Empty_set size38 1000 pane38 []) = Ok tt) by (vm_compute; reflexivity).
  destruct (@drawn spd (wide_env true) nat contents3 Empty_set size38 1000 pane38 []) as [calls r] eqn:E2. cbn [snd] in E. subst r.
  exists calls. split; [reflexivity|].
  assert (H1 : (0 < 8)%N) by reflexivity.
  exact (proj2 (@C38_display_pane spd (wide_env true) nat contents3 8 6 window38 H1 1000 pane38 [] calls sane38 filled38 E2)).
Qed.
