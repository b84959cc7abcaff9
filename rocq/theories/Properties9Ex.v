(** Concrete cases for C31-C33. *)
From Verif Require Export Properties9 Properties7Ex.
From Coq Require Import String Permutation.

Set Implicit Arguments.

(** Characters from 1000 are full-width. *)
Definition wide_env (b : bool) : Env := {|
  usize_width := fun s => fold_right N.add 0%N (map (fun c => if (1000 <=? c)%N then 2 else 1)%N s);
  char_full_width := fun c => (1000 <=? c)%N; ovf := b |}.

(** Label 0: a document of three lines; the other labels: nothing. *)
Definition pane_doc : sdoc :=
  Node 7 (Concat (Child 0) (Concat Newline (Concat (Child 1) (Concat Newline (lit "last")))))
    [Leaf 8 Text (codes "ab"); Leaf 9 Text ([97; 1000; 98; 1001; 99]%N)].
Definition focus_first : printing_options := PrintingOptions [0] FStart f32_zero WFull true.
Definition contents (l : nat) : option (sdoc * printing_options) :=
  match l with O => Some (pane_doc, focus_first) | _ => None end.

Definition pane1 : pane nat (list nat) :=
  Horz [(Fixed 1, PFill 124%N); (Proportional 1,
    Vert [(Dynamic, PStyle [5] (PDoc 0)); (Fixed 1, PStyle [6] (PFill 1000%N)); (Proportional 2, PDoc 0)])].
Definition size1 : Pane.size := Size 6 6.

Lemma sane1 : sane size1 pane1.
Proof.
  constructor. constructor; try reflexivity. intros k p [E|[E|[]]]; injection E as <- <-; [constructor|].
  constructor. constructor; try reflexivity. intros k p [E|[E|[E|[]]]]; injection E as <- <-; repeat constructor.
Qed.
Lemma filled1 : filled contents pane1.
Proof.
  apply filled_horz; [reflexivity|]. intros k p [E|[E|[]]]; injection E as <- <-; intros _; [constructor|].
  apply filled_vert; [reflexivity|]. intros k p [E|[E|[E|[]]]]; injection E as <- <-; intros H; repeat econstructor.
Qed.
Lemma window1 : window_size size1.
Proof. split; reflexivity. Qed.

Definition drawn1 := @drawn spd (wide_env true) nat contents unit size1 1000 pane1 [].

(** What is on the screen. *)
Definition screen_row {S} (calls : list (call S)) (row : N) : str :=
  flat_map (fun c => match c with Put ch (Pos r _) _ _ => if (r =? row)%N then [ch] else [] | SetFocus _ => [] end) calls.

Example C31_case : snd drawn1 = Ok tt /\
  map (screen_row (fst drawn1)) (range 0 6) =
   [codes "|ab   "; [124; 97; 1000; 98; 32]%N; codes "|last "; [124; 1000; 1000; 32]%N; codes "|ab   "; [124; 97; 1000; 98; 32]%N] /\
  List.length (fst drawn1) = 34.
Proof. vm_compute. repeat split. Qed.

Lemma drawn1_ok : drawn1 = (fst drawn1, Ok tt).
Proof. vm_compute. reflexivity. Qed.
Example C32_case : NoDup (flat_map (@cells (list nat)) (fst drawn1)).
Proof. exact (@C32_no_cell_twice spd (wide_env true) nat contents unit size1 window1 1000 pane1 [] _ _ sane1 drawn1_ok). Qed.
Example C33_case : Permutation (flat_map (@cells (list nat)) (fst drawn1)) (rect_cells (rect_from_size size1)).
Proof. exact (@C33_exactly_once spd (wide_env true) nat contents unit size1 window1 1000 pane1 [] _ sane1 filled1 drawn1_ok). Qed.

(** C33.  pretty_window.rs:10-11 says that every cell is written exactly once.
    That is false of panes that do not satisfy [filled]: a Fixed pane that is
    smaller than the window, a document that is missing, and no subpanes. *)
Theorem C33_every_cell_refuted (X : Type) b fuel :
  let d (p : pane nat (list nat)) := @drawn spd (wide_env b) nat contents X (Size 2 1) (3 + fuel) p [] in
  d (Horz [(Fixed 1, PFill 97%N)]) = ([Put 97%N (Pos 0 0) [] false], Ok tt) /\
  d (PDoc 1) = ([], Ok tt) /\ d (Vert []) = ([], Ok tt).
Proof. split; [|split]; vm_compute; reflexivity. Qed.

(** C31.  A window of the largest possible width: the last column of a Fill pane
    makes [col + char_width] overflow.  In a release build a cell outside the
    window is written, and the loop starts again from column 0 (the fuel, here 4
    steps, runs out); a debug build panics. *)
Definition wide_pane : pane nat (list nat) := Horz [(Fixed 65533, PDoc 1); (Proportional 1, PFill 97%N)].
Theorem C31_widest_window_refuted (X : Type) :
  @drawn spd (wide_env false) nat contents X (Size 65535 1) 4 wide_pane [] =
    ([Put 97%N (Pos 0 65533) [] false; Put 97%N (Pos 0 65534) [] false;
      Put 97%N (Pos 0 65535) [] false; Put 97%N (Pos 0 0) [] false], OutOfFuel) /\
  @drawn spd (wide_env true) nat contents X (Size 65535 1) 4 wide_pane [] =
    ([Put 97%N (Pos 0 65533) [] false; Put 97%N (Pos 0 65534) [] false], Panic POverflow).
Proof. split; vm_compute; reflexivity. Qed.
