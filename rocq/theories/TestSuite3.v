(** tests/standard/test_cases/panes.rs, the test of src/pane/divvy.rs and the test of
    tests/standard/generative_testing.rs, run on the model. *)
From Verif Require Export TestSuite Divvy Generative.
From Coq Require Import String.
Local Notation length := List.length.

Set Implicit Arguments.
Local Open Scope string_scope.

(** [tpd] documents in windows of plain text; a label is its own content
    (panes.rs:22-24 [get_content]). *)
Definition pane_label : Type := option (json_tree * printing_options).
Definition test_pane : Type := pane pane_label basic_style.
(** panes.rs:43-57 [pane_test_with_size] and 59-77 [pane_test_with_focus]: the text and the focus points. *)
Definition pane_result (s : Pane.size) (p : test_pane) : option (str * list Pane.pos) :=
  let '(t, r) := @display_pane tpd test_env (plain_text_window basic_style) pane_label (fun l => l) 1000 p bs_default
    (plain_text_new (s_width s) (s_height s)) in
  match r with Ok _ => Some (plain_text_string t, pt_focus_points t) | _ => None end.
Definition rows (l : list string) : str := flat_map (fun s => (u s ++ [newline_char])%list) l.
Definition shows (s : Pane.size) (p : test_pane) (l : list string) (points : list Pane.pos) : Prop := pane_result s p = Some (rows l, points).
(** panes.rs:27-40 [pane_test]. *)
Definition size7 : Pane.size := Size 7 7.
Definition the_char (s : string) : char := match u s with c :: _ => c | [] => 0%N end.
Definition fill (s : string) : test_pane := PFill (the_char s).
(** The [f32] of a literal a/b: the division rounds to the nearest. *)
Definition f32_literal (a b : N) : f32 := SFdiv 24 128 (f32_of_uint a) (f32_of_uint b).
Definition contents (m : making) (o : printing_options) : pane_label :=
  match m 0%N with Ok (t, _) => Some (t, o) | _ => None end.
Definition from_top : printing_options := PrintingOptions [] FStart f32_zero WFull false.
Definition doc_pane (m : making) (o : printing_options) : test_pane := PDoc (contents m o).

(** panes.rs:83-94. *)
Example passes_fill_pane : shows size7 (fill "a") (repeat "aaaaaaa" 7) [].
Proof. vm_compute. reflexivity. Qed.
(** panes.rs:96-139. *)
Example passes_fill_pane_with_full_width :
  shows (Size 7 3) (fill "信") (repeat "信信信 " 3) [] /\
  shows (Size 6 3) (fill "信") (repeat "信信信" 3) [] /\
  shows (Size 1 3) (fill "信") (repeat " " 3) [] /\
  shows (Size 0 3) (fill "信") [] [].
Proof. refine (conj _ (conj _ (conj _ _))); vm_compute; reflexivity. Qed.
(** panes.rs:141-162. *)
Example passes_horz_split_pane :
  shows size7 (Horz [(Proportional 2, fill "a"); (Proportional 3, fill "b"); (Fixed 1, fill "X");
    (Proportional 2, fill "d"); (Proportional 3, fill "e"); (Fixed 1, fill "Y")]) (repeat "abbXdeY" 7) [].
Proof. vm_compute. reflexivity. Qed.
(** panes.rs:164-185. *)
Example passes_vert_split_pane :
  shows size7 (Vert [(Proportional 2, fill "a"); (Proportional 3, fill "b"); (Fixed 1, fill "X");
    (Proportional 2, fill "d"); (Proportional 3, fill "e"); (Fixed 1, fill "Y")])
    ["aaaaaaa"; "bbbbbbb"; "bbbbbbb"; "XXXXXXX"; "ddddddd"; "eeeeeee"; "YYYYYYY"] [].
Proof. vm_compute. reflexivity. Qed.
(** panes.rs:187-230. *)
Example passes_mixed_split_pane :
  shows size7 (Horz [
    (Proportional 2, fill "|");
    (Proportional 11, Vert [
      (Proportional 2, fill "t");
      (Proportional 5, Vert [
        (Fixed 1, fill "=");
        (Fixed 3, Horz [(Fixed 2, fill "*"); (Fixed 2, fill "@")]);
        (Fixed 1, fill "=")])]);
    (Fixed 1, Vert [(Fixed 2, fill "|"); (Fixed 3, fill "!")])])
    ["|ttttt|"; "|ttttt|"; "|=====!"; "|**@@ !"; "|**@@ !"; "|**@@"; "|====="] [].
Proof. vm_compute. reflexivity. Qed.

Definition hello_world : making := jarray [jstring "Hello"; jstring "world"].
Definition narrow : list string := ["[      "; "    ""He"; "    ""wo"; "]      "; "       "; "       "; "       "].
Definition wide : list string := ["[""Hello"; "       "; "       "; "       "; "       "; "       "; "       "].
(** panes.rs:232-257. *)
Example passes_doc_pane : shows size7 (doc_pane hello_world from_top) narrow [].
Proof. vm_compute. reflexivity. Qed.
(** panes.rs:259-304. *)
Example passes_doc_pane_full_width_cutoff :
  let note := doc_pane (jstring "一二三") from_top in
  shows (Size 8 3) note ["""一二三"""; "        "; "        "] [] /\
  shows (Size 7 3) note ["""一二三"; "       "; "       "] [] /\
  shows (Size 6 3) note ["""一二 "; "      "; "      "] [] /\
  shows (Size 5 3) note ["""一二"; "     "; "     "] [].
Proof. refine (conj _ (conj _ (conj _ _))); vm_compute; reflexivity. Qed.
(** panes.rs:306-338. *)
Definition shows_at_height (h : f32) (row : nat) : Prop :=
  shows (Size 4 7) (doc_pane (jstring "Hi") (PrintingOptions [] FStart h WFull false))
    (repeat "    " row ++ ["""Hi"""] ++ repeat "    " (6 - row))%list [].
Example passes_pane_cursor_heights :
  shows_at_height f32_zero 0 /\ shows_at_height (f32_literal 17 100) 1 /\ shows_at_height (f32_literal 33 100) 2 /\
  shows_at_height (f32_literal 5 10) 3 /\ shows_at_height (f32_literal 67 100) 4 /\ shows_at_height (f32_literal 83 100) 5 /\
  shows_at_height f32_one 6.
Proof. refine (conj _ (conj _ (conj _ (conj _ (conj _ (conj _ _)))))); vm_compute; reflexivity. Qed.
(** panes.rs:340-389. *)
Definition shows_with_width (s : width_strategy) (l : list string) : Prop :=
  shows size7 (doc_pane hello_world (PrintingOptions [] FStart f32_zero s false)) l [].
Example passes_pane_widths :
  shows_with_width WFull narrow /\ shows_with_width (WFixed 80) wide /\ shows_with_width (WFixed 10) narrow /\
  shows_with_width (WNoMoreThan 80) narrow /\ shows_with_width (WNoMoreThan 5) narrow.
Proof. refine (conj _ (conj _ (conj _ (conj _ _)))); vm_compute; reflexivity. Qed.

(** panes.rs:391-393 [make_array]. *)
Definition doc_0_8 : making := jarray (map jnumber ["0"; "1"; "2"; "3"; "4"; "5"; "6"; "7"]).
(** panes.rs:395-470. *)
Definition seek_note (path : list nat) (ft : focus_target) : test_pane :=
  doc_pane doc_0_8 (PrintingOptions path ft (f32_literal 5 10) WFull false).
Example passes_seek :
  shows size7 (seek_note [] FStart) ["       "; "       "; "       "; "[      "; "    0, "; "    1, "; "    2, "] [] /\
  shows size7 (seek_note [] FEnd) ["    5, "; "    6, "; "    7  "; "]      "; "       "; "       "; "       "] [] /\
  shows size7 (seek_note [1] FStart) ["       "; "[      "; "    0, "; "    1, "; "    2, "; "    3, "; "    4, "] [] /\
  shows size7 (seek_note [1] FEnd) ["       "; "[      "; "    0, "; "    1, "; "    2, "; "    3, "; "    4, "] [].
Proof. refine (conj _ (conj _ (conj _ _))); vm_compute; reflexivity. Qed.
(** panes.rs:472-575. *)
Definition doc8 : making := jarray (map jnumber ["0"; "1"; "2"; "3"; "4"; "5"]).
Definition doc5 : making := jarray (map jnumber ["6"; "7"; "8"]).
Definition note (m : making) : test_pane := doc_pane m from_top.
Definition unicode_note : test_pane :=
  Horz [(Proportional 1, note doc8); (Dynamic, note (jstring "一1"))].
Example passes_dynamic :
  shows size7 (Vert [(Proportional 1, note doc8); (Dynamic, note doc5)])
    ["[      "; "    0, "; "[      "; "    6, "; "    7, "; "    8  "; "]      "] [] /\
  shows size7 (Vert [(Proportional 1, note doc5); (Dynamic, note doc8)])
    ["[      "; "    0, "; "    1, "; "    2, "; "    3, "; "    4, "; "    5  "] [] /\
  shows size7 (Horz [(Proportional 1, note doc8); (Dynamic, note (jnumber "42"))])
    ["[    42"; "    0  "; "    1  "; "    2  "; "    3  "; "    4  "; "    5  "] [] /\
  shows (Size 11 7) unicode_note
    ["[     ""一1"""; "    0,     "; "    1,     "; "    2,     "; "    3,     "; "    4,     "; "    5      "] [] /\
  shows (Size 10 7) unicode_note
    ["[    ""一1"""; "    0     "; "    1     "; "    2     "; "    3     "; "    4     "; "    5     "] [].
Proof. refine (conj _ (conj _ (conj _ (conj _ _)))); vm_compute; reflexivity. Qed.
(** panes.rs:577-627. *)
Definition darkness : making :=
  jarray [jstring "Hello"; jstring "darkness,"; jarray [jstring "my"; jstring "old"]; jstring "friend"].
Example passes_focus_point :
  shows (Size 20 12) (Vert [
      (Fixed 3, fill "*");
      (Proportional 1, Horz [
        (Fixed 2, fill "#");
        (Proportional 1, doc_pane darkness (PrintingOptions [2; 0] FEnd (f32_literal 5 10) WFull true))])])
    ["********************"; "********************"; "********************";
     "##                  "; "##[                 "; "##    ""Hello"",      "; "##    ""darkness,"",  ";
     "##    [""my"", ""old""],"; "##    ""friend""      "; "##]                 "; "##                  "; "##                  "]
    [Pos 7 11].
Proof. vm_compute. reflexivity. Qed.

(** divvy.rs:118-144. *)
Definition proportionally_divide (cookies : N) (hungers : list N) : list N :=
  match @divvy Empty_set true cookies (map Proportional hungers) [] with Ok l => l | _ => [] end.
Example passes_proportional_division :
  (proportionally_divide 0 [1; 1] = [0; 0] /\
  proportionally_divide 1 [1; 1] = [1; 0] /\
  proportionally_divide 2 [1; 1] = [1; 1] /\
  proportionally_divide 3 [1; 1] = [2; 1] /\
  proportionally_divide 4 [10; 11; 12] = [1; 1; 2] /\
  proportionally_divide 5 [17] = [5] /\
  proportionally_divide 5 [12; 10; 11] = [2; 1; 2] /\
  proportionally_divide 5 [10; 10; 11] = [2; 1; 2] /\
  proportionally_divide 5 [2; 0; 1] = [3; 0; 2] /\
  proportionally_divide 61 [1; 2; 3] = [10; 20; 31] /\
  proportionally_divide 34583 [55; 98; 55; 7; 12; 200] = [4455; 7937; 4454; 567; 972; 16198])%N.
Proof. vm_compute. repeat (refine (conj eq_refl _)). reflexivity. Qed.

(** generative_testing.rs:156-204. *)
Example passes_generative_testing :
  match generate_all_of_size 100 (tree_gen 20) 5 with Ok l => length l | _ => 0 end = 14.
Proof. vm_compute. reflexivity. Qed.
