(** More concrete cases: C01, C09, C11, C15, C16, C20, C24, C25 and C43 on the
    document of Properties2Ex. *)
From Verif Require Export Properties4Ex Properties3.
From Coq Require Import String Ascii.
#[local] Existing Instance debug_env.

Set Implicit Arguments.

(** C01, from the end of the inner list, whose line is in the middle. *)
Example C01_case : exists ups fl downs fl0 downs0,
  printed (ex_doc : D) 16 [1] FEnd None ups fl downs /\
  printed (ex_doc : D) 16 [] FStart None [] fl0 downs0 /\
  all_lines ups fl downs = all_lines [] fl0 downs0 /\
  List.length (all_lines [] fl0 downs0) = 6.
Proof.
  assert (Hd : displayed (ex_layout 16) [1]) by (apply displayed_yes; vm_compute; reflexivity).
  destruct (C06_displayed_accepted ex_rep ex_valid ex_unique 16%N None (ex_has_layout (or_introl eq_refl)) (ex_linear (or_introl eq_refl)) Hd (or_intror eq_refl)) as (ups & fl & downs & H).
  destruct (C01_same_lines ex_finite (eq_refl : is_text_target FEnd = false) H) as (fl0 & downs0 & H0 & E).
  exists ups, fl, downs, fl0, downs0. repeat (split; [assumption|]).
  destruct (C01_printed_has_layout ex_rep ex_valid (eq_refl : is_text_target FEnd = false) H) as (es & Hes & E2).
  rewrite (ex_has_layout (or_introl eq_refl)) in Hes. injection Hes as <-. rewrite <- E, E2.
  transitivity (List.length (map segs_to_string (lines_of (ex_layout 16)))); [symmetry; apply map_length|].
  rewrite ex_lines. reflexivity.
Qed.

(** C09 and C43: the downward iterator returns its three lines, then None, and
    None again. *)
Example C43_case :
  match pretty_print 1000 (ex_doc : D) 16 [1] FEnd None with
  | Ok (_, _, down) =>
      match bind (down_next 1000 down) (fun '(p1, l1) =>
            bind (down_next 1000 p1) (fun '(p2, l2) =>
            bind (down_next 1000 p2) (fun '(p3, l3) =>
            bind (down_next 1000 p3) (fun '(p4, l4) =>
            bind (down_next 1000 p4) (fun '(_, l5) => Ok [l1; l2; l3; l4; l5]))))) with
      | Ok ls => map (option_map segs_to_string) ls =
          [Some (codes "  pear,"); Some (codes "  []"); Some (codes "]"); None; None]
      | Fail _ => False
      end
  | Fail _ => False
  end.
Proof. vm_compute. reflexivity. Qed.

Example C09_case : finite_doc (ex_doc : D) /\ exists s, ev (fun n => pretty_print_to_string n (ex_doc : D) 16) (Ok s).
Proof.
  split; [exact ex_finite|]. destruct C01_case as (_ & _ & _ & fl0 & downs0 & _ & H & _).
  eexists. exact (C24_to_string_joins_lines ex_finite (eq_refl : is_text_target FStart = false) H).
Qed.

(** C11: the methods of this document panic when they are misused. *)
Example C11_case :
  m_unwrap_text (ex_doc : D) = MPanic /\ m_unwrap_child (ex_doc : D) 4 = MPanic /\
  m_unwrap_last_child (Node 6 list_note [] : D) = MPanic /\
  rep ex_tree (ex_doc : D) /\ valid_doc ex_tree /\
  forall w path ft st, ~ print_fails (ex_doc : D) w path ft st (FPanic PMethod).
Proof.
  repeat (split; [first [reflexivity|exact ex_rep|exact ex_valid]|]). intros w path ft st.
  apply (C11_methods_used_as_documented ex_rep ex_valid).
Qed.

(** C24 *)
Example C24_case : exists ups fl downs,
  printed (ex_doc : D) 16 [1; 1] FStart None ups fl downs /\
  ev (fun n => pretty_print_to_string n (ex_doc : D) 16) (Ok (join_lines (map segs_to_string (all_lines ups fl downs)))) /\
  join_lines (map segs_to_string (all_lines ups fl downs)) =
    join_lines (map codes ["["%string; "  apple,"%string; "  [kiwi, fig],"%string; "  pear,"%string; "  []"%string; "]"%string]).
Proof.
  destruct ex_printed as (ups & fl & downs & H & E). exists ups, fl, downs. split; [exact H|]. split.
  - exact (C24_to_string_joins_lines ex_finite (eq_refl : is_text_target FStart = false) H).
  - rewrite E, ex_lines. reflexivity.
Qed.

(** C15: a nested document, narrow: the lines of the inner list are indented
    twice, outer indentation first, each in its own style. *)
Definition nest_doc : sdoc := Node 0 list_note [word 1 "a"; Node 2 list_note [word 3 "kiwi"; word 4 "fig"]].
Example nest_rep : rep (s_tree nest_doc) (nest_doc : D). Proof. exact (s_rep nest_doc). Qed.
Example nest_valid : valid_doc (s_tree nest_doc). Proof. apply s_valid_doc. vm_compute. reflexivity. Qed.

Definition nest_lines : list line := match layout 7 (doc_shape (s_tree nest_doc) None) with Some es => lines_of es | None => [] end.
Lemma nest_printed : exists fl downs, printed (nest_doc : D) 7 [] FStart None [] fl downs /\ all_lines [] fl downs = nest_lines.
Proof.
  destruct (layout 7 (doc_shape (s_tree nest_doc) None)) as [es|] eqn:E; [|vm_compute in E; discriminate].
  destruct (C01_layout_is_printed nest_rep nest_valid 7%N None E) as (fl & downs & H & H2). exists fl, downs. split; auto.
  unfold nest_lines. rewrite E, H2. reflexivity.
Qed.
Example nest_strings : map segs_to_string nest_lines =
  map codes ["["%string; "  a,"%string; "  ["%string; "    kiwi,"%string; "    fig"%string; "  ]"%string; "]"%string].
Proof. vm_compute. reflexivity. Qed.

(** Line 4 is indented by the outer list (style of the root and label 9), then
    by the inner one (style of the root, of the inner list, and label 9). *)
Example C15_case : exists fl downs, printed (nest_doc : D) 7 [] FStart None [] fl downs /\
  nth 3 (all_lines [] fl downs) [] =
    [Segment (codes "  ") 2 [100; 9]; Segment (codes "  ") 2 [100; 102; 9];
     Segment (codes "kiwi") 4 [100; 102; 103; 7]; Segment (codes ",") 1 [100; 102]].
Proof.
  destruct nest_printed as (fl & downs & H & E). exists fl, downs. split; auto. rewrite E. vm_compute. reflexivity.
Qed.

(** C16 and C25 of the same line: the theorems apply to the segment "kiwi", whose
    style is that of the root, the inner list, the word and the label 7. *)
Example C16_case : exists fl downs, printed (nest_doc : D) 7 [] FStart None [] fl downs /\
  exists l s, In l (all_lines [] fl downs) /\ In s l /\ s = Segment (codes "kiwi") 4 [100; 102; 103; 7] /\
    seg_width s = str_width (seg_str s) /\
    exists fs x o n, reach (s_tree nest_doc) fs x o n /\
      ((n = Literal (seg_str s) /\ seg_style s = style_from (root_style (s_tree nest_doc) None) fs) \/
       (n = Text /\ seg_style s = style_from (root_style (s_tree nest_doc) None) fs) \/
       (n = Newline /\ In s (indents_from (root_style (s_tree nest_doc) None) fs))).
Proof.
  destruct nest_printed as (fl & downs & H & E). exists fl, downs. split; auto.
  assert (Hl : In (nth 3 nest_lines []) (all_lines [] fl downs)).
  { rewrite E. apply nth_In. vm_compute. lia. }
  assert (Hs : In (Segment (codes "kiwi") 4%N [100; 102; 103; 7] : segment) (nth 3 nest_lines [])) by (vm_compute; tauto).
  eexists _, _. split; [exact Hl|]. split; [exact Hs|]. split; [reflexivity|].
  split; [exact (C25_segment_widths nest_rep nest_valid (eq_refl : is_text_target FStart = false) H _ _ Hl Hs)|].
  destruct (C16_every_segment nest_rep nest_valid (eq_refl : is_text_target FStart = false) H _ _ Hl Hs) as (fs & x & o & n & Hr & Hn).
  exists fs, x, o, n. split; auto.
  destruct Hn as [[-> Hn]|[(-> & _ & Hn)|Hn]]; [left|right; left|right; right; auto]; split; auto.
  - exact (f_equal (@seg_style _) Hn).
  - exact (f_equal (@seg_style _) Hn).
Qed.

(** C25: the focused line of C03_run. *)
Example C25_case :
  match pretty_print 1000 (ex_doc : D) 16 [1; 1] FStart None with
  | Ok (_, fl, _) => (exact_width (left_segments fl ++ right_segments fl) < U16)%N /\
      left_width fl = Ok 9%N /\ right_width fl = Ok 5%N /\ focused_width fl = Ok 14%N
  | Fail _ => False
  end.
Proof. vm_compute. repeat split; reflexivity. Qed.
