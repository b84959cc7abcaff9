(** Cases of C01, C24 and C47 for focuses in texts. *)
From Verif Require Import Properties50 Properties46Ex Properties35Ex.
From Coq Require Import String.

Set Implicit Arguments.
#[local] Existing Instance debug_env.

Example twice_fits : matched twice_tree /\ single_line_firsts (snd (doc_shape twice_tree None)) /\
  Forall (fun l => exact_width l <= 40)%N (lines_of (second_events (i_id (r_info twice_tree)) (snd (doc_shape twice_tree None)))).
Proof.
  split; [apply doc_matched_ok; vm_compute; reflexivity|]. split; [vm_compute; tauto|].
  apply Forall_forall. intros l Hl.
  assert (H : forallb (fun l => exact_width l <=? 40)%N (lines_of (second_events (i_id (r_info twice_tree)) (snd (doc_shape twice_tree None)))) = true)
    by (vm_compute; reflexivity).
  eapply forallb_forall in H; [|exact Hl]. apply N.leb_le. exact H.
Qed.

Example C01_C24_C47_text_case : exists ups fl downs, printed (twice : D) 40 [0] (FText 3) None ups fl downs /\
  map segs_to_string (all_lines ups fl downs) = [codes "<kiwi>; <kiwi>"] /\
  ev (fun m => pretty_print_to_string m (twice : D) 40) (Ok (join_lines (map segs_to_string (all_lines ups fl downs)))) /\
  Forall (fun l => exact_width l <= 40)%N (all_lines ups fl downs) /\
  exists es before s after, layout 40 (doc_shape twice_tree None) = Some es /\
    lines_of es = rev ups ++ (before ++ s :: after) :: downs /\
    left_segments fl = before ++ [Segment (firstn 3 (seg_str s)) (str_width (firstn 3 (seg_str s))) (seg_style s)] /\
    right_segments fl = Segment (skipn 3 (seg_str s)) (str_width (skipn 3 (seg_str s))) (seg_style s) :: after /\
    seg_width s = (str_width (firstn 3 (seg_str s)) + str_width (skipn 3 (seg_str s)))%N.
Proof.
  destruct C68_text_case as (ups & fl & downs & H). exists ups, fl, downs. split; [exact H|].
  destruct twice_fits as (Hm & Hs & HF). split; [|split; [|split]].
  - destruct (C01_layout_is_printed twice_rep twice_valid 40 None twice_layout) as (fl0 & downs0 & H0 & E).
    rewrite (C78_same_text twice_rep twice_valid twice_unique twice_splittable H H0), <- E. exact twice_lines.
  - exact (C24_text_focus twice_rep twice_valid twice_unique twice_splittable H).
  - exact (C47_text_focus twice_rep twice_valid twice_unique twice_splittable Hm (eq_refl : (40 < U16)%N) Hs HF H).
  - exact (C01_text_focus twice_rep twice_valid twice_unique twice_splittable H).
Qed.
