(** C01, C24 and C47 for focuses in texts. *)
From Verif Require Export Properties46 Properties14 Properties1.
From Coq Require Import Lia.

Set Implicit Arguments.

Section TextFocus.
Context {pd : PrettyDoc} {env : Env} {ideq : IdEq pd}.
Variables (r : rdoc) (doc : D).
Hypothesis Hrep : rep r doc.
Hypothesis Hv : valid_doc r.
Hypothesis Hu : unique_ids (id_at r).
Hypothesis Hsplit : splittable r.

Lemma reach_at fs x o n : reach r fs x o n -> node_at r (path_of fs) = Some x.
Proof.
  assert (Pa : forall a b, path_of (a ++ b) = path_of a ++ path_of b).
  { induction a as [|[] a IH]; intros b; cbn; auto. f_equal. apply IH. }
  assert (Na : forall q (y : rdoc) m k, node_at r q = Some y -> nth_error (r_kids y) m = Some k -> node_at r (q ++ [m]) = Some k).
  { clear. intros q. revert r. induction q as [|m0 q IH]; intros r y m k H H1; cbn in *.
    - injection H as ->. rewrite H1. reflexivity.
    - destruct (nth_error (r_kids r) m0); [eapply IH; eauto|discriminate]. }
  induction 1; rewrite ?Pa; cbn [path_of]; rewrite ?app_nil_r; auto; eapply Na; eauto.
Qed.

(** C01.  Printing with the focus in a text prints the lines of the document, but
    for the cut ([before ++ s :: after] is the focused line). *)
Theorem C01_text_focus w st path n ups fl downs :
  printed doc w path (FText n) st ups fl downs ->
  exists es before s after, layout w (doc_shape r st) = Some es /\
    lines_of es = rev ups ++ (before ++ s :: after) :: downs /\
    left_segments fl = before ++ [Segment (firstn n (seg_str s)) (str_width (firstn n (seg_str s))) (seg_style s)] /\
    right_segments fl = Segment (skipn n (seg_str s)) (str_width (skipn n (seg_str s))) (seg_style s) :: after /\
    seg_width s = (str_width (firstn n (seg_str s)) + str_width (skipn n (seg_str s)))%N.
Proof.
  intros Hp. destruct (text_cut Hrep Hv Hu Hsplit Hp) as (es & a & j & t & b & Hes & E & Ht & la & lb & H1 & H2 & H3 & H4 & H5).
  exists es, la, (text_seg t), lb. repeat (split; [solve [auto]|]).
  destruct (@layout_origins _ _ r st _ _ _ _ _ Hes E) as (fs & x & o & O1 & O2 & O3 & O4).
  destruct O4 as [[O4 _]|(_ & O5 & i & ->)]; [congruence|].
  assert (Ha : additive (tx_str t)) by (eapply Hsplit; eapply reach_at; exact O5).
  cbn [text_seg seg_width seg_str]. rewrite O3.
  rewrite <- (Ha [] (firstn n (tx_str t)) (skipn n (tx_str t))); cbn [app]; rewrite firstn_skipn; reflexivity.
Qed.

(** C24.  The string printer returns the lines of the document, joined: also those
    that are printed with the focus in a text. *)
Theorem C24_text_focus w path n ups fl downs :
  printed doc w path (FText n) None ups fl downs ->
  ev (fun m => pretty_print_to_string m doc w) (Ok (join_lines (map segs_to_string (all_lines ups fl downs)))).
Proof.
  intros Hp. destruct (C78_one_cut Hrep Hv Hu Hsplit Hp) as (fl0 & downs0 & _ & _ & _ & Hp0 & _).
  rewrite (C78_same_text Hrep Hv Hu Hsplit Hp Hp0).
  exact (C24_to_string_joins_lines (rep_finite Hrep) (eq_refl : is_text_target FStart = false) Hp0).
Qed.

(** C47: no line is too wide either. *)
Theorem C47_text_focus w st path n ups fl downs :
  matched r -> (w < U16)%N -> single_line_firsts (snd (doc_shape r st)) ->
  Forall (fun l => exact_width l <= w)%N (lines_of (second_events (i_id (r_info r)) (snd (doc_shape r st)))) ->
  printed doc w path (FText n) st ups fl downs ->
  Forall (fun l => exact_width l <= w)%N (all_lines ups fl downs).
Proof.
  intros Hm Hw Hs HF Hp.
  destruct (C01_text_focus Hp) as (es & la & s & lb & Hes & E & H3 & H4 & H5).
  destruct (C01_layout_is_printed Hrep Hv w st Hes) as (fl0 & downs0 & Hp0 & E0).
  pose proof (@C47_no_line_too_wide _ _ _ r doc Hrep Hv w st [] FStart [] fl0 downs0 Hm Hw Hs HF eq_refl Hp0) as H.
  rewrite <- E0, E in H. unfold all_lines. rewrite Forall_app in *. destruct H as [Ha Hb]. split; [exact Ha|].
  inversion Hb as [|x y Hx Hy]; subst. constructor; [|exact Hy].
  rewrite H3, H4. unfold exact_width in *. rewrite !map_app in *. cbn [map seg_width] in *.
  assert (G : forall u v, fold_right N.add 0%N (u ++ v) = (fold_right N.add 0 u + fold_right N.add 0 v)%N).
  { induction u as [|x u IH]; intros v; cbn [app fold_right]; [reflexivity|]. rewrite IH. lia. }
  rewrite !G in *. cbn [fold_right] in *. lia.
Qed.

End TextFocus.
