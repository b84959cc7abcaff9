(** C12, C13, C16 and C64 for focuses in texts. *)
From Verif Require Export Properties50 Properties31 Properties4.
From Coq Require Import Lia.

Set Implicit Arguments.

Section TextFocus.
Context {pd : PrettyDoc} {env : Env} {ideq : IdEq pd}.
Variables (r : rdoc) (doc : D).
Hypothesis Hrep : rep r doc.
Hypothesis Hv : valid_doc r.
Hypothesis Hu : unique_ids (id_at r).
Hypothesis Hsplit : splittable r.

(** The lines [ups], [fl], [downs] are [lines], with one segment of the focused
    line cut after [n] characters. *)
Definition cut_lines (n : nat) (lines ups : list line) (fl : focused_line) (downs : list line) : Prop :=
  exists before s after,
    lines = rev ups ++ (before ++ s :: after) :: downs /\
    left_segments fl = before ++ [Segment (firstn n (seg_str s)) (str_width (firstn n (seg_str s))) (seg_style s)] /\
    right_segments fl = Segment (skipn n (seg_str s)) (str_width (skipn n (seg_str s))) (seg_style s) :: after /\
    seg_width s = (str_width (firstn n (seg_str s)) + str_width (skipn n (seg_str s)))%N.

Lemma width_app (u v : line) : exact_width (u ++ v) = (exact_width u + exact_width v)%N.
Proof.
  unfold exact_width. rewrite map_app. induction u as [|x u IH]; cbn [app map fold_right]; [reflexivity|]. rewrite IH. lia.
Qed.

Lemma cut_widths n lines ups fl downs : cut_lines n lines ups fl downs ->
  map exact_width (all_lines ups fl downs) = map exact_width lines.
Proof.
  intros (la & s & lb & -> & H3 & H4 & H5). unfold all_lines. rewrite !map_app. f_equal. cbn [map]. f_equal.
  rewrite H3, H4, !width_app. 
  assert (K : forall (x : segment) (u : line), exact_width (x :: u) = (seg_width x + exact_width u)%N) by reflexivity.
  rewrite !K. cbn [seg_width]. rewrite H5. assert (Z : exact_width ([] : line) = 0%N) by reflexivity. rewrite Z. lia.
Qed.

Lemma from_start w st path n ups fl downs :
  printed doc w path (FText n) st ups fl downs ->
  exists fl0 downs0, printed doc w [] FStart st [] fl0 downs0 /\ cut_lines n (all_lines [] fl0 downs0) ups fl downs.
Proof.
  intros Hp. destruct (C01_text_focus Hrep Hv Hu Hsplit Hp) as (es & la & s & lb & Hes & E & H3 & H4 & H5).
  destruct (C01_layout_is_printed Hrep Hv w st Hes) as (fl0 & downs0 & Hp0 & E0).
  exists fl0, downs0. split; [exact Hp0|]. exists la, s, lb. rewrite <- E. auto.
Qed.

Lemma narrow_cut n lines ups fl downs : cut_lines n lines ups fl downs ->
  narrow_lines (all_lines ups fl downs) -> narrow_lines lines.
Proof.
  intros Hc Hn. unfold narrow_lines in *. apply cut_widths in Hc.
  assert (M : forall ls : list line, Forall (fun l => (exact_width l < U16)%N) ls <-> Forall (fun x => (x < U16)%N) (map exact_width ls)).
  { intros ls. rewrite Forall_map. reflexivity. }
  apply M. apply M in Hn. rewrite <- Hc. exact Hn.
Qed.

(** C12.  With the focus in a text, what is printed follows the rule for choices,
    as if nothing were cut. *)
Theorem C12_text_focus w st path n ups fl downs :
  printed doc w path (FText n) st ups fl downs -> narrow_lines (all_lines ups fl downs) ->
  exists t, lays_doc true w (doc_shape r st) t /\ cut_lines n (lines_of (events t)) ups fl downs.
Proof.
  intros Hp Hn. destruct (from_start Hp) as (fl0 & downs0 & Hp0 & Hc).
  destruct (C12_choice_rule Hrep Hv (eq_refl : is_text_target FStart = false) Hp0 (narrow_cut Hc Hn)) as (t & L & E).
  exists t. split; [exact L|]. rewrite <- E. exact Hc.
Qed.

(** C64.  It comes first among the layouts that fit. *)
Theorem C64_text_focus w st path n ups fl downs :
  obedient (snd (doc_shape r st)) ->
  printed doc w path (FText n) st ups fl downs -> narrow_lines (all_lines ups fl downs) ->
  exists cs es, doc_picks (doc_shape r st) cs es /\ cut_lines n (lines_of es) ups fl downs /\
    forall cs' es', doc_picks (doc_shape r st) cs' es' -> fitting w es' ->
      (cs = cs' /\ es = es') \/ comes_before cs cs'.
Proof.
  intros Ho Hp Hn. destruct (from_start Hp) as (fl0 & downs0 & Hp0 & Hc).
  destruct (C64_comes_first Hrep Hv Ho (eq_refl : is_text_target FStart = false) Hp0 (narrow_cut Hc Hn)) as (cs & es & H1 & E & H2).
  exists cs, es. split; [exact H1|]. split; [rewrite <- E; exact Hc|exact H2].
Qed.

(** C13.  And the line of a first option that was taken is not wider than the
    limit, also when a text in it is cut. *)
Theorem C13_text_focus w st path n ups fl downs :
  printed doc w path (FText n) st ups fl downs -> narrow_lines (all_lines ups fl downs) ->
  exists t, lays_doc true w (doc_shape r st) t /\ cut_lines n (lines_of (events t)) ups fl downs /\
    forall a b above l1 l2 below, t = a ++ First :: b ->
      lines_of (events a) = above ++ [l1] -> lines_of (events b) = l2 :: below ->
      exists l, nth_error (all_lines ups fl downs) (length above) = Some l /\ (exact_width l <= w)%N.
Proof.
  intros Hp Hn. destruct (from_start Hp) as (fl0 & downs0 & Hp0 & Hc).
  destruct (C13_first_option_line_fits Hrep Hv (eq_refl : is_text_target FStart = false) Hp0 (narrow_cut Hc Hn)) as (t & L & E & H).
  exists t. split; [exact L|]. split; [rewrite <- E; exact Hc|].
  intros a b above l1 l2 below Et Ea Eb. destruct (H a b above l1 l2 below Et Ea Eb) as [H1 H2].
  pose proof (cut_widths Hc) as W. rewrite H1, map_app in W.
  destruct (nth_error (all_lines ups fl downs) (length above)) as [l|] eqn:Hnth.
  - exists l. split; [reflexivity|]. apply (map_nth_error exact_width) in Hnth. rewrite W, nth_error_app2 in Hnth by (rewrite map_length; apply Nat.le_refl). rewrite map_length in Hnth.
    rewrite Nat.sub_diag in Hnth. cbn in Hnth. injection Hnth as <-. exact H2.
  - exfalso. apply nth_error_None in Hnth. apply (f_equal (@length N)) in W. rewrite app_length, !map_length in W. cbn in W. clear - W Hnth. unfold line in *. lia.
Qed.

(** C16.  Every segment is (part of) a text of the document, in its style, or is
    indentation. *)
Theorem C16_text_focus w st path n ups fl downs :
  printed doc w path (FText n) st ups fl downs ->
  forall l s, In l (all_lines ups fl downs) -> In s l ->
  exists fs x o m, reach r fs x o m /\
    ((m = Literal (seg_str s) /\ s = Segment (seg_str s) (str_width (seg_str s)) (style_from (root_style r st) fs)) \/
     (m = Text /\ (exists i u, x = RText i u /\ (seg_str s = u \/ seg_str s = firstn n u \/ seg_str s = skipn n u)) /\
       s = Segment (seg_str s) (str_width (seg_str s)) (style_from (root_style r st) fs)) \/
     (m = Newline /\ In s (indents_from (root_style r st) fs))).
Proof.
  intros Hp l s Hl Hs. destruct (C78_cut_in_a_text Hrep Hv Hu Hsplit Hp) as (fs & i & u & o & bf & af & Hr & HL & HR).
  destruct (from_start Hp) as (fl0 & downs0 & Hp0 & (la & s0 & lb & E & H3 & H4 & H5)).
  rewrite HL in H3. apply app_inj_tail in H3 as [<- H3]. rewrite HR in H4. injection H4 as H4 H4' H4'' ->.
  assert (G : forall l0, In l0 (all_lines [] fl0 downs0) -> In s l0 -> exists fs x o m, reach r fs x o m /\
    ((m = Literal (seg_str s) /\ s = Segment (seg_str s) (str_width (seg_str s)) (style_from (root_style r st) fs)) \/
     (m = Text /\ (exists i u, x = RText i u /\ (seg_str s = u \/ seg_str s = firstn n u \/ seg_str s = skipn n u)) /\
       s = Segment (seg_str s) (str_width (seg_str s)) (style_from (root_style r st) fs)) \/
     (m = Newline /\ In s (indents_from (root_style r st) fs)))).
  { intros l0 Hl0 Hs0. destruct (C16_every_segment Hrep Hv (eq_refl : is_text_target FStart = false) Hp0 _ _ Hl0 Hs0) as (fs1 & x1 & o1 & m1 & R1 & [C|[(C1 & (i1 & ->) & C2)|C]]).
    - exists fs1, x1, o1, m1. split; auto.
    - exists fs1, (RText i1 (seg_str s)), o1, m1. split; [exact R1|]. right. left. eauto 8.
    - exists fs1, x1, o1, m1. split; auto. }
  unfold all_lines in Hl. apply in_app_or in Hl as [Hl|[<-|Hl]].
  - apply (G l); auto. rewrite E. apply in_or_app. left. exact Hl.
  - rewrite HL, HR in Hs. rewrite <- app_assoc in Hs. cbn [app] in Hs. apply in_app_or in Hs as [Hs|[<-|[<-|Hs]]].
    + apply (G (bf ++ s0 :: lb)); [rewrite E; apply in_or_app; right; left; reflexivity|]. apply in_or_app. left. exact Hs.
    + exists fs, (RText i u), o, Text. split; [exact Hr|]. right. left. cbn [seg_str]. split; [reflexivity|]. split; [|reflexivity]. eauto 8.
    + exists fs, (RText i u), o, Text. split; [exact Hr|]. right. left. cbn [seg_str]. split; [reflexivity|]. split; [|reflexivity]. eauto 8.
    + apply (G (bf ++ s0 :: lb)); [rewrite E; apply in_or_app; right; left; reflexivity|]. apply in_or_app. right. right. exact Hs.
  - apply (G l); auto. rewrite E. apply in_or_app. right. right. exact Hl.
Qed.

End TextFocus.

Print Assumptions C12_text_focus.
Print Assumptions C13_text_focus.
Print Assumptions C16_text_focus.
Print Assumptions C64_text_focus.
