(** C78: a focus in a text only cuts one segment in two. *)
From Verif Require Export Properties35 Properties4 Properties7.
From Coq Require Import Lia.

Set Implicit Arguments.

Section C78.
Context {pd : PrettyDoc} {env : Env} {ideq : IdEq pd}.
Variables (r : rdoc) (doc : D).
Hypothesis Hrep : rep r doc.
Hypothesis Hv : valid_doc r.
Hypothesis Hu : unique_ids (id_at r).
Hypothesis Hsplit : splittable r.

(** The event that is cut. *)
Lemma text_cut w st path n ups fl downs :
  printed doc w path (FText n) st ups fl downs ->
  exists es a j t b, layout w (doc_shape r st) = Some es /\ es = a ++ EText j t :: b /\ tx_from_text t = true /\
    exists la lb, lines_of a = rev ups ++ [la] /\ lines_from [] b = lb :: downs /\
    left_segments fl = la ++ [Segment (firstn n (tx_str t)) (str_width (firstn n (tx_str t))) (tx_style t)] /\
    right_segments fl = Segment (skipn n (tx_str t)) (str_width (skipn n (tx_str t))) (tx_style t) :: lb /\
    lines_of es = rev ups ++ (la ++ text_seg t :: lb) :: downs.
Proof.
  intros (up & down & H1 & H2 & H3).
  destruct (@first_lab_spec _ _ _ r doc Hrep Hv Hu w path (FText n) st (fun _ => Hsplit)) as (res & Hev & H).
  pose proof (ev_det Hev H1). subst res. destruct H as (ru & rd & Hru & Hrd & _ & _ & H).
  pose proof (ev_det Hru H2). pose proof (ev_det Hrd H3). subst ru rd.
  destruct (layout w (doc_shape r st)) as [es|] eqn:Hes; [|destruct H; discriminate].
  destruct H as (ups' & downs' & pre & post & E1 & E2 & Hdiv & L1 & L2). injection E1 as <-. injection E2 as <-.
  destruct Hdiv as (a & mid & j & t & rest & E & -> & -> & _ & _ & Ht).
  rewrite app_assoc in L1.
  destruct (lines_app (a ++ mid) [EText j (fst (split_at t n))] []) as (l & ls & A1 & A2).
  unfold lines_of in L1. rewrite A2 in L1. simpl in L1. apply app_inj_tail in L1 as [-> L1].
  simpl in L2. destruct (lines_cur rest [text_seg (snd (split_at t n))]) as (x & ls & B1 & B2).
  cbn [app text_seg tx_str tx_width tx_style split_at snd] in B2. rewrite B2 in L2. injection L2 as L2 ->.
  exists es, (a ++ mid), j, t, rest. split; [reflexivity|]. split; [rewrite E, app_assoc; reflexivity|]. split; [exact Ht|].
  exists l, x. repeat (split; [solve [eauto]|]). rewrite E, app_assoc.
  apply (@Verif.PWhole.lines_join _ (a ++ mid) (EText j t :: rest) ups l (text_seg t :: x) downs); [exact A1|].
  cbn. destruct (lines_cur rest [text_seg t]) as (x' & ls' & C1 & C2). rewrite B1 in C1. injection C1 as <- <-. exact C2.
Qed.

(** C78.  When the focus is in a text, wherever it is, the lines are those of the
    whole document, with one segment cut after the [n]-th character: the left part
    ends the left half of the focused line, the right part starts the right half;
    both have the style of the segment. *)
Theorem C78_one_cut w st path n ups fl downs :
  printed doc w path (FText n) st ups fl downs ->
  exists fl0 downs0 before s after,
    printed doc w [] FStart st [] fl0 downs0 /\
    all_lines [] fl0 downs0 = rev ups ++ (before ++ s :: after) :: downs /\
    left_segments fl = before ++ [Segment (firstn n (seg_str s)) (str_width (firstn n (seg_str s))) (seg_style s)] /\
    right_segments fl = Segment (skipn n (seg_str s)) (str_width (skipn n (seg_str s))) (seg_style s) :: after.
Proof.
  intros Hp. destruct (text_cut Hp) as (es & a & j & t & b & Hes & E & Ht & la & lb & H1 & H2 & H3 & H4 & H5).
  destruct (C01_layout_is_printed Hrep Hv w st Hes) as (fl0 & downs0 & Hp0 & E0).
  exists fl0, downs0, la, (text_seg t), lb. rewrite <- E0, H5. auto.
Qed.

(** The segment that is cut is the text of a node, with the style it is given there. *)
Theorem C78_cut_in_a_text w st path n ups fl downs :
  printed doc w path (FText n) st ups fl downs ->
  exists fs i s o before after,
    reach r fs (RText i s) o Text /\
    left_segments fl = before ++ [Segment (firstn n s) (str_width (firstn n s)) (style_from (root_style r st) fs)] /\
    right_segments fl = Segment (skipn n s) (str_width (skipn n s)) (style_from (root_style r st) fs) :: after.
Proof.
  intros Hp. destruct (text_cut Hp) as (es & a & j & t & b & Hes & E & Ht & la & lb & H1 & H2 & H3 & H4 & H5).
  destruct (@layout_origins _ _ r st _ _ _ _ _ Hes E) as (fs & x & o & O1 & O2 & O3 & O4).
  destruct O4 as [[O4 _]|(_ & O5 & i & ->)]; [congruence|].
  exists fs, i, (tx_str t), o, la, lb. rewrite <- O2. auto.
Qed.

(** The text is that of the document printed with the focus at the start. *)
Theorem C78_same_text w st path n ups fl downs fl0 downs0 :
  printed doc w path (FText n) st ups fl downs -> printed doc w [] FStart st [] fl0 downs0 ->
  map segs_to_string (all_lines ups fl downs) = map segs_to_string (all_lines [] fl0 downs0).
Proof.
  intros Hp Hp0. destruct (text_cut Hp) as (es & a & j & t & b & Hes & E & Ht & la & lb & H1 & H2 & H3 & H4 & H5).
  destruct (@C01_printed_has_layout _ _ _ r doc Hrep Hv w st [] FStart [] fl0 downs0 eq_refl Hp0) as (es' & Hes' & E').
  rewrite Hes in Hes'. injection Hes' as <-. rewrite E', H5. unfold all_lines. rewrite H3, H4, !map_app. cbn. f_equal. f_equal.
  rewrite !segs_app. rewrite <- !app_assoc. f_equal. unfold segs_to_string. cbn. rewrite <- (firstn_skipn n (tx_str t)) at 3.
  rewrite !app_nil_r, <- ?app_assoc. reflexivity.
Qed.

(** C25, for focuses in texts. *)
Theorem C25_text_focus_widths w st path n ups fl downs :
  printed doc w path (FText n) st ups fl downs ->
  forall l s, In l (all_lines ups fl downs) -> In s l -> seg_width s = (usize_width (seg_str s) mod 65536)%N.
Proof.
  intros Hp. destruct (C78_one_cut Hp) as (fl0 & downs0 & la & s0 & lb & Hp0 & E & H3 & H4).
  pose proof (fun l s => @C25_segment_widths _ _ _ r doc Hrep Hv w [] FStart st [] fl0 downs0 eq_refl Hp0 l s) as H.
  rewrite E in H. intros l s Hl Hs. unfold all_lines in Hl. rewrite H3, H4 in Hl.
  apply in_app_or in Hl as [Hl|[<-|Hl]]; [eapply H; [apply in_or_app; left; exact Hl|exact Hs]| |eapply H; [apply in_or_app; right; right; exact Hl|exact Hs]].
  rewrite <- app_assoc in Hs. apply in_app_or in Hs as [Hs|[<-|[<-|Hs]]]; [| reflexivity|reflexivity|];
    eapply H; try (apply in_or_app; right; left; reflexivity); apply in_or_app; [left; exact Hs|right; right; exact Hs].
Qed.

(** A document that can be printed at all fails with a focus only because of the
    focus: the path is not displayed, or there is no mark or text. *)
Theorem C78_only_the_focus_fails w st fl0 downs0 path ft f :
  printed doc w [] FStart st [] fl0 downs0 -> print_fails doc w path ft st f ->
  (exists i, In i path /\ f = FErr (InvalidPath i)) \/
  (ft = FMark /\ f = FErr MissingFocusMark) \/ (is_text_target ft = true /\ f = FErr MissingText).
Proof.
  intros Hp Hf. destruct (@C01_printed_has_layout _ _ _ r doc Hrep Hv w st [] FStart [] fl0 downs0 eq_refl Hp) as (es & Hes & _).
  destruct (@first_lab_spec _ _ _ r doc Hrep Hv Hu w path ft st (fun _ => Hsplit)) as (res & Hev & H).
  rewrite Hes in H. destruct Hf as [Hf|(up & fl & down & Hf & Hc)]; pose proof (ev_det Hev Hf); subst res.
  - destruct H as [[_ H]|[(p1 & i & p2 & -> & -> & _)|[(-> & -> & _)|(n & -> & -> & _)]]]; [discriminate| | |]; auto.
    left. exists i. split; [|reflexivity]. apply in_or_app. right. left. reflexivity.
  - destruct H as (ru & rd & H1 & H2 & _ & _ & (? & ? & ? & ? & -> & -> & _)).
    destruct Hc as [Hc|Hc]; [pose proof (ev_det H1 Hc)|pose proof (ev_det H2 Hc)]; discriminate.
Qed.
End C78.

(** C10 and C22, whatever the focus (in a text, too): no panic, no TextAfterEndOfLine. *)
Section Checked.
Context {pd : PrettyDoc} {ideq : IdEq pd}.
Variables (uw : str -> N) (cf : char -> bool).
Variables (r : rdoc) (doc : D).
Hypothesis Hrep : rep r doc.
Hypothesis Hv : valid_doc r.
Hypothesis Hu : unique_ids (id_at r).
Notation release := (Build_Env uw cf false).
Notation debug := (Build_Env uw cf true).
Hypothesis Hsplit : @splittable pd release r.

Theorem C10_any_focus_no_panic w st fl downs :
  @printed pd release doc w [] FStart st [] fl downs -> narrow_lines (all_lines [] fl downs) ->
  forall path ft pan, ~ @print_fails pd debug doc w path ft st (FPanic pan).
Proof.
  intros Hp Hn path ft pan Hf. destruct (@debug_layout pd ideq uw cf r doc Hrep Hv w st fl downs Hp Hn) as (es & Hes & _).
  destruct (@C01_layout_is_printed pd debug ideq r doc Hrep Hv w st es Hes) as (fl0 & downs0 & Hp0 & _).
  destruct (@C78_only_the_focus_fails pd debug ideq r doc Hrep Hv Hu Hsplit w st fl0 downs0 path ft _ Hp0 Hf) as [(i & _ & H)|[[_ H]|[_ H]]]; discriminate.
Qed.

Theorem C22_any_focus w st path ft :
  childless (i_note (r_info r)) = true -> matched r ->
  ~ @print_fails pd release doc w path ft st (FErr TextAfterEndOfLine).
Proof.
  intros Hc Hm Hf. destruct (@C22_childless_is_printed pd ideq uw cf r doc Hrep Hv Hc Hm w st) as (fl0 & downs0 & Hp0).
  destruct (@C78_only_the_focus_fails pd release ideq r doc Hrep Hv Hu Hsplit w st fl0 downs0 path ft _ Hp0 Hf) as [(i & _ & H)|[[_ H]|[_ H]]]; discriminate.
Qed.
End Checked.
