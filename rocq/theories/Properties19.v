(** C53: a smaller width changes nothing as long as the lines still fit.
    C54: EndOfLine is respected whenever the second options respect it. *)
From Verif Require Export SpecResize PResize PResize2 Properties14.

Set Implicit Arguments.

Section Resize.
Context {pd : PrettyDoc} {env : Env} {ideq : IdEq pd}.
Variables (r : rdoc) (doc : D).
Hypothesis Hrep : rep r doc.
Hypothesis Hv : valid_doc r.

Lemma narrower_layout w w' st es :
  matched r -> obedient (snd (doc_shape r st)) -> (w' <= w)%N -> (w' < U16)%N ->
  layout w (doc_shape r st) = Some es -> Forall (fun l => exact_width l <= w')%N (lines_of es) ->
  layout w' (doc_shape r st) = Some es.
Proof.
  intros Hm Ho Hw Hw' Hes HF.
  assert (Hn : narrow_lines (lines_of es)).
  { eapply Forall_impl; [|exact HF]. intros l Hl. simpl in *. lia. }
  destruct (layout_lays _ _ Hes Hn) as (t & <- & (j & p' & Hj & L)).
  pose proof (lays_clean L) as Hc.
  assert (L' : lays true w' j [] (snd (doc_shape r st)) (0%N, false) t p').
  { pose proof (lays_narrower Hw L) as K. apply (K []); auto; rewrite ?app_nil_r; auto.
    - intros len eol H. exact H.
    - assert (M : Forall (fun x => x <= w')%N (map exact_width (lines_of (events t)))) by (apply Forall_map; exact HF).
      unfold lines_of in M. rewrite widths_lines in M. exact M. }
  rewrite (lays_layout (matched_no_fail st Hv Hm) (ex_intro _ j (ex_intro _ p' (conj Hj L'))) Hn).
  simpl in Hc. rewrite Hc. reflexivity.
Qed.

(** C53.  If every choice obeys the documented requirement, and all lines that
    are printed at width [w] are at most [w'] wide, then the same lines are
    printed at width [w'] (and so at every width between). *)
Theorem C53_same_lines w w' st fl downs :
  matched r -> obedient (snd (doc_shape r st)) -> (w' <= w)%N -> (w' < U16)%N ->
  printed doc w [] FStart st [] fl downs ->
  Forall (fun l => exact_width l <= w')%N (all_lines [] fl downs) ->
  exists fl' downs', printed doc w' [] FStart st [] fl' downs' /\ all_lines [] fl' downs' = all_lines [] fl downs.
Proof.
  intros Hm Ho Hw Hw' Hp HF.
  destruct (C01_printed_has_layout Hrep Hv (eq_refl : is_text_target FStart = false) Hp) as (es & Hes & E).
  rewrite E in *. pose proof (narrower_layout st Hm Ho Hw Hw' Hes HF) as Hes'.
  destruct (C01_layout_is_printed Hrep Hv w' st Hes') as (fl' & downs' & Hp' & E'). eauto.
Qed.

(** C53.  And the focus is in the same place, whatever it is on: the same lines
    are above it, to its left and right, and below it. *)
Theorem C53_same_focus w w' st es path ft ups fl downs :
  unique_ids (id_at r) -> matched r -> obedient (snd (doc_shape r st)) -> (w' <= w)%N -> (w' < U16)%N ->
  layout w (doc_shape r st) = Some es -> linear es ->
  Forall (fun l => exact_width l <= w')%N (lines_of es) ->
  (is_text_target ft = true -> splittable r) ->
  printed doc w path ft st ups fl downs -> printed doc w' path ft st ups fl downs.
Proof.
  intros Hu Hm Ho Hw Hw' Hes Hlin HF Hs Hp. eapply same_layout; eauto. eapply narrower_layout; eauto.
Qed.

(** C53.  A simple way to obey the requirement: let every second option start
    with the literals that the first option starts with (if any), and then a
    Newline. *)
Theorem C53_same_openings st : all_same_openings r -> obedient (snd (doc_shape r st)).
Proof. intros H. apply elab_obedient. exact H. Qed.

(** ** C54 *)

Lemma tail_clean l : forall e e', text_after e l = false -> text_after e' (first_line l) = false -> text_after e' l = false.
Proof.
  induction l as [|[w0| |] l IH]; simpl; intros e e' H1 H2; auto.
  - apply orb_false_iff in H1 as [H1 H1']. apply orb_false_iff in H2 as [H2 H2']. apply orb_false_iff. eauto.
Qed.

Lemma lays_ends strict w j rest s p t p' : lays strict w j rest s p t p' ->
  no_fail s -> single_line_firsts s -> text_after (snd p) (seconds s ++ rest) = false ->
  text_after (snd p) (items_of (events t) ++ rest) = false.
Proof.
  unfold no_fail. induction 1; simpl in *; intros Hf Hs Ht; auto.
  - rewrite events_app, items_app, <- app_assoc. rewrite <- app_assoc in Ht.
    destruct Hf as [Hfa Hfb], Hs as [Hsa Hsb]. specialize (IHlays1 Hfa Hsa Ht).
    rewrite text_after_app in IHlays1 |- *. apply orb_false_iff in IHlays1 as [I1 I2]. rewrite I1. simpl.
    rewrite (lays_eol H) in *. apply IHlays2; auto.
  - destruct Hf as [Hfa Hfb], Hs as [Hsa Hsb]. apply IHlays; auto. { apply free_single; auto. }
    destruct H as [_ H]. rewrite text_after_app in Ht. apply orb_false_iff in Ht as [_ Ht].
    assert (Hn : has_nl (seconds a) = false).
    { rewrite <- (second_items a Hfa j). apply free_second; auto. }
    rewrite first_line_app, text_after_app in H by auto. apply orb_false_iff in H as [H1 H2].
    rewrite text_after_app, H1. simpl. eapply tail_clean; eauto.
  - destruct Hf as [Hfa Hfb], Hs as [Hsa Hsb]. auto.
  - unfold events in *. rewrite flat_map_app, items_app. simpl. rewrite app_nil_r. apply IHlays; tauto.
Qed.

(** C54.  If first options are single lines, and no text comes after an
    EndOfLine when every choice takes its second option, then none comes after
    an EndOfLine in the layout that the rule (C12) picks, at any width. *)
Theorem C54_rule_respects_ends w st strict t :
  matched r -> single_line_firsts (snd (doc_shape r st)) ->
  text_after false (seconds (snd (doc_shape r st))) = false ->
  lays_doc strict w (doc_shape r st) t -> text_after false (items_of (events t)) = false.
Proof.
  intros Hm Hs Ht (j & p' & Hj & L). pose proof (lays_ends L (matched_no_fail st Hv Hm) Hs) as H.
  simpl in H. rewrite !app_nil_r in H. auto.
Qed.

(** C54.  So printing does not fail, unless a line would be too wide for the
    printer's numbers. *)
Theorem C54_prints w st t :
  matched r -> single_line_firsts (snd (doc_shape r st)) ->
  text_after false (seconds (snd (doc_shape r st))) = false ->
  lays_doc false w (doc_shape r st) t -> narrow_lines (lines_of (events t)) ->
  exists fl downs, printed doc w [] FStart st [] fl downs /\ all_lines [] fl downs = lines_of (events t).
Proof.
  intros Hm Hs Ht L Hn. pose proof (lays_layout (matched_no_fail st Hv Hm) L Hn) as E.
  rewrite (C54_rule_respects_ends Hm Hs Ht L) in E.
  destruct (C01_layout_is_printed Hrep Hv w st E) as (fl & downs & Hp & El). eauto.
Qed.

(** C54.  In particular when the lines of the second options fit. *)
Theorem C54_always_prints w st :
  matched r -> (w < U16)%N -> single_line_firsts (snd (doc_shape r st)) ->
  Forall (fun l => exact_width l <= w)%N (lines_of (second_events (i_id (r_info r)) (snd (doc_shape r st)))) ->
  text_after false (items_of (second_events (i_id (r_info r)) (snd (doc_shape r st)))) = false ->
  exists fl downs, printed doc w [] FStart st [] fl downs /\
    Forall (fun l => exact_width l <= w)%N (all_lines [] fl downs).
Proof.
  intros Hm Hw Hs HF Ht. destruct (fitting_layout Hv st Hm Hw Hs HF) as (t & L & Hl).
  rewrite (second_items _ (matched_no_fail st Hv Hm)) in Ht.
  destruct (C54_prints Hm Hs Ht L) as (fl & downs & Hp & E).
  { eapply Forall_impl; [|exact Hl]. intros l H. simpl in *. lia. }
  exists fl, downs. split; auto. rewrite E. exact Hl.
Qed.

End Resize.
