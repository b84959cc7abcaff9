(** C47: no line is too wide unless the second options are. *)
From Verif Require Export PWide.

Set Implicit Arguments.

Section Wide.
Context {pd : PrettyDoc} {env : Env} {ideq : IdEq pd}.
Variables (r : rdoc) (doc : D).
Hypothesis Hrep : rep r doc.
Hypothesis Hv : valid_doc r.

Lemma fitting_layout w st :
  matched r -> (w < U16)%N -> single_line_firsts (snd (doc_shape r st)) ->
  Forall (fun l => exact_width l <= w)%N (lines_of (second_events (i_id (r_info r)) (snd (doc_shape r st)))) ->
  exists t, lays_doc false w (doc_shape r st) t /\ Forall (fun l => exact_width l <= w)%N (lines_of (events t)).
Proof.
  intros Hm Hw Hs HF. pose proof (matched_no_fail st Hv Hm) as Hf.
  destruct (@lays_total _ w _ Hf (i_id (r_info r)) [] (0%N, false)) as (t & p' & L).
  exists t. split; [exists (i_id (r_info r)), p'; auto|].
  pose proof (lays_fit L) as H0. pose proof (H0 [] eq_refl Hf Hs) as H. simpl in H. rewrite !app_nil_r in H.
  unfold lines_of in *.
  assert (M : forall ls, Forall (fun x => x <= w)%N (map exact_width ls) <-> Forall (fun l => exact_width l <= w)%N ls) by (intros; apply Forall_map).
  apply M. apply M in HF. rewrite widths_lines in *. apply H. exact HF.
Qed.

(** C47.  If the first option of every choice (outside of Flats) is a single
    line, and no line is wider than the width when every such choice takes its
    second option, then no printed line is wider than the width, wherever the
    focus is. *)
Theorem C47_no_line_too_wide w st path ft ups fl downs :
  matched r -> (w < U16)%N -> single_line_firsts (snd (doc_shape r st)) ->
  Forall (fun l => exact_width l <= w)%N (lines_of (second_events (i_id (r_info r)) (snd (doc_shape r st)))) ->
  is_text_target ft = false -> printed doc w path ft st ups fl downs ->
  Forall (fun l => exact_width l <= w)%N (all_lines ups fl downs).
Proof.
  intros Hm Hw Hs HF Hft Hp. destruct (fitting_layout st Hm Hw Hs HF) as (t & L & Ht).
  destruct (C01_printed_has_layout Hrep Hv Hft Hp) as (es & Hes & E). rewrite E.
  assert (Hn : narrow_lines (lines_of (events t))).
  { eapply Forall_impl; [|exact Ht]. intros l Hl. simpl in *. lia. }
  rewrite (lays_layout (matched_no_fail st Hv Hm) L Hn) in Hes. destruct (text_after false _); [discriminate|].
  injection Hes as <-. exact Ht.
Qed.

(** And printing fails only with TextAfterEndOfLine (never because of an
    overflow). *)
Theorem C47_prints w st :
  matched r -> (w < U16)%N -> single_line_firsts (snd (doc_shape r st)) ->
  Forall (fun l => exact_width l <= w)%N (lines_of (second_events (i_id (r_info r)) (snd (doc_shape r st)))) ->
  (exists fl downs, printed doc w [] FStart st [] fl downs) \/
  (exists t a b j x c, lays_doc false w (doc_shape r st) t /\
     events t = a ++ EEol :: b ++ EText j x :: c /\ forall ind, ~ In (ENewline ind) b).
Proof.
  intros Hm Hw Hs HF. destruct (fitting_layout st Hm Hw Hs HF) as (t & L & Ht).
  assert (Hn : narrow_lines (lines_of (events t))).
  { eapply Forall_impl; [|exact Ht]. intros l Hl. simpl in *. lia. }
  pose proof (lays_layout (matched_no_fail st Hv Hm) L Hn) as Hes.
  destruct (text_after false (items_of (events t))) eqn:Et.
  - right. exists t.
    assert (H : forall eol es, text_after eol (items_of es) = true ->
              exists b j x c, ((exists a, es = a ++ EEol :: b ++ EText j x :: c) \/ (eol = true /\ es = b ++ EText j x :: c)) /\ forall ind, ~ In (ENewline ind) b).
    { clear. intros eol es. revert eol. induction es as [|e es IH]; intros eol H; [discriminate|].
      destruct e; simpl in H.
      - apply orb_true_iff in H as [->|H].
        + exists [], j, t, es. split; [right; auto|]. intros ind [].
        + destruct (IH _ H) as (b & j' & x & c & [(a & ->)|[-> ->]] & Hb).
          * exists b, j', x, c. split; auto. left. eexists (_ :: a). reflexivity.
          * exists [], j, t, (b ++ EText j' x :: c). split; [right; auto|]. intros ind [].
      - destruct (IH _ H) as (b & j' & x & c & [(a & ->)|[_ ->]] & Hb).
        + exists b, j', x, c. split; auto. left. eexists (_ :: a). reflexivity.
        + exists b, j', x, c. split; auto. left. exists []. reflexivity.
      - destruct (IH _ H) as (b & j' & x & c & [(a & ->)|[? _]] & Hb); [|discriminate].
        exists b, j', x, c. split; auto. left. eexists (_ :: a). reflexivity.
      - destruct (IH _ H) as (b & j' & x & c & [(a & ->)|[-> ->]] & Hb).
        + exists b, j', x, c. split; auto. left. eexists (_ :: a). reflexivity.
        + exists (EMark j :: b), j', x, c. split; [right; auto|]. intros ind [D|D]; [discriminate|apply (Hb _ D)].
      - destruct (IH _ H) as (b & j' & x & c & [(a & ->)|[-> ->]] & Hb).
        + exists b, j', x, c. split; auto. left. eexists (_ :: a). reflexivity.
        + exists (EEnter j n :: b), j', x, c. split; [right; auto|]. intros ind [D|D]; [discriminate|apply (Hb _ D)].
      - destruct (IH _ H) as (b & j' & x & c & [(a & ->)|[-> ->]] & Hb).
        + exists b, j', x, c. split; auto. left. eexists (_ :: a). reflexivity.
        + exists (EExit j n :: b), j', x, c. split; [right; auto|]. intros ind [D|D]; [discriminate|apply (Hb _ D)]. }
    destruct (H _ _ Et) as (b & j & x & c & [(a & E)|[? _]] & Hb); [|discriminate].
    exists a, b, j, x, c. auto.
  - left. destruct (C01_layout_is_printed Hrep Hv w st Hes) as (fl & downs & Hp & _). eauto.
Qed.

End Wide.
