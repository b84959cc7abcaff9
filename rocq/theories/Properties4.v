(** What the printed layout looks like (C12-C16, C18, C25, C27). *)
From Verif Require Export PFlat Properties3.

Set Implicit Arguments.

Section Layout.
Context {pd : PrettyDoc} {env : Env} {ideq : IdEq pd}.
Variables (r : rdoc) (doc : D).
Hypothesis Hrep : rep r doc.
Hypothesis Hv : valid_doc r.

(** ** C12: choices *)

(** C12.  What is printed follows the rule for choices (see [lays], whose rules
    [L_first] and [L_second] are the documented rule), as long as no line is
    wider than a u16 can hold. *)
Theorem C12_choice_rule w path ft st ups fl downs :
  is_text_target ft = false -> printed doc w path ft st ups fl downs ->
  narrow_lines (all_lines ups fl downs) ->
  exists t, lays_doc true w (doc_shape r st) t /\ all_lines ups fl downs = lines_of (events t).
Proof.
  intros Hft Hp Hn. destruct (C01_printed_has_layout Hrep Hv Hft Hp) as (es & Hes & E).
  rewrite E in *. destruct (layout_lays _ _ Hes Hn) as (t & <- & L). eauto.
Qed.

(** C12.  The rule allows only one layout. *)
Theorem C12_rule_determines_layout strict1 strict2 w st t1 t2 :
  lays_doc strict1 w (doc_shape r st) t1 -> lays_doc strict2 w (doc_shape r st) t2 -> t1 = t2.
Proof.
  intros (j1 & p1 & [= <-] & L1) (j2 & p2 & [= <-] & L2). apply (lays_det L1 L2).
Qed.

(** C12.  For a document whose notations match its nodes, the layout the rule
    describes is printed. *)
Theorem C12_rule_is_printed w st t :
  matched r -> lays_doc true w (doc_shape r st) t -> narrow_lines (lines_of (events t)) ->
  exists fl downs, printed doc w [] FStart st [] fl downs /\ all_lines [] fl downs = lines_of (events t).
Proof.
  intros Hm L Hn. pose proof (lays_layout (matched_no_fail st Hv Hm) L Hn) as E.
  replace (text_after false (items_of (events t))) with false in E.
  - destruct (C01_layout_is_printed Hrep Hv _ _ E) as (fl & downs & Hp & El). eauto.
  - destruct L as (j & p' & _ & L). symmetry. apply (lays_clean L).
Qed.

(** ** C13: lines on which a choice took its first option *)

(** C13.  [a] is what is displayed before some choice that took its first
    option (because that fit), [b] what is displayed from there on: the line
    they share is not wider than the limit. *)
Theorem C13_first_option_line_fits w path ft st ups fl downs :
  is_text_target ft = false -> printed doc w path ft st ups fl downs ->
  narrow_lines (all_lines ups fl downs) ->
  exists t, lays_doc true w (doc_shape r st) t /\ all_lines ups fl downs = lines_of (events t) /\
    forall a b above l1 l2 below, t = a ++ First :: b ->
      lines_of (events a) = above ++ [l1] -> lines_of (events b) = l2 :: below ->
      all_lines ups fl downs = above ++ (l1 ++ l2) :: below /\ (exact_width (l1 ++ l2) <= w)%N.
Proof.
  intros Hft Hp Hn. destruct (C12_choice_rule Hft Hp Hn) as (t & L & E). exists t. split; auto. split; auto.
  intros a b above l1 l2 below Et Ha Hb. split; [|eapply first_line_ok; eauto].
  rewrite E, Et, events_app. simpl. pose proof (@lines_join _ (events a) (events b) (rev above) l1 l2 below) as H.
  rewrite rev_involutive in H. auto.
Qed.

(** ** C14: EndOfLine *)

(** C14.  Between an EndOfLine and a text there is a newline. *)
Theorem C14_no_text_after_end_of_line w path ft st ups fl downs :
  is_text_target ft = false -> printed doc w path ft st ups fl downs ->
  exists es, layout w (doc_shape r st) = Some es /\ all_lines ups fl downs = lines_of es /\
    forall a b j t c, es = a ++ EEol :: b ++ EText j t :: c -> exists ind, In (ENewline ind) b.
Proof.
  intros Hft Hp. destruct (C01_printed_has_layout Hrep Hv Hft Hp) as (es & Hes & E). exists es. split; auto. split; auto.
  intros a b j t c ->. unfold layout, doc_shape in Hes. destruct (rend _ _ _ _ _) as [[es' p']|] eqn:Er; [|discriminate].
  injection Hes as ->. apply rend_clean in Er as [Er _]. apply nl_event.
  rewrite items_app in Er. simpl in Er. rewrite items_app in Er. apply text_after_split in Er. exact Er.
Qed.

(** Failures of a document whose notations match its nodes. *)
Definition eol_fail (f : failure (perr Er)) : Prop :=
  f = FErr TextAfterEndOfLine \/ (f = FPanic POverflow /\ ovf = true).

Lemma matched_root_ok st : matched r -> root_ok eol_fail top topN (doc_shape r st).
Proof.
  intros Hm. split; [|exact I]. split; [|exact I]. pose proof (matched_no_fail st Hv Hm) as H. simpl in H.
  clear -H. revert H. unfold no_fail. generalize (elab r (root_ctx r st)). induction s; simpl; intuition.
  destruct i; auto. contradiction.
Qed.

(** C14.  If the layout (by the rule, but without forbidding text after
    EndOfLine: [lays_doc false]) has a text after an EndOfLine, then printing
    fails, with TextAfterEndOfLine (or with an overflow panic, only in builds
    with overflow checks). *)
Theorem C14_text_after_end_of_line_fails w st t :
  matched r -> lays_doc false w (doc_shape r st) t -> narrow_lines (lines_of (events t)) ->
  forall a b j x c, events t = a ++ EEol :: b ++ EText j x :: c -> (forall ind, ~ In (ENewline ind) b) ->
  exists f, print_fails doc w [] FStart st f /\ (f = FErr TextAfterEndOfLine \/ (f = FPanic POverflow /\ ovf = true)).
Proof.
  intros Hm L Hn a b j x c E Hb. pose proof (lays_layout (matched_no_fail st Hv Hm) L Hn) as Hl.
  destruct (text_after false (items_of (events t))) eqn:Et.
  - pose proof (@full_root _ _ _ eol_fail (or_introl eq_refl) (fun H => or_intror (conj eq_refl H)) doc st _ (rep_tree Hrep Hv st) (matched_root_ok st Hm) w) as H.
    rewrite Hl in H. exact H.
  - exfalso. rewrite E, items_app in Et. simpl in Et. rewrite items_app in Et. apply text_after_split in Et.
    apply nl_event in Et as (ind & Hi). apply (Hb _ Hi).
Qed.

(** C14 / C10.  Such a document fails for no other reason, whatever the path
    and target. *)
Theorem C14_matched_failures w path ft st f :
  matched r -> print_fails doc w path ft st f ->
  (exists i, In i path /\ f = FErr (InvalidPath i)) \/ (ft = FMark /\ f = FErr MissingFocusMark) \/
  (is_text_target ft = true /\ f = FErr MissingText) \/ f = FErr TextAfterEndOfLine \/ (f = FPanic POverflow /\ ovf = true).
Proof.
  intros Hm Hp.
  destruct (@total_root _ _ _ eol_fail (or_introl eq_refl) (fun H => or_intror (conj eq_refl H)) doc st _ (rep_tree Hrep Hv st) (matched_root_ok st Hm) w path ft) as (res & Hev & H).
  destruct Hp as [Hp|(up & fl & down & Hp & Hc)].
  - pose proof (ev_det Hev Hp). subst res. destruct H as [[H|H]|[H|[H|(n & -> & ->)]]]; auto 10.
  - pose proof (ev_det Hev Hp). subst res. destruct H as (ru & rd & H1 & H2 & H3 & H4).
    destruct Hc as [Hc|Hc]; [pose proof (ev_det H1 Hc)|pose proof (ev_det H2 Hc)]; subst;
      [destruct (H3 _ eq_refl)|destruct (H4 _ eq_refl)]; auto 10.
Qed.

(** ** C15, C16, C18, C25: where everything printed comes from *)

(** C15.  At every newline of the layout, the next line starts with the strings
    of exactly the Indents that the Newline is inside of ([fs]), outermost
    first, each in its own style. *)
Theorem C15_indentation w path ft st ups fl downs :
  is_text_target ft = false -> printed doc w path ft st ups fl downs ->
  exists es, layout w (doc_shape r st) = Some es /\ all_lines ups fl downs = lines_of es /\
    forall a ind b, es = a ++ ENewline ind :: b ->
    exists fs x o l ls, reach r fs x o Newline /\ path_of fs = open_path a /\
      lines_of b = l :: ls /\
      all_lines ups fl downs = lines_of a ++ (indents_from (root_style r st) fs ++ l) :: ls.
Proof.
  intros Hft Hp. destruct (C01_printed_has_layout Hrep Hv Hft Hp) as (es & Hes & E). exists es. split; auto. split; auto.
  intros a ind b Ees. destruct (@layout_origins _ _ r st _ _ _ _ _ Hes Ees) as (fs & x & o & H1 & H2 & H3).
  destruct (lines_cur b (rev ind)) as (l & ls & E1 & E2). exists fs, x, o, l, ls. repeat split; auto.
  rewrite E, Ees, <- H2. unfold lines_of in *. destruct (lines_app a (ENewline ind :: b) []) as (l0 & ls0 & A1 & A2).
  rewrite A2, A1. simpl. rewrite E2, <- app_assoc. reflexivity.
Qed.

(** C15.  The first line is not indented. *)
Theorem C15_first_line_not_indented (es : list event) :
  (forall ind, ~ In (ENewline ind) es) -> forall cur, lines_from cur es =
    [cur ++ flat_map (fun e => match e with EText _ t => [text_seg t] | _ => [] end) es].
Proof.
  induction es as [|e es IH]; intros H cur; simpl.
  - rewrite app_nil_r. reflexivity.
  - assert (IH' := IH (fun ind Hi => H ind (or_intror Hi))). destruct e; simpl; rewrite ?IH'; auto.
    + rewrite <- app_assoc. reflexivity.
    + destruct (H ind). left. reflexivity.
Qed.

(** C16.  Every text printed comes from a [Literal] or [Text] of the document;
    its style combines the styles of what that notation is inside of, from the
    outermost (the root style) to the innermost. *)
Theorem C16_text_style w path ft st ups fl downs :
  is_text_target ft = false -> printed doc w path ft st ups fl downs ->
  exists es, layout w (doc_shape r st) = Some es /\ all_lines ups fl downs = lines_of es /\
    forall a j t b, es = a ++ EText j t :: b ->
    exists fs x o n, reach r fs x o n /\ path_of fs = open_path a /\
      (n = Literal (tx_str t) \/ n = Text /\ exists i, x = RText i (tx_str t)) /\
      text_seg t = Segment (tx_str t) (str_width (tx_str t)) (style_from (root_style r st) fs).
Proof.
  intros Hft Hp. destruct (C01_printed_has_layout Hrep Hv Hft Hp) as (es & Hes & E). exists es. split; auto. split; auto.
  intros a j t b Ees. destruct (@layout_origins _ _ r st _ _ _ _ _ Hes Ees) as (fs & x & o & H1 & H2 & H3 & H4).
  unfold text_seg. rewrite H2, H3. destruct H4 as [(_ & H4)|(_ & H4 & H5)]; eauto 10.
Qed.

(** C16.  Every segment printed (texts and indentation) is one of these. *)
Theorem C16_every_segment w path ft st ups fl downs :
  is_text_target ft = false -> printed doc w path ft st ups fl downs ->
  forall l s, In l (all_lines ups fl downs) -> In s l ->
  exists fs x o n, reach r fs x o n /\
    ((n = Literal (seg_str s) /\ s = Segment (seg_str s) (str_width (seg_str s)) (style_from (root_style r st) fs)) \/
     (n = Text /\ (exists i, x = RText i (seg_str s)) /\ s = Segment (seg_str s) (str_width (seg_str s)) (style_from (root_style r st) fs)) \/
     (n = Newline /\ In s (indents_from (root_style r st) fs))).
Proof.
  intros Hft Hp l s Hl Hs. destruct (C01_printed_has_layout Hrep Hv Hft Hp) as (es & Hes & E). rewrite E in Hl.
  destruct (lines_segments _ _ _ _ Hl Hs) as [[]|[(a & j & t & b & Ees & ->)|(a & ind & b & Ees & Hi)]].
  - destruct (@layout_origins _ _ r st _ _ _ _ _ Hes Ees) as (fs & x & o & H1 & H2 & H3 & H4).
    exists fs, x, o. unfold text_seg. rewrite H2, H3. simpl. destruct H4 as [(_ & H4)|(_ & H4 & H5)]; eauto 10.
  - destruct (@layout_origins _ _ r st _ _ _ _ _ Hes Ees) as (fs & x & o & H1 & H2 & H3).
    exists fs, x, o. rewrite H2 in Hi. eauto 10.
Qed.

(** C25.  Recorded widths. *)
Theorem C25_segment_widths w path ft st ups fl downs :
  is_text_target ft = false -> printed doc w path ft st ups fl downs ->
  forall l s, In l (all_lines ups fl downs) -> In s l -> seg_width s = (usize_width (seg_str s) mod 65536)%N.
Proof.
  intros Hft Hp l s Hl Hs. destruct (C16_every_segment Hft Hp _ _ Hl Hs) as (fs & x & o & n & _ & [(_ & ->)|[(_ & _ & ->)|(_ & H)]]); auto.
  eapply indents_width; eauto.
Qed.

Theorem C25_line_width (l : line) : (exact_width l < U16)%N -> line_width l = Ok (exact_width l).
Proof. intros H. unfold line_width, sum16. rewrite sum16_exact; auto. Qed.

Theorem C25_focused_widths (fl : focused_line) : (exact_width (left_segments fl ++ right_segments fl) < U16)%N ->
  left_width fl = Ok (exact_width (left_segments fl)) /\ right_width fl = Ok (exact_width (right_segments fl)) /\
  focused_width fl = Ok (exact_width (left_segments fl ++ right_segments fl)).
Proof.
  intros H. assert (E : (exact_width (left_segments fl ++ right_segments fl) = exact_width (left_segments fl) + exact_width (right_segments fl))%N) by apply sumw_app.
  unfold left_width, right_width, focused_width, sum16. split; [|split]; rewrite sum16_exact; auto.
  - change (0 + exact_width (left_segments fl) < U16)%N. lia.
  - change (0 + exact_width (right_segments fl) < U16)%N. lia.
Qed.

(** ** C18: Flat *)

(** C18.  The tree of [Flat n] is that of [n] with every choice, also in the
    children displayed by [n], replaced by its first option. *)
Theorem C18_flat_takes_first_options x n c :
  elab_note x (kids_of x) (Flat n) None c = drop_choices (elab_note x (kids_of x) n None c).
Proof. cbn [elab_note]. apply note_flat; [|exact I]. intros k _. apply elab_flat. Qed.

(** C18.  A document that is all inside a Flat is printed the same at every
    width. *)
Theorem C18_flat_ignores_width n w w' st fl downs :
  i_note (r_info r) = Flat n ->
  printed doc w [] FStart st [] fl downs ->
  exists fl' downs', printed doc w' [] FStart st [] fl' downs' /\ all_lines [] fl' downs' = all_lines [] fl downs.
Proof.
  intros Hn Hp. destruct (@C01_printed_has_layout _ _ _ r doc Hrep Hv w st [] FStart [] fl downs eq_refl Hp) as (es & Hes & E).
  assert (Hes' : layout w' (doc_shape r st) = Some es).
  { rewrite <- Hes. unfold layout, doc_shape. rewrite elab_eq. rewrite Hn, C18_flat_takes_first_options.
    f_equal. apply rend_flat. }
  destruct (C01_layout_is_printed Hrep Hv _ _ Hes') as (fl' & downs' & Hp' & E').
  exists fl', downs'. split; auto. congruence.
Qed.

(** C18.  Such a document is printed as the document in which every choice, in
    every node, is replaced by its first option. *)
Theorem C18_flat_document n w st fl downs (r' : rdoc) (doc' : D) :
  i_note (r_info r) = Flat n -> r' = first_options r -> rep r' doc' -> valid_doc r' ->
  printed doc w [] FStart st [] fl downs ->
  exists fl' downs', printed doc' w [] FStart st [] fl' downs' /\ all_lines [] fl' downs' = all_lines [] fl downs.
Proof.
  intros Hn -> Hrep' Hv' Hp. destruct (@C01_printed_has_layout _ _ _ r doc Hrep Hv w st [] FStart [] fl downs eq_refl Hp) as (es & Hes & E).
  assert (Hes' : layout w (doc_shape (first_options r) st) = Some es).
  { rewrite <- Hes. unfold layout, doc_shape. rewrite elab_first, fo_info. simpl. f_equal.
    assert (Er : elab r (root_ctx r st) = drop_choices (elab r (root_ctx r st))).
    { rewrite elab_eq, Hn, C18_flat_takes_first_options.
      generalize (elab_note r (kids_of r) n None (root_ctx r st)). induction s; simpl; congruence. }
    unfold root_ctx in *. rewrite fo_info. simpl. rewrite <- Er. reflexivity. }
  destruct (C01_layout_is_printed Hrep' Hv' _ _ Hes') as (fl' & downs' & Hp' & E').
  exists fl', downs'. split; auto. congruence.
Qed.

(** C27.  A document that fits on one line, if it may break only at choices
    whose second options start narrower. *)
Theorem C27_one_line w st :
  matched r -> (w < U16)%N -> narrowing (snd (doc_shape r st)) ->
  ~ In INl (firsts (snd (doc_shape r st))) ->
  (total_width (firsts (snd (doc_shape r st))) <= w)%N ->
  text_after false (firsts (snd (doc_shape r st))) = false ->
  exists fl, printed doc w [] FStart st [] fl [] /\
    all_lines [] fl [] = lines_of (first_events (i_id (r_info r)) (snd (doc_shape r st))).
Proof.
  intros Hm Hw Hnw Hnl Htw Hta.
  assert (Hn : has_nl (firsts (snd (doc_shape r st))) = false).
  { apply not_true_iff_false. intros E. apply existsb_exists in E as ([] & H1 & H2); try discriminate. auto. }
  destruct (@one_line _ w (snd (doc_shape r st)) (i_id (r_info r)) [] [] 0%N false) as (t & E & L); auto.
  { apply matched_no_fail; auto. }
  { apply shorter_refl. reflexivity. }
  { simpl in *. lia. }
  { rewrite app_nil_r. exact Hta. }
  assert (Hl : lays_doc true w (doc_shape r st) t) by (eexists _, _; split; [reflexivity|exact L]).
  assert (Hone : exists l, lines_of (events t) = [l]).
  { rewrite E. generalize (i_id (r_info r)). clear -Hn. unfold lines_of. generalize (@nil segment).
    revert Hn. generalize (snd (doc_shape r st)). intros s Hn cur j. rewrite C15_first_line_not_indented; eauto.
    revert j. induction s as [f| | |ind|t|a IHa b IHb|a IHa b IHb|n i s IH|]; intros j ind0; simpl in *; try (intuition discriminate).
    - rewrite has_nl_app in Hn. apply orb_false_iff in Hn as [H1 H2]. intros H. apply in_app_or in H as [H|H]; [apply (IHa H1 j ind0 H)|apply (IHb H2 j ind0 H)].
    - apply IHa. auto.
    - destruct i as [j'|]; simpl; auto. intros [H|H]; [discriminate|]. apply in_app_or in H as [H|[H|[]]]; [apply (IH Hn j' ind0 H)|discriminate]. }
  destruct Hone as (l & Hone).
  assert (Hnarrow : narrow_lines (lines_of (events t))).
  { rewrite Hone. constructor; auto. unfold lines_of in Hone. apply first_width in Hone. change (exact_width l) with (sumw l). rewrite Hone.
    rewrite E. change (sumw []) with 0%N. rewrite first_items by (apply matched_no_fail; auto). rewrite first_line_id by auto. lia. }
  destruct (C12_rule_is_printed Hm Hl Hnarrow) as (fl & downs & Hp & El).
  rewrite E in *. rewrite Hone in El. unfold all_lines in El. simpl in El. injection El as El ->.
  exists fl. split; auto. rewrite Hone. unfold all_lines. simpl. rewrite El. reflexivity.
Qed.

End Layout.
