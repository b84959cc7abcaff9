(** C79: how many lines there are. *)
From Verif Require Export Properties52 Properties51 PStack.
From Coq Require Import Lia.

Set Implicit Arguments.

Section Count.
Context {pd : PrettyDoc} {env : Env} {ideq : IdEq pd}.

Lemma nl_sum (a b : list event) : nl (a ++ b) = nl a + nl b.
Proof. induction a as [|[] a IH]; cbn; auto; lia. Qed.

Lemma rend_free w s : forall j k p es p', rend w s j k p = Some (es, p') -> newline_free s -> nl es = 0.
Proof.
  induction s as [f| | |ind|t|a IHa b IHb|a IHa b IHb|n i s IH|]; cbn [rend newline_free]; intros j k p es p' H Hn; try discriminate.
  - injection H as <- _. reflexivity.
  - injection H as <- _. reflexivity.
  - contradiction.
  - destruct (text_pos p t); [|discriminate]. injection H as <- _. reflexivity.
  - destruct (rend w a j (fits_s b k) p) as [[e1 p1]|] eqn:E1; [|discriminate]. cbn [obind] in H.
    destruct (rend w b j k p1) as [[e2 p2]|] eqn:E2; [|discriminate]. injection H as <- _.
    rewrite nl_sum, (IHa _ _ _ _ _ E1), (IHb _ _ _ _ _ E2); tauto.
  - destruct (head_fails a); [discriminate|]. destruct (picks_first w a k p) as [[]|]; cbn [obind] in H; try discriminate.
    + eapply IHa; [exact H|tauto].
    + eapply IHb; [exact H|tauto].
  - destruct i as [j'|f]; [|discriminate]. destruct (rend w s j' k p) as [[e1 p1]|] eqn:E; [|discriminate]. injection H as <- _.
    change (nl (EEnter j n :: e1 ++ [EExit j n])) with (nl (e1 ++ [EExit j n])). rewrite nl_sum, (IH _ _ _ _ _ E Hn). reflexivity.
  - injection H as <- _. reflexivity.
Qed.

Lemma rend_count w s : forall j k p es p', rend w s j k p = Some (es, p') -> single_line_firsts s ->
  nl es <= nl (second_events j s).
Proof.
  induction s as [f| | |ind|t|a IHa b IHb|a IHa b IHb|n i s IH|]; cbn [rend single_line_firsts second_events]; intros j k p es p' H Hs; try discriminate.
  - injection H as <- _. reflexivity.
  - injection H as <- _. reflexivity.
  - destruct (indent_pos ind); [|discriminate]. injection H as <- _. reflexivity.
  - destruct (text_pos p t); [|discriminate]. injection H as <- _. reflexivity.
  - destruct (rend w a j (fits_s b k) p) as [[e1 p1]|] eqn:E1; [|discriminate]. cbn [obind] in H.
    destruct (rend w b j k p1) as [[e2 p2]|] eqn:E2; [|discriminate]. injection H as <- _.
    destruct Hs as [Ha Hb]. specialize (IHa _ _ _ _ _ E1 Ha). specialize (IHb _ _ _ _ _ E2 Hb). rewrite !nl_sum. lia.
  - destruct Hs as [Ha Hb]. destruct (head_fails a); [discriminate|]. destruct (picks_first w a k p) as [[]|]; cbn [obind] in H; try discriminate.
    + rewrite (rend_free _ _ _ _ _ H Ha). lia.
    + eapply IHb; [exact H|exact Hb].
  - destruct i as [j'|f]; [|discriminate]. destruct (rend w s j' k p) as [[e1 p1]|] eqn:E; [|discriminate]. injection H as <- _.
    cbn [nl]. specialize (IH _ _ _ _ _ E Hs).
    change (nl (EEnter j n :: e1 ++ [EExit j n])) with (nl (e1 ++ [EExit j n])).
    change (nl (EEnter j n :: second_events j' s ++ [EExit j n])) with (nl (second_events j' s ++ [EExit j n])).
    rewrite !nl_sum. lia.
  - injection H as <- _. reflexivity.
Qed.

Variables (r : rdoc) (doc : D).
Hypothesis Hrep : rep r doc.
Hypothesis Hv : valid_doc r.

(** C79.  If first options are single lines (outside of Flats), then there are
    never more lines than when every choice takes its second option: at any
    width, and with the focus anywhere but in a text. *)
Theorem C79_at_most w st path ft ups fl downs :
  single_line_firsts (snd (doc_shape r st)) ->
  is_text_target ft = false -> printed doc w path ft st ups fl downs ->
  length (all_lines ups fl downs) <= length (lines_of (second_events (i_id (r_info r)) (snd (doc_shape r st)))).
Proof.
  intros Hs Hft Hp. destruct (C01_printed_has_layout Hrep Hv Hft Hp) as (es & Hes & ->).
  unfold lines_of. rewrite (nl_lines es), nl_lines. apply le_n_S. cbn [doc_shape layout snd] in *.
  destruct (rend w _ _ look_end pos0) as [[e p]|] eqn:R; [|discriminate]. injection Hes as <-.
  eapply rend_count; eauto.
Qed.

(** C79.  Nor with the focus in a text. *)
Theorem C79_text_focus w st path n ups fl downs :
  unique_ids (id_at r) -> splittable r -> single_line_firsts (snd (doc_shape r st)) ->
  printed doc w path (FText n) st ups fl downs ->
  length (all_lines ups fl downs) <= length (lines_of (second_events (i_id (r_info r)) (snd (doc_shape r st)))).
Proof.
  intros Hu Hsplit Hs Hp. destruct (from_start Hrep Hv Hu Hsplit Hp) as (fl0 & downs0 & Hp0 & Hc).
  apply cut_widths in Hc. apply (f_equal (@length N)) in Hc. rewrite !map_length in Hc. eapply Nat.le_trans; [apply Nat.eq_le_incl; exact Hc|].
  exact (C79_at_most Hs (eq_refl : is_text_target FStart = false) Hp0).
Qed.
End Count.

#[local] Existing Instance tree_doc.
(** C79.  So a JSON document never has more lines than when all its arrays,
    objects and comments are broken up. *)
Theorem C79_json (uw : str -> N) (cf : char -> bool) checks is_white (j : json) (t : json_tree) w st path ft ups fl downs :
  made checks is_white j t -> is_document j ->
  is_text_target ft = false -> @printed jpd (Build_Env uw cf false) t w path ft st ups fl downs ->
  length (all_lines ups fl downs) <=
  length (lines_of (@second_events jpd (i_id (r_info (tree_rdoc t))) (snd (@doc_shape jpd (Build_Env uw cf false) (tree_rdoc t) st)))).
Proof.
  intros Hmade Hdoc Hft Hp. destruct (made_jtree Hmade) as [Hj _].
  exact (C79_at_most (C46_tree_is_well_behaved t) (@jtree_valid (Build_Env uw cf false) is_white j t Hj) (C64_tidy _ (json_tidy Hdoc Hj)) Hft Hp).
Qed.

Print Assumptions C79_at_most.
Print Assumptions C79_text_focus.
Print Assumptions C79_json.
