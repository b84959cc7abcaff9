(** C47 for JSON documents. *)
From Verif Require Export Properties31b Properties14 Properties13.
From Coq Require Import List.
Import ListNotations.

Set Implicit Arguments.
#[local] Existing Instance tree_doc.

Section Json.
Variables (uw : str -> N) (cf : char -> bool).
Notation release := (Build_Env uw cf false).
Variables (checks : bool) (is_white : char -> bool).
Variables (j : json) (t : json_tree).
Hypothesis Hmade : made checks is_white j t.
Hypothesis Hdoc : is_document j.

(** C47.  If no line of a JSON document is wider than the width when all its
    arrays, objects and comments are broken up, then no printed line is wider
    than the width, wherever the focus is. *)
Theorem C47_json w st path ft ups fl downs :
  (w < U16)%N ->
  Forall (fun l => exact_width l <= w)%N (lines_of (@second_events jpd (i_id (r_info (tree_rdoc t))) (snd (@doc_shape jpd release (tree_rdoc t) st)))) ->
  is_text_target ft = false -> @printed jpd release t w path ft st ups fl downs ->
  Forall (fun l => exact_width l <= w)%N (all_lines ups fl downs).
Proof.
  intros Hw HF Hft Hp. destruct (made_jtree Hmade) as [Hj _].
  assert (Hm : matched (tree_rdoc t)) by (apply doc_matched_ok, (json_doc_matched Hj)).
  exact (C47_no_line_too_wide (C46_tree_is_well_behaved t) (@jtree_valid release is_white j t Hj) Hm Hw (C64_tidy _ (json_tidy Hdoc Hj)) HF Hft Hp).
Qed.

(** C47.  And if some printed line is wider than the width, then one of those
    lines is. *)
Theorem C47_json_too_wide w st path ft ups fl downs l :
  (w < U16)%N -> is_text_target ft = false -> @printed jpd release t w path ft st ups fl downs ->
  In l (all_lines ups fl downs) -> (w < exact_width l)%N ->
  exists l', In l' (lines_of (@second_events jpd (i_id (r_info (tree_rdoc t))) (snd (@doc_shape jpd release (tree_rdoc t) st)))) /\
    (w < exact_width l')%N.
Proof.
  intros Hw Hft Hp Hl Hwide.
  destruct (forallb (fun l => exact_width l <=? w)%N (lines_of (@second_events jpd (i_id (r_info (tree_rdoc t))) (snd (@doc_shape jpd release (tree_rdoc t) st))))) eqn:E.
  - rewrite forallb_forall in E. assert (F : Forall (fun l => exact_width l <= w)%N (all_lines ups fl downs)).
    { eapply C47_json; eauto. apply Forall_forall. intros x Hx. apply N.leb_le. apply E. exact Hx. }
    rewrite Forall_forall in F. specialize (F _ Hl). lia.
  - apply Bool.not_true_iff_false in E. 
    destruct (existsb (fun l => w <? exact_width l)%N (lines_of (@second_events jpd (i_id (r_info (tree_rdoc t))) (snd (@doc_shape jpd release (tree_rdoc t) st))))) eqn:X.
    + apply existsb_exists in X as (l' & H1 & H2). exists l'. split; auto. apply N.ltb_lt. exact H2.
    + exfalso. apply E. apply forallb_forall. intros x Hx. apply N.leb_le.
      destruct (N.le_gt_cases (exact_width x) w) as [|G]; [assumption|]. exfalso.
      assert (Y : existsb (fun l => w <? exact_width l)%N (lines_of (@second_events jpd (i_id (r_info (tree_rdoc t))) (snd (@doc_shape jpd release (tree_rdoc t) st)))) = true).
      { apply existsb_exists. exists x. split; auto. apply N.ltb_lt. exact G. }
      rewrite X in Y. discriminate.
Qed.
End Json.

Print Assumptions C47_json.
Print Assumptions C47_json_too_wide.
