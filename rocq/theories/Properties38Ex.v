(** Concrete cases for C71. *)
From Verif Require Export Properties38 Properties35Ex.
From Coq Require Import String.

Set Implicit Arguments.

#[local] Existing Instance debug_env.

Notation at_ d w path ft p := (focus_at (pd := spd) d w None path ft p).

(** The document "<kiwi>; <kiwi>", whose child 0 is displayed twice. *)
Example twice_top_start : at_ twice 40 [] FStart (0, codes ""). Proof. spot_run. Qed.
Example twice_top_end : at_ twice 40 [] FEnd (0, codes "<kiwi>; <kiwi>"). Proof. spot_run. Qed.
Example twice_child_start : at_ twice 40 [0] FStart (0, codes ""). Proof. spot_run. Qed.
Example twice_child_mark : at_ twice 40 [0] FMark (0, codes "<"). Proof. spot_run. Qed.
Example twice_child_end : at_ twice 40 [0] FEnd (0, codes "<kiwi>"). Proof. spot_run. Qed.
Example twice_child_one : at_ twice 40 [0] (FText 1) (0, codes "<k"). Proof. spot_run. Qed.
Example twice_child_two : at_ twice 40 [0] (FText 2) (0, codes "<ki"). Proof. spot_run. Qed.
Example twice_word_start : at_ twice 40 [0; 0] FStart (0, codes "<"). Proof. spot_run. Qed.
Example twice_word_end : at_ twice 40 [0; 0] FEnd (0, codes "<kiwi"). Proof. spot_run. Qed.

Example C71_nested_case : not_after (0, codes "") (0, codes "<") /\ not_after (0, codes "<kiwi") (0, codes "<kiwi>").
Proof.
  destruct (C71_nested twice_rep twice_valid twice_unique twice_layout [0] twice_child_start twice_child_end twice_word_start twice_word_end) as (H1 & _ & H2).
  auto.
Qed.
Example C71_mark_after_start_case : not_after (0, codes "") (0, codes "<").
Proof. exact (C71_mark_after_start twice_rep twice_valid twice_unique twice_layout twice_child_start twice_child_mark). Qed.
Example C71_mark_before_end_case : not_after (0, codes "<") (0, codes "<kiwi>").
Proof.
  refine (C71_mark_before_end twice_rep twice_valid twice_unique twice_layout (firstn 1 left_during) 1 (skipn 2 left_during) left_first _ _ twice_child_mark twice_child_end); reflexivity.
Qed.
Example C71_mark_apart_case : not_after (0, codes "<") (0, codes "<") \/ not_after (0, codes "<kiwi") (0, codes "<").
Proof. exact (C71_mark_apart twice_rep twice_valid twice_unique twice_layout 0 twice_child_mark twice_word_start twice_word_end). Qed.
Example C71_text_after_start_case : not_after (0, codes "") (0, codes "<k").
Proof. exact (C71_text_after_start twice_rep twice_valid twice_unique twice_layout twice_splittable twice_child_start twice_child_one). Qed.
Example C71_text_before_end_case : not_after (0, codes "<k") (0, codes "<kiwi>").
Proof.
  refine (C71_text_before_end twice_rep twice_valid twice_unique twice_layout 2 (Textual (codes "kiwi") 4 [100; 101; 102; 7] true) twice_splittable left_first _ eq_refl twice_child_one twice_child_end).
  simpl. auto 10.
Qed.
Example C71_text_order_case : not_after (0, codes "<k") (0, codes "<ki").
Proof. refine (C71_text_order twice_rep twice_valid twice_unique twice_layout twice_splittable _ twice_child_one twice_child_two). lia. Qed.

(** The children are displayed in the order 1, 0, 1. *)
Definition mixed : sdoc :=
  Node 0 (Concat (Child 1) (Concat (lit ",") (Concat (Child 0) (Concat (lit ",") (Child 1))))) [word 1 "fig"; word 2 "pear"].
Example mixed_rep : rep (s_tree mixed) (mixed : D). Proof. exact (s_rep mixed). Qed.
Example mixed_valid : valid_doc (s_tree mixed). Proof. apply s_valid_doc. vm_compute. reflexivity. Qed.
Example mixed_unique : unique_ids (id_at (s_tree mixed)).
Proof. apply ids_unique. vm_compute. repeat (constructor; [simpl; intuition discriminate|]). constructor. Qed.
Example mixed_layout : layout 40 (doc_shape (s_tree mixed) None) = Some (laid 40 mixed).
Proof. vm_compute. reflexivity. Qed.
Example mixed_not_linear : ~ linear (laid 40 mixed).
Proof. unfold linear. vm_compute. intros H. inversion H as [|? ? H1 _]. apply H1. simpl. auto. Qed.
Example mixed_fig_start : at_ mixed 40 [0] FStart (0, codes "pear,"). Proof. spot_run. Qed.
Example mixed_fig_end : at_ mixed 40 [0] FEnd (0, codes "pear,fig"). Proof. spot_run. Qed.
Example mixed_pear_start : at_ mixed 40 [1] FStart (0, codes ""). Proof. spot_run. Qed.
Example mixed_pear_end : at_ mixed 40 [1] FEnd (0, codes "pear"). Proof. spot_run. Qed.
Example C71_apart_case : not_after (0, codes "pear,fig") (0, codes "") \/ not_after (0, codes "pear") (0, codes "pear,").
Proof.
  refine (C71_apart mixed_rep mixed_valid mixed_unique mixed_layout _ _ mixed_fig_start mixed_fig_end mixed_pear_start mixed_pear_end); intros x; discriminate.
Qed.

(** The requirement of [C71_mark_before_end] is needed: the first display of child 0
    is "abc", without a mark; the focus goes to the mark in the second one, "z":
<<
abc
longz
>> *)
Definition late_mark : sdoc :=
  Node 0 (Concat (Child 0) (Concat Newline (Concat (lit "long") (Child 0))))
    [Node 1 (Choice (lit "abc") (Concat FocusMark (lit "z"))) []].
Example late_end : at_ late_mark 5 [0] FEnd (0, codes "abc"). Proof. spot_run. Qed.
Example late_mark_at : at_ late_mark 5 [0] FMark (1, codes "long"). Proof. spot_run. Qed.
Example C71_needs_mark : ~ not_after (1, codes "long") (0, codes "abc").
Proof. intros [H|[H _]]; cbn [fst] in H; lia. Qed.
