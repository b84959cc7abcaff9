(** Concrete cases for the theorems of Properties5. *)
From Verif Require Export Properties5 Properties4Ex.
From Coq Require Import String.
#[local] Existing Instance debug_env.

Set Implicit Arguments.

Lemma rewritten_refl {pd : PrettyDoc} law (x : rdoc) : rewritten law x x.
Proof.
  induction x as [i s|i ks IH] using rdoc_ind'; constructor; try (repeat split; auto using rw_refl; fail).
  induction ks as [|k ks IHk]; constructor; [apply IH; simpl; auto|]. apply IHk. intros k' Hk. apply IH. simpl. auto.
Qed.
Lemma rewritten_all_refl {pd : PrettyDoc} law (ks : list rdoc) : rewritten_all law ks ks.
Proof. induction ks; constructor; auto using rewritten_refl. Qed.

(** A comma-separated list.  A comma is put only before children of id at least
    3 (a condition on the right child). *)
Definition sep_note : notation nat nat :=
  Concat Left (Concat (Check 3 RightChild (Concat (lit ",") (Choice (lit " ") Newline)) (lit ";")) Right).
Definition commas : notation nat nat := Fold (Child 0) sep_note.

(** The same for three children, by hand. *)
Definition sep (i : Z) (left : notation nat nat) : notation nat nat :=
  Concat left (Concat (Check 3 (CPChild i) (Concat (lit ",") (Choice (lit " ") Newline)) (lit ";")) (Child i)).
Definition commas3 : notation nat nat := sep 2 (sep 1 (Child 0)).

Definition words : list sdoc := [word 1 "one"; word 2 "two"; word 3 "three"].
Definition fold_doc : sdoc := Node 0 (Concat (lit "<") (Concat commas (lit ">"))) words.
Definition unfold_doc : sdoc := Node 0 (Concat (lit "<") (Concat commas3 (lit ">"))) words.

Example C17_case_rewritten : rewritten fold_law (s_tree fold_doc) (s_tree unfold_doc).
Proof.
  apply RW_branch.
  - repeat split; auto; cbn [i_note s_info s_note]. apply (@rw_concat spd); [apply rw_refl|]. apply (@rw_concat spd); [|apply rw_refl]. apply rw_law.
    refine (@law_fold spd _ (s_info fold_doc) (map s_tree words) (Child 0) sep_note _ _ _); [reflexivity|exact I|repeat split].
  - apply rewritten_all_refl.
Qed.

Example C17_case : printed_as 8 None (fold_doc : D) (unfold_doc : D).
Proof.
  apply (@C17_fold_is_left_fold spd _ _ (s_tree fold_doc) (s_tree unfold_doc) fold_doc unfold_doc).
  - apply s_rep.
  - apply s_valid_doc. vm_compute. reflexivity.
  - apply s_rep.
  - apply s_valid_doc. vm_compute. reflexivity.
  - exact C17_case_rewritten.
Qed.

Example C17_case_lines :
  option_map (fun es => map segs_to_string (lines_of es)) (layout 8 (doc_shape (s_tree fold_doc) None)) =
  Some (map codes ["<one;two,"%string; "three>"%string]).
Proof. vm_compute. reflexivity. Qed.

(** C19: a Count, a negative Child, and a Check on a child. *)
Definition select_doc : sdoc :=
  Node 0 (Count Empty (Child 0) (Concat (Check 3 (CPChild (-1)) (lit "!") (lit "?")) (Concat (Child (-1)) (Child 0)))) words.
Definition selected_doc : sdoc := Node 0 (Concat (lit "!") (Concat (Child 2) (Child 0))) words.

Example C19_case : printed_as 8 None (select_doc : D) (selected_doc : D).
Proof.
  apply (@C19_selection spd _ _ (s_tree select_doc) (s_tree selected_doc) select_doc selected_doc).
  - apply s_rep.
  - apply s_valid_doc. vm_compute. reflexivity.
  - apply s_rep.
  - apply s_valid_doc. vm_compute. reflexivity.
  - apply RW_branch; [|apply rewritten_all_refl]. repeat split; auto; cbn [i_note s_info s_note].
    eapply rw_trans; [apply rw_law; eapply (@law_count2 spd); reflexivity|].
    apply (@rw_concat spd).
    + apply rw_law. eapply (@law_check_true spd); reflexivity.
    + apply (@rw_concat spd); [|apply rw_refl]. apply rw_law.
      apply (@law_child_neg spd (RBranch _ (map s_tree words)) (-1)%Z); vm_compute; congruence.
Qed.

(** A child that does not exist. *)
Definition bad_doc : sdoc := Node 0 (Concat (lit "<") (Child (-4))) words.
Example C19_mismatch_case : exists f, print_fails (bad_doc : D) 8 [] FStart None f /\
  ((exists fs x o n e, reach (s_tree bad_doc) fs x o n /\ mismatch x n = Some e /\ f = FErr e) \/
   f = FErr TextAfterEndOfLine \/ (f = FPanic POverflow /\ ovf = true)).
Proof.
  apply (@C19_mismatch_fails spd _ _ (s_tree bad_doc) bad_doc) with (fs := []) (x := s_tree bad_doc) (o := None) (n := Child (-4)) (e := ChildIndexOutOfBounds (-4) 3).
  - apply s_rep.
  - apply s_valid_doc. vm_compute. reflexivity.
  - apply (@s_concat2 spd _ _ _ _ (lit "<")). apply s_root.
  - reflexivity.
Qed.

Example C19_mismatch_run : pretty_print 1000 (bad_doc : D) 8 [] FStart None = Err (ChildIndexOutOfBounds (-4) 3).
Proof. vm_compute. reflexivity. Qed.

(** C26: several laws at once. *)
Definition alg1 : notation nat nat := Concat (lit "a") (Concat (Choice (Flat (Choice (lit " ") Newline)) Newline) (Concat (Child 0) Empty)).
Definition alg2 : notation nat nat := Concat (lit "a") (Choice (Concat (lit " ") (Child 0)) (Concat Newline (Child 0))).
Definition alg_doc (n : notation nat nat) : sdoc := Node 0 n [word 1 "one"].

Example C26_case_rewritten : rewritten any_law (s_tree (alg_doc alg1)) (s_tree (alg_doc alg2)).
Proof.
  apply RW_branch; [|apply rewritten_all_refl]. repeat split; auto; cbn [i_note s_info s_note].
  apply (@rw_concat spd); [apply rw_refl|].
  eapply rw_trans; [apply rw_law, any_algebra, (@law_choice_concat spd)|].
  assert (H0 : forall x : rdoc, rw any_law x (Concat (Child 0) Empty) (Child 0)) by (intros; apply rw_law, any_algebra, (@law_empty_r spd)).
  apply (@rw_choice spd); apply (@rw_concat spd); auto using rw_refl.
  eapply rw_trans; [apply rw_law, any_algebra, (@law_flat_choice spd)|]. apply rw_law, any_algebra, (@law_flat_literal spd).
Qed.

Example C26_case w : printed_as w None (alg_doc alg1 : D) (alg_doc alg2 : D).
Proof.
  apply (@C26_notation_algebra spd _ _ (s_tree (alg_doc alg1)) (s_tree (alg_doc alg2)) (alg_doc alg1) (alg_doc alg2)).
  - apply s_rep.
  - apply s_valid_doc. vm_compute. reflexivity.
  - apply s_rep.
  - apply s_valid_doc. vm_compute. reflexivity.
  - apply doc_matched_ok. vm_compute. reflexivity.
  - exact C26_case_rewritten.
Qed.

(** Without [matched] the laws do not hold: [Choice (Child 9 + Empty) x], where
    there is no child 9, displays [x] on a line that is already too long, while
    [Choice (Child 9) x] fails. *)
Definition c26_doc1 : sdoc := alg_doc (Concat (lit "abc") (Choice (Concat (Child 9) Empty) (lit "x"))).
Definition c26_doc2 : sdoc := alg_doc (Concat (lit "abc") (Choice (Child 9) (lit "x"))).
Example C26_unmatched_differs :
  rewritten algebra_law (s_tree c26_doc1) (s_tree c26_doc2) /\
  pretty_print_to_string 1000 (c26_doc1 : D) 2 = Ok (codes "abcx") /\
  pretty_print_to_string 1000 (c26_doc2 : D) 2 = Err (ChildIndexOutOfBounds 9 1).
Proof.
  split; [|vm_compute; split; reflexivity].
  apply RW_branch; [|apply rewritten_all_refl]. repeat split; auto; cbn [i_note s_info s_note].
  apply (@rw_concat spd); [apply rw_refl|]. apply (@rw_choice spd); [|apply rw_refl]. apply rw_law, (@law_empty_r spd).
Qed.
