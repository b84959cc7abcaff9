(** Concrete cases for C21-C23. *)
From Verif Require Export Properties7 Properties6Ex.
From Coq Require Import String.

Set Implicit Arguments.

(** C21: the list notation is accepted, so by the theorem it has no flaw; its
    Left occurs in Fold.join. *)
Example C21_case : validate list_note = Ok tt.
Proof. vm_compute. reflexivity. Qed.
Example C21_case_left : exists B, part_of list_note (Some CMany) (Some InFoldJoin) B Left.
Proof.
  eexists. unfold part_of, list_note. eapply oc_many, oc_concat_r, oc_concat_r, oc_concat_l, oc_choice_l, oc_flat, oc_join, oc_concat_l, oc_here.
Qed.

(** C21: every kind of flaw, reported. *)
Example C21_run :
  map (fun n : notation nat nat => validate n)
    [Left; Concat (lit "a") Right; Check 0 LeftChild Empty Empty; Check 0 RightChild Empty Empty;
     Fold Empty (Fold Left Right); Count Empty Empty (Fold (Count Empty Empty Empty) Left);
     Count (Child 0) Empty Empty; Count Empty (Child 1) Empty; Count Empty (Child (-1)) Empty;
     Count (Check 0 (CPChild 0) Empty Empty) Empty Empty; Count Empty (Check 0 (CPChild 2) Empty Empty) Empty;
     Count Text Empty Empty; Fold Text Left; Concat EndOfLine (Choice Newline Text);
     Concat (Choice EndOfLine (lit "a")) (Concat (Style 1 Empty) (lit "b"));
     Concat EndOfLine (Concat (Child 0) (lit "b"));
     Concat FocusMark FocusMark; Concat (Choice FocusMark Empty) FocusMark; Concat FocusMark (Concat (Fold Empty Left) FocusMark)] =
  [Err LeftOutsideJoin; Err RightOutsideJoin; Err CheckPosLeftOutsideJoin; Err CheckPosRightOutsideJoin;
   Err NestedFold; Err NestedCount; Err CountZeroChild; Err (CountOneChildIndex 1); Ok tt;
   Err CountZeroCheckPosChild; Err (CountOneCheckPosChildIndex 2); Err TextInsideCount; Err TextInsideFold; Err TextAfterEol;
   Err TextAfterEol; Ok tt; Err MultipleFocusMarks; Ok tt; Ok tt].
Proof. vm_compute. reflexivity. Qed.

(** C23: a certain duplicate. *)
Definition dup_note : notation nat nat := Concat (Choice FocusMark (Concat (lit "x") FocusMark)) (Concat (Child 0) FocusMark).
Example C23_case : validate dup_note = Err MultipleFocusMarks.
Proof. vm_compute. reflexivity. Qed.
Example C23_case_certain : exists c f B, part_of dup_note c f B FocusMark /\ (exists l, B l) /\ forall l, B l -> In DMark l.
Proof. apply C23_duplicate_mark_is_certain. exact C23_case. Qed.

(** C22: an identifier with an optional end-of-line comment marker. *)
Definition id_note : notation nat nat :=
  Concat (Choice (Concat Text (Choice EndOfLine Empty)) (Concat (lit "..") Newline)) (Concat (Check 1 Here EndOfLine Empty) (Concat Newline (lit "end"))).
Definition id_doc : sdoc := Leaf 3 id_note (codes "identifier").

Example C22_case : exists fl downs, @printed spd env_release id_doc 5 [] FStart None [] fl downs.
Proof.
  apply (@C22_childless_is_printed spd spd_ideq len_width (fun _ => false) (s_tree id_doc) id_doc (s_rep id_doc)).
  - apply s_valid_doc. vm_compute. reflexivity.
  - reflexivity.
  - apply doc_matched_ok. vm_compute. reflexivity.
Qed.
