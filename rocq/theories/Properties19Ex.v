(** Concrete cases for C53 and C54. *)
From Verif Require Export Properties20 Properties18Ex.
From Verif Require Import Properties12Ex.
From Coq Require Import String.

Set Implicit Arguments.

(** A list that is either on one line or broken up. *)
Definition note53 : notation nat nat :=
  Choice (Concat (lit "[") (Concat (Flat (Child 0)) (Concat (lit ", ") (Concat (Flat (Child 1)) (lit "]")))))
         (Concat (lit "[") (Concat (Indent (codes "  ") None (Concat Newline (Concat (Child 0) (Concat (lit ",") (Concat Newline (Child 1)))))) (Concat Newline (lit "]")))).
Definition doc53 : sdoc := Node 1 note53 [Leaf 2 Text (codes "abc"); Node 3 note53 [Leaf 4 Text (codes "de"); Leaf 5 Text (codes "f")]].

Lemma obedient53 st : @obedient spd (snd (@doc_shape spd (wide_env true) (s_tree doc53) st)).
Proof.
  apply C53_same_openings. simpl. repeat split; exists [codes "["], []; split; reflexivity.
Qed.

(** At width 13 the outer list is broken up, and its widest line "  [de, f]" is 9
    wide: so it is also printed like this at width 9, with the focus (here at the
    end of "de") in the same place. *)
Example C53_case : exists ups fl downs,
  @printed spd (wide_env true) doc53 13 [1; 0] FEnd None ups fl downs /\
  @printed spd (wide_env true) doc53 9 [1; 0] FEnd None ups fl downs /\
  map exact_width (all_lines ups fl downs) = [1; 6; 9; 1]%N.
Proof.
  assert (Hv : valid_doc (s_tree doc53)) by (apply s_valid_doc; vm_compute; reflexivity).
  assert (Hu : unique_ids (id_at (s_tree doc53))) by (apply ids_unique; vm_compute; repeat constructor; simpl; intuition discriminate).
  destruct (@layout spd (wide_env true) 13 (@doc_shape spd (wide_env true) (s_tree doc53) None)) as [es|] eqn:Hes; [|vm_compute in Hes; discriminate].
  pose proof Hes as Hes'. vm_compute in Hes'. injection Hes' as Ees.
  assert (Hlin : linear es) by (rewrite <- Ees; vm_compute; repeat constructor; simpl; intuition discriminate).
  assert (Hd : displayed es [1; 0]).
  { rewrite <- Ees. unfold displayed. eexists (firstn 10 es), (skipn 10 es). rewrite <- Ees. split; vm_compute; reflexivity. }
  destruct (@C06_displayed_accepted spd (wide_env true) spd_ideq (s_tree doc53) doc53 (s_rep _) Hv Hu 13%N None es Hes Hlin [1; 0] FEnd Hd (or_intror eq_refl))
    as (ups & fl & downs & Hp).
  exists ups, fl, downs. split; [exact Hp|].
  destruct (C01_printed_has_layout (s_rep doc53) Hv (eq_refl : is_text_target FEnd = false) Hp) as (es2 & Hes2 & E).
  rewrite Hes in Hes2. injection Hes2 as <-. split; [|rewrite E, <- Ees; vm_compute; reflexivity].
  eapply (@C53_same_focus spd (wide_env true) spd_ideq (s_tree doc53) doc53 (s_rep _) Hv 13%N 9%N None es); eauto.
  - apply doc_matched_ok. vm_compute. reflexivity.
  - apply obedient53.
  - lia.
  - reflexivity.
  - rewrite <- Ees. vm_compute. repeat constructor; discriminate.
  - discriminate.
Qed.

(** The requirement is needed.  Here the second option of the second choice is
    longer than the first: at width 5 the line "x" is printed, and that is 1 wide;
    but at width 1 the printer expects "long" after "x", so that it breaks the
    line. *)
Definition bad53 : sdoc := Node 1 (Concat (Choice (lit "x") Newline) (Choice (lit "") (lit "long"))) [].
Example C53_needs_requirement :
  valid_doc (s_tree bad53) /\ matched (s_tree bad53) /\
  prints' bad53 5 None [[seg (codes "x") 1 [101]; seg (codes "") 0 [101]]] /\
  prints' bad53 1 None [[]; [seg (codes "") 0 [101]]].
Proof.
  split; [apply s_valid_doc; vm_compute; reflexivity|]. split; [apply doc_matched_ok; vm_compute; reflexivity|].
  split; run.
Qed.

(** C53 for JSON: the document of Properties13Ex at width 28, and at the width of
    its widest line. *)
Example C53_json_case : forall w w' st path ups fl downs, (w' <= w)%N -> (w' < U16)%N ->
  @printed (@tree_doc basic_tree_style) (c_env false) (tree_of case_json) w path FEnd st ups fl downs ->
  Forall (fun l => exact_width l <= w')%N (all_lines ups fl downs) ->
  @printed (@tree_doc basic_tree_style) (c_env false) (tree_of case_json) w' path FEnd st ups fl downs.
Proof.
  intros w w' st path ups fl downs Hw Hw' Hp HF.
  eapply (@C53_json (fun s => N.of_nat (List.length s)) (fun _ => false) true white case_json _ case_made); eauto.
  vm_compute. repeat constructor; simpl; intuition discriminate.
Qed.

(** ** C54 *)

(** A comment after a value; the value and the comment are followed by a line
    break when every choice takes its second option. *)
Definition note54 : notation nat nat :=
  Concat (lit "a") (Concat (lit " // ") (Concat (Child 0) (Concat (Choice (lit " ") Newline) (lit "b")))).
Definition doc54 : sdoc := Node 1 note54 [Leaf 2 (Concat Text EndOfLine) (codes "hi")].

(** Although everything would fit on one line. *)
Example C54_case : exists fl downs, @printed spd (wide_env true) doc54 30 [] FStart None [] fl downs /\
  Forall (fun l => exact_width l <= 30)%N (all_lines [] fl downs).
Proof.
  apply (@C54_always_prints spd (wide_env true) spd_ideq (s_tree doc54) doc54 (s_rep _)).
  - apply s_valid_doc. vm_compute. reflexivity.
  - apply doc_matched_ok. vm_compute. reflexivity.
  - reflexivity.
  - vm_compute. tauto.
  - vm_compute. repeat constructor; discriminate.
  - vm_compute. reflexivity.
Qed.
Example C54_case_lines : prints' doc54 30 None
  [[seg (codes "a") 1 [101]; seg (codes " // ") 4 [101]; seg (codes "hi") 2 [101; 102]]; [seg (codes "b") 1 [101]]].
Proof. run. Qed.

(** The documentation of EndOfLine says "if that's not possible, it will fail".
    It may also fail when it is possible: here the first option has no EndOfLine
    at all, but it is too wide, and the printer does not come back to it when the
    second option turns out to have text after an EndOfLine.  (The choice obeys
    the requirement, and its first option is a single line.) *)
Definition bad54 : sdoc :=
  Node 1 (Choice (lit "long") (Concat Newline (Concat EndOfLine (Child 0)))) [Leaf 2 Text (codes "c")].
Theorem C54_possible_refuted :
  valid_doc (s_tree bad54) /\ matched (s_tree bad54) /\
  (exists l, @displays spd (snd (@doc_shape spd (wide_env true) (s_tree bad54) None)) l /\ text_after false l = false) /\
  obedient (snd (@doc_shape spd (wide_env true) (s_tree bad54) None)) /\
  single_line_firsts (snd (@doc_shape spd (wide_env true) (s_tree bad54) None)) /\
  print_fails (env := wide_env true) bad54 2 [] FStart None (FErr TextAfterEndOfLine).
Proof.
  split; [apply s_valid_doc; vm_compute; reflexivity|]. split; [apply doc_matched_ok; vm_compute; reflexivity|].
  split. { eexists. split; [apply D_first; constructor|]. reflexivity. }
  split. { apply C53_same_openings. simpl. repeat split. exists [], [codes "long"]. split; reflexivity. }
  split; [vm_compute; tauto|].
  right. do 3 eexists. split; [|right].
  - exists 200. intros n Hn. replace n with (200 + (n - 200)) by lia. generalize (n - 200). intros k. vm_compute. reflexivity.
  - exists 200. intros n Hn. replace n with (200 + (n - 200)) by lia. generalize (n - 200). intros k. vm_compute. reflexivity.
Qed.
