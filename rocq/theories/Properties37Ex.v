(** Concrete cases for C70. *)
From Verif Require Export Properties37 Properties5Ex.
From Coq Require Import String.

Set Implicit Arguments.

#[local] Existing Instance debug_env.

(** Labels and conditions are numbers, shown in decimal. *)
Lemma nat_name n : is_name (show_nat n).
Proof.
  pose proof (numeral_digits (show_N_numeral (N.of_nat n))) as H. unfold is_name, show_nat.
  rewrite forallb_forall in H |- *. intros c Hc. apply H in Hc. unfold is_digit in Hc. unfold name_char. rewrite Hc. reflexivity.
Qed.
Lemma nat_inj n m : show_nat n = show_nat m -> n = m.
Proof.
  intros H. rewrite <- (app_nil_r (show_nat n)), <- (app_nil_r (show_nat m)) in H. apply show_nat_cut in H as [H _]; simpl; auto.
Qed.

Example C70_case_text : show_notation show_nat show_nat
    (Concat (lit "[") (Concat (Choice (Child (-1)) (Indent (codes "  ") (Some 4) (Flat Text))) (Style 7 (Check 3 (CPChild 12) Newline Empty)))) =
  codes "'[' + ($-1 | '  '"%string ++ [8658%N] ++ codes "(Flat(TEXT))) + Style(7, (3@Child(12) ? "%string ++ [8629%N] ++ codes " | "%string ++ [949%N] ++ codes "))"%string.
Proof. vm_compute. reflexivity. Qed.

Example C70_case_determines (n : notation nat nat) : no_quotes n ->
  show_notation show_nat show_nat n = codes "'a' + 'b' + $0" -> regrouped n (Concat (lit "a") (Concat (lit "b") (Child 0))).
Proof.
  intros Hq E. apply (@C70_text_determines nat nat show_nat show_nat nat_name nat_name nat_inj nat_inj); auto.
  simpl. intuition discriminate.
Qed.

(** A document, and the same with [+] grouped the other way. *)
Definition left_doc : sdoc := Node 0 (Concat (Concat (lit "(") (Child 0)) (Concat Newline (Concat (Child 1) (lit ")")))) [word 1 "one"; word 2 "two"].
Definition right_doc : sdoc := Node 0 (Concat (lit "(") (Concat (Concat (Child 0) Newline) (Concat (Child 1) (lit ")")))) [word 1 "one"; word 2 "two"].

Example C70_case_alike : docs_alike (pd := spd) show_nat show_nat (s_tree left_doc) (s_tree right_doc).
Proof.
  assert (Hw : forall i s, docs_alike (pd := spd) show_nat show_nat (s_tree (word i s)) (s_tree (word i s))).
  { intros i s. constructor. repeat split; auto. }
  refine (DA_branch _ (DA_cons (Hw 1 "one"%string) (DA_cons (Hw 2 "two"%string) (DA_nil _ _)))).
  repeat split; auto; simpl; intuition discriminate.
Qed.
Example C70_case_lines : printed_as 20 None (left_doc : D) (right_doc : D).
Proof.
  refine (@C70_same_text_same_lines spd debug_env _ show_nat show_nat nat_name nat_name nat_inj nat_inj _ _ _ _ _ _ (@s_rep left_doc) _ (@s_rep right_doc) _ _ C70_case_alike).
  - apply s_valid_doc. vm_compute. reflexivity.
  - apply s_valid_doc. vm_compute. reflexivity.
  - apply doc_matched_ok. vm_compute. reflexivity.
Qed.

Example C70_case_evaluated : exists c,
  eval (pd := spd) (Delayed (pd := spd) (Child 1) left_doc false [] [] None) = Ok c /\ show_consolidated (pd := spd) show_nat show_nat c = codes "$1".
Proof.
  eexists. split; [vm_compute; reflexivity|].
  refine (@C70_evaluated_same_text spd debug_env show_nat show_nat (Delayed (pd := spd) (Child 1) left_doc false [] [] None) _ _ _ _).
  - simpl. lia.
  - discriminate.
  - vm_compute. reflexivity.
Qed.
