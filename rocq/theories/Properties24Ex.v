(** C58: concrete cases. *)
From Verif Require Import Properties24J Examples Properties13Ex.

#[local] Existing Instance spd.
#[local] Instance senv0 : Env := senv false.

(** Nested choices, with [2 ^ n] ways to take them: the bound is quadratic in
    [n]. *)
Fixpoint nested (n : nat) : sdoc :=
  match n with
  | O => Leaf 0 Text [97%N]
  | S n' => Node n (Choice (Concat (Literal [40%N]) (Child 0)) (Concat (Literal [40%N]) (Concat Newline (Child 0)))) [nested n']
  end.

Lemma nested_valid n : valid_doc (s_tree (nested n)).
Proof. induction n as [|n IH]; constructor; auto. intros k [<-|[]]. exact IH. Qed.
Lemma nested_once n : displays_once (s_tree (nested n)).
Proof. induction n as [|n IH]; constructor; [intros [|m]; cbn; lia|]. intros k [<-|[]]. exact IH. Qed.
Lemma nested_parts n : doc_parts (s_tree (nested n)) = 6 * n + 1.
Proof. induction n as [|n IH]; [reflexivity|]. cbn [nested s_tree doc_parts map list_sum fold_right]. rewrite IH. cbn. lia. Qed.

Example C58_nested_choices d n w : to_string_cost n (nested d) w <= 36 * (6 * d + 3) ^ 2.
Proof.
  pose proof (C58_to_string_quadratic (@s_rep (nested d)) (nested_valid d) (nested_once d) n w) as H.
  rewrite nested_parts in H. replace (6 * d + 1 + 2) with (6 * d + 3) in H by lia. exact H.
Qed.

Example nested_cost : to_string_cost 1000 (nested 28) 5 = 488.
Proof. vm_compute. reflexivity. Qed.

(** If a node displays a child twice, the document can be much smaller than what
    is printed: then the parts of the notation tree count. *)
Fixpoint doubled (n : nat) : sdoc :=
  match n with
  | O => Leaf 0 Text [97%N]
  | S n' => Node n (Concat (Child 0) (Child 0)) [doubled n']
  end.
Example C58_needs_once : (36 * (N.of_nat (doc_parts (s_tree (doubled 13))) + 2) ^ 2 <
  N.of_nat (to_string_cost (N.to_nat 50000) (doubled 13) 10))%N.
Proof. vm_compute. reflexivity. Qed.

(** JSON. *)
Example json_cost : tree_size (tree_of case_json) = 12.
Proof. vm_compute. reflexivity. Qed.
Example C58_json_case (env : Env) n w : @to_string_cost jpd env n (tree_of case_json) w <= 36 * (23 * tree_size (tree_of case_json)) ^ 2.
Proof. exact (proj1 (C58_json_quadratic (env := env) case_made) n w). Qed.
