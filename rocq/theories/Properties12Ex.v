(** Concrete cases of the theorems of Properties12. *)
From Verif Require Import Properties12 Json.
From Coq Require Import String Permutation.

Set Implicit Arguments.

(** The tree of  ["a", // b, null, // c d]  : two non-comments and two comments,
    created in the order of a Rust program (8 nodes). *)
Definition white (c : char) : bool := N.eqb c 32.
Definition case_program (checks : bool) : res Empty_set (json_tree * N) :=
  ('(a, c) <- json_string checks (chars "a") 0 ;;
   '(b, c) <- json_comment checks white (chars "b") c ;;
   '(n, c) <- json_null checks c ;;
   '(d, c) <- json_comment checks white (chars " c  d") c ;;
   json_array checks [a; b; n; d] c)%N.
Definition case_tree : json_tree :=
  Eval vm_compute in match case_program true with Ok (t, _) => t | _ => TreeText (TreeFields 0 Empty bs_default [] false false) [] end.

(** The same as a history (C39_unique_ids). *)
Example C39_history_case : tree_history (ts := basic_tree_style) true 8 8 [case_tree].
Proof.
  pose (S0 := @h_start basic_tree_style true).
  pose proof (@h_text _ true _ _ _ JSON_STRING (chars "a") _ _ S0 eq_refl) as S1.
  pose proof (@h_text _ true _ _ _ JSON_COMMENT_WORD (chars "b") _ _ S1 eq_refl) as S2.
  pose proof (@h_branch _ true _ _ [_] JSON_COMMENT [_] _ _ S2 eq_refl) as S3.
  apply h_comment in S3.
  pose proof (@h_branch _ true _ _ [_; _] JSON_NULL [] _ _ S3 eq_refl) as S4.
  pose proof (@h_text _ true _ _ _ JSON_COMMENT_WORD (chars "c") _ _ S4 eq_refl) as S5.
  pose proof (@h_text _ true _ _ _ JSON_COMMENT_WORD (chars "d") _ _ S5 eq_refl) as S6.
  pose proof (@h_reorder _ true _ _ _ _ S6 (perm_swap _ _ _)) as S6'.
  pose proof (@h_branch _ true _ _ [_; _; _] JSON_COMMENT [_; _] _ _ S6' eq_refl) as S7.
  apply h_comment in S7.
  pose proof (@h_reorder _ true _ _ _ _ S7 (Permutation_rev _)) as S7'.
  pose proof (@h_branch _ true _ _ [] JSON_ARRAY [_; _; _; _] _ _ S7' eq_refl) as S8.
  assert (E : forall x, tree_history (ts := basic_tree_style) true 8 8 [x] -> x = case_tree -> tree_history (ts := basic_tree_style) true 8 8 [case_tree]).
  { intros x H ->. exact H. }
  eapply E; [exact S8|]. vm_compute. reflexivity.
Qed.

Example C39_unique_ids_case : NoDup (flat_map tree_ids [case_tree]) /\ tree_ids case_tree = [7; 0; 2; 1; 3; 6; 4; 5]%N.
Proof. split; [exact (C39_unique_ids C39_history_case (or_introl eq_refl))|vm_compute; reflexivity]. Qed.

(** Only the string needs a separator: null is the last value, and the others are
    comments. *)
Example C39_separators_case :
  map (fun k => m_condition (PrettyDoc := tree_doc (ts := basic_tree_style)) k NeedsSeparator) (t_kids case_tree) =
  [MOk true; MOk false; MOk false; MOk false].
Proof. vm_compute. reflexivity. Qed.

(** The comment that was made from " c  d" has two words. *)
Example C39_comment_case : map (fun k => List.length (t_kids k)) (t_kids case_tree) = [0; 1; 0; 2].
Proof. vm_compute. reflexivity. Qed.

(** With the counter at its maximum: a panic if overflow is checked, and
    otherwise the counter starts again at 0. *)
Example C39_overflow_case :
  json_null true 4294967295 = Panic POverflow /\
  exists t, json_null false 4294967295 = Ok (t, 0%N) /\ t_id (t_fields t) = 4294967295%N.
Proof. split; [reflexivity|]. eexists. split; reflexivity. Qed.

Example C41_combine_case : bs_combine (BasicStyle Red true) (BasicStyle Blue false) = BasicStyle Blue true.
Proof. reflexivity. Qed.

(** An override of a style (the first one wins), and a label that is not overridden. *)
Example C46_lookup_style_case :
  let t := tree_with_override (ts := basic_tree_style) (chars "open") (BasicStyle Blue true)
             (tree_with_override (chars "open") (BasicStyle Red true) case_tree) in
  tree_lookup_style t (chars "open") = BasicStyle Red true /\ tree_lookup_style t (chars "bold_cyan") = BasicStyle Cyan true.
Proof. split; vm_compute; reflexivity. Qed.

Example C46_tree_case : @rep (tree_doc (ts := basic_tree_style)) (tree_rdoc case_tree) case_tree.
Proof. exact (C46_tree_is_well_behaved _). Qed.

Example C46_conditions_case (f : tree_fields) :
  m_condition (PrettyDoc := tree_doc (ts := basic_tree_style)) (TreeText f []) IsEmptyText = MOk true /\
  m_condition (PrettyDoc := tree_doc (ts := basic_tree_style)) (TreeKids f []) IsEmptyText = MOk false.
Proof.
  split; [apply (C46_conditions _ IsComment); reflexivity|eapply (C46_conditions _ IsComment); reflexivity].
Qed.
