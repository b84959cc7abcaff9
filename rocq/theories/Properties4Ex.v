(** Concrete cases for the theorems of Properties4. *)
From Verif Require Export Properties4.
From Coq Require Import String Ascii.
#[local] Existing Instance debug_env.

Set Implicit Arguments.

(** ** Checking [matched] by computation *)
Section Check.
Context {pd : PrettyDoc} {env : Env}.

Fixpoint note_matched (x : rdoc) (n : note) : bool :=
  match mismatch x n with Some _ => false | None =>
    match n with
    | Flat a | Indent _ _ a | Style _ a => note_matched x a
    | Concat a b | Choice a b | Check _ _ a b => note_matched x a && note_matched x b
    | Fold a b => match r_kids x with [] => true | [_] => note_matched x a | _ => note_matched x a && note_matched x b end
    | Count a b c => match r_kids x with [] => note_matched x a | [_] => note_matched x b | _ => note_matched x c end
    | _ => true
    end end.

Fixpoint doc_matched (r : rdoc) : bool :=
  note_matched r (i_note (r_info r)) &&
  match r with RText _ _ => true | RBranch _ ks => forallb doc_matched ks end.

Lemma doc_matched_ok root : doc_matched root = true -> matched root.
Proof.
  intros Hroot.
  assert (Hnode : forall x, doc_matched x = true -> note_matched x (i_note (r_info x)) = true /\ forall k, In k (r_kids x) -> doc_matched k = true).
  { intros [i s|i ks]; simpl; intros H; apply andb_true_iff in H as [H1 H2]; split; auto; try contradiction. apply forallb_forall. exact H2. }
  assert (Hinv : forall fs x o n, reach root fs x o n -> doc_matched x = true /\ note_matched x n = true /\
    forall f, o = Some f -> note_matched x (f_first f) = true /\ note_matched x (f_join f) = true).
  { induction 1; repeat match goal with H : _ /\ _ |- _ => destruct H end;
      try (match goal with H : note_matched _ _ = true |- _ => simpl in H; destruct (mismatch _ _); [discriminate|] end);
      repeat match goal with H : (_ && _)%bool = true |- _ => apply andb_true_iff in H as [? ?] end; auto;
      try (match goal with K : nth_error (r_kids _) _ = Some ?k |- _ => apply nth_error_In in K; assert (Hk : doc_matched k = true) by (eapply Hnode; eauto) end;
           split; [auto|]; split; [apply Hnode; auto|discriminate]).
    - split; auto. split; [apply Hnode; auto|discriminate].
    - destruct (r_kids x) as [|? [|]]; [auto|discriminate|discriminate].
    - destruct (r_kids x) as [|? [|]]; [discriminate|auto|discriminate].
    - destruct (r_kids x) as [|? [|]]; [simpl in *; lia|simpl in *; lia|auto].
    - destruct (r_kids x) as [|? [|]]; [discriminate| |discriminate]. split; auto. split; auto. discriminate.
    - destruct (r_kids x) as [|? [|]]; [discriminate|discriminate|].
      match goal with H : (_ && _)%bool = true |- _ => apply andb_true_iff in H as [? ?] end.
      split; auto. split; auto. intros f0 [= <-]. auto.
    - destruct (H3 _ eq_refl). split; auto. split; auto. discriminate.
    - destruct (H3 _ eq_refl). split; auto. split; auto. intros f0 [= <-]. auto. }
  intros fs x o n Hr. destruct (Hinv _ _ _ _ Hr) as (_ & H & _).
  destruct n; simpl in H; destruct (mismatch x _); auto; discriminate.
Qed.

End Check.

Example ex_matched : matched ex_tree.
Proof. apply doc_matched_ok. vm_compute. reflexivity. Qed.

(** The document of Properties2Ex, printed at width 16 from inside. *)
Example ex_printed : exists ups fl downs,
  printed (ex_doc : D) 16 [1; 1] FStart None ups fl downs /\ all_lines ups fl downs = lines_of (ex_layout 16).
Proof.
  destruct (C06_displayed_accepted ex_rep ex_valid ex_unique 16%N None (ex_has_layout (or_introl eq_refl)) (ex_linear (or_introl eq_refl)) ex_displayed (or_introl eq_refl)) as (ups & fl & downs & H).
  exists ups, fl, downs. split; auto.
  destruct (C01_printed_has_layout ex_rep ex_valid (eq_refl : is_text_target FStart = false) H) as (es & Hes & E). rewrite E.
  rewrite (ex_has_layout (or_introl eq_refl)) in Hes. injection Hes as <-. reflexivity.
Qed.

Example ex_narrow : narrow_lines (lines_of (ex_layout 16)).
Proof. repeat (constructor; [vm_compute; reflexivity|]). constructor. Qed.

(** C12-C16, C25: the hypotheses hold of this document; the choice of the outer
    list is resolved to its second option, that of the inner list to its first. *)
Ltac lay :=
  repeat first
    [ apply L_empty | apply L_mark | apply L_eol | apply L_newline | apply L_child
    | (apply L_text; intros _; reflexivity)
    | eapply L_concat
    | (eapply L_first; [split; [vm_compute; discriminate|reflexivity]|])
    | (eapply L_second; [intros [H _]; vm_compute in H; exact (H eq_refl)|]) ].

Definition firsts_in {A} (t : list (@mark A)) : nat :=
  List.length (List.filter (fun m => match m with First => true | _ => false end) t).

Example C12_case : exists t, lays_doc true 16 (doc_shape ex_tree None) t /\
  events t = ex_layout 16 /\ firsts_in t = 1.
Proof.
  eexists. split; [|split].
  - eexists _, _. split; [reflexivity|].
    cbv [doc_shape snd]. let s := eval vm_compute in (elab ex_tree (root_ctx ex_tree None)) in change (elab ex_tree (root_ctx ex_tree None)) with s.
    lay.
  - vm_compute. reflexivity.
  - vm_compute. reflexivity.
Qed.

Example C13_case : exists ups fl downs t, printed (ex_doc : D) 16 [1; 1] FStart None ups fl downs /\
  all_lines ups fl downs = lines_of (events t) /\ firsts_in t = 1 /\
  forall a b above l1 l2 below, t = a ++ First :: b ->
      lines_of (events a) = above ++ [l1] -> lines_of (events b) = l2 :: below ->
      all_lines ups fl downs = above ++ (l1 ++ l2) :: below /\ (exact_width (l1 ++ l2) <= 16)%N.
Proof.
  destruct ex_printed as (ups & fl & downs & Hp & E). destruct C12_case as (t0 & L0 & E0 & H0).
  destruct (C13_first_option_line_fits ex_rep ex_valid (eq_refl : is_text_target FStart = false) Hp) as (t & L & El & H); [rewrite E; exact ex_narrow|].
  exists ups, fl, downs, t. rewrite (C12_rule_determines_layout L0 L) in H0. auto.
Qed.

(** C14: a document that would put text after an EndOfLine. *)
Definition eol_note : notation nat nat := Concat (Child 0) (lit "x").
Definition eol_doc : sdoc := Node 0 eol_note [Node 1 (Concat (lit "// c") EndOfLine) []].
Example C14_case : exists f, print_fails (eol_doc : D) 40 [] FStart None f /\
  (f = FErr TextAfterEndOfLine \/ (f = FPanic POverflow /\ ovf = true)).
Proof.
  eapply (@C14_text_after_end_of_line_fails spd _ spd_ideq (s_tree eol_doc) eol_doc (s_rep eol_doc) ltac:(apply s_valid_doc; vm_compute; reflexivity) 40%N None)
    with (a := [_; _]) (b := [_]) (c := []).
  - apply doc_matched_ok. vm_compute. reflexivity.
  - eexists _, _. split; [reflexivity|]. cbn. econstructor; [econstructor; econstructor; econstructor; discriminate|]. constructor. discriminate.
  - cbn. repeat (constructor; [vm_compute; reflexivity|]). constructor.
  - cbn. reflexivity.
  - intros ind [H|[]]. discriminate.
Qed.

(** C18: a flat list. *)
Definition flat_doc : sdoc := Node 0 (Flat list_note) [word 1 "apple"; Node 2 list_note [word 3 "kiwi"; word 4 "fig"]].
Example C18_case : i_note (r_info (s_tree flat_doc)) = Flat list_note /\
  pretty_print_to_string 1000 (flat_doc : D) 3 = Ok (codes "[apple, [kiwi, fig]]") /\
  pretty_print_to_string 1000 (flat_doc : D) 80 = Ok (codes "[apple, [kiwi, fig]]").
Proof. vm_compute. auto. Qed.

(** C27: the list fits on one line of width 30. *)
Example C27_case : exists fl, printed (ex_doc : D) 30 [] FStart None [] fl [] /\
  map segs_to_string (all_lines [] fl []) = [codes "[apple, [kiwi, fig], pear, []]"].
Proof.
  destruct (@C27_one_line _ _ _ ex_tree ex_doc ex_rep ex_valid 30%N None) as (fl & Hp & E).
  - exact ex_matched.
  - reflexivity.
  - vm_compute. repeat (split; [try discriminate; auto|]); repeat split; auto; try discriminate; try tauto; eauto.
    all: intros x H; repeat destruct H as [H|H]; try discriminate; try tauto; eauto 20.
  - vm_compute. intuition discriminate.
  - vm_compute. discriminate.
  - reflexivity.
  - exists fl. split; auto. rewrite E. vm_compute. reflexivity.
Qed.
