(** Concrete cases for C64. *)
From Verif Require Export Properties31b Properties19Ex.
From Verif Require Import Properties12Ex.
From Coq Require Import String.

Set Implicit Arguments.

(** The list of C53 has four layouts (two choices, the inner one inside a Flat if
    the outer one takes its first option: so three).  At width 10 the first that
    fits breaks the outer list up and keeps the inner one on a line. *)
Example C64_case : exists cs es fl downs,
  doc_picks (@doc_shape spd (wide_env true) (s_tree doc53) None) cs es /\ fitting 10 es /\
  @printed spd (wide_env true) doc53 10 [] FStart None [] fl downs /\ all_lines [] fl downs = lines_of es /\
  forall cs' es', doc_picks (@doc_shape spd (wide_env true) (s_tree doc53) None) cs' es' -> fitting 10 es' ->
    cs' = cs \/ comes_before cs cs'.
Proof.
  apply (@C64_first_fitting spd (wide_env true) spd_ideq (s_tree doc53) doc53 (s_rep _)).
  - apply s_valid_doc. vm_compute. reflexivity.
  - apply doc_matched_ok. vm_compute. reflexivity.
  - reflexivity.
  - apply obedient53.
  - vm_compute. tauto.
  - split; vm_compute; [repeat constructor; discriminate|reflexivity].
Qed.

(** Its three layouts, as decisions. *)
Fixpoint all_picks {pd : PrettyDoc} (s : shape) : list (list bool) :=
  match s with
  | SConcat a b => flat_map (fun x => map (fun y => x ++ y) (all_picks b)) (all_picks a)
  | SChoice a b => map (cons true) (all_picks a) ++ map (cons false) (all_picks b)
  | SChild _ _ s' => all_picks s'
  | _ => [[]]
  end.
Lemma picks_in {pd : PrettyDoc} j s cs es : picks j s cs es -> In cs (all_picks s).
Proof.
  induction 1; simpl; auto.
  - apply in_flat_map. eexists. split; [eassumption|]. apply in_map. auto.
  - apply in_or_app. left. apply in_map. auto.
  - apply in_or_app. right. apply in_map. auto.
Qed.
Example C64_case_picks cs es : doc_picks (@doc_shape spd (wide_env true) (s_tree doc53) None) cs es ->
  cs = [true] \/ cs = [false; true] \/ cs = [false; false].
Proof.
  intros (j & _ & R). apply picks_in in R.
  assert (E : all_picks (snd (@doc_shape spd (wide_env true) (s_tree doc53) None)) = [[true]; [false; true]; [false; false]]).
  { vm_compute. reflexivity. }
  rewrite E in R. simpl in R. intuition congruence.
Qed.

(** It is not true that a layout that fits is printed whenever there is one, even
    if every choice obeys the requirement and has a single line as first option:
    the printer does not look beyond the line.  Here "aaa" fits on the first
    line, but then "b" does not, and its second option is too wide.  The layout
    "ab" would have fit. *)
Definition greedy : sdoc :=
  Node 1 (Concat (Choice (lit "aaa") (lit "a")) (Choice (lit "b") (Concat Newline (lit "bbbbbb")))) [].
Definition C64_fits_if_possible : Prop :=
  forall (doc : sdoc) w cs es fl downs,
    valid_doc (s_tree doc) -> matched (s_tree doc) ->
    obedient (snd (@doc_shape spd (wide_env true) (s_tree doc) None)) ->
    single_line_firsts (snd (@doc_shape spd (wide_env true) (s_tree doc) None)) ->
    doc_picks (@doc_shape spd (wide_env true) (s_tree doc) None) cs es -> fitting w es ->
    @printed spd (wide_env true) doc w [] FStart None [] fl downs ->
    Forall (fun l => exact_width l <= w)%N (all_lines [] fl downs).

Lemma greedy_prints : prints' greedy 3 None
  [[seg (codes "aaa") 3 [101]]; [seg (codes "bbbbbb") 6 [101]]].
Proof. run. Qed.

Lemma no_longer_text a b : (b <= a)%N -> no_longer [ITxt b] [ITxt a].
Proof.
  intros H w len eol rest [H1 H2]. simpl in *. split; simpl; [lia|exact H2].
Qed.

Theorem C64_fits_if_possible_refuted : ~ C64_fits_if_possible.
Proof.
  intros C. destruct greedy_prints as (fl & downs & Hp & E).
  specialize (C greedy 3%N [false; true] 
    [EText 1 (@Textual spd (codes "a") 1 [101] false); EText 1 (@Textual spd (codes "b") 1 [101] false)] fl downs).
  rewrite <- E in C. assert (H : Forall (fun l : list (@segment spd) => (exact_width l <= 3)%N)
     [[seg (codes "aaa") 3 [101]]; [seg (codes "bbbbbb") 6 [101]]]).
  { apply C; auto.
    - apply s_valid_doc. vm_compute. reflexivity.
    - apply doc_matched_ok. vm_compute. reflexivity.
    - let s := eval vm_compute in (snd (@doc_shape spd (wide_env true) (s_tree greedy) None)) in change (@obedient spd s).
      cbn [obedient seconds app]. refine (conj (conj I (conj I _)) (conj I (conj (conj I I) _))); intros x Hx; inversion Hx; subst.
      + apply no_longer_text. discriminate.
      + intros w len eol rest [H1 H2]. split; simpl in *; [lia|reflexivity].
    - vm_compute. tauto.
    - exists 1. split; [reflexivity|]. vm_compute.
      apply (@R_concat spd 1 _ _ [false] [true] [_] [_]); [apply R_second|apply R_first]; constructor.
    - split; vm_compute; [repeat constructor; discriminate|reflexivity]. }
  inversion H as [|? ? _ H2]. inversion H2 as [|? ? H3 _]. vm_compute in H3. congruence.
Qed.
Print Assumptions C64_fits_if_possible_refuted.

(** The JSON document of Properties13Ex at width 30. *)
Example C64_json_case : exists cs es fl downs,
  doc_picks (@doc_shape jpd (c_env false) (tree_rdoc (tree_of case_json)) None) cs es /\ fitting 30 es /\
  @printed jpd (c_env false) (tree_of case_json) 30 [] FStart None [] fl downs /\ all_lines [] fl downs = lines_of es /\
  forall cs' es', doc_picks (@doc_shape jpd (c_env false) (tree_rdoc (tree_of case_json)) None) cs' es' -> fitting 30 es' ->
    cs' = cs \/ comes_before cs cs'.
Proof.
  assert (Hf : @fitting jpd 30 (@second_events jpd (i_id (r_info (@tree_rdoc basic_tree_style (tree_of case_json)))) (snd (@doc_shape jpd (c_env false) (tree_rdoc (tree_of case_json)) None)))).
  { split.
    - apply Forall_forall. intros l Hl. revert l Hl.
      assert (E : forallb (fun l : list (@segment jpd) => (exact_width l <=? 30)%N) (lines_of (@second_events jpd (i_id (r_info (@tree_rdoc basic_tree_style (tree_of case_json)))) (snd (@doc_shape jpd (c_env false) (tree_rdoc (tree_of case_json)) None)))) = true).
      { vm_compute. reflexivity. }
      rewrite forallb_forall in E. intros l Hl. apply N.leb_le. apply E. exact Hl.
    - vm_compute. reflexivity. }
  exact (@C64_json_first_fitting (fun s => N.of_nat (List.length s)) (fun _ => false) true white case_json _ case_made case_document 30%N None eq_refl Hf).
Qed.
