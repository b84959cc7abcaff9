(** Cases of C79, and what does not hold. *)
From Verif Require Import Properties54 Properties52Ex Properties51Ex Properties42Ex Properties41Ex Properties31Ex Properties13Ex Properties12Ex Properties2Ex.
From Coq Require Import String.
From Coq Require Import Lia.

Set Implicit Arguments.

(** A wider window can need more lines.  At width 2, the first choice breaks the
    line, and then "cc" fits.  At width 3, "abb" fits on the first line, but then
    "cc" does not, and its other option has two line breaks.
<<
      a         abb
      cc
                d
>>
*)
Definition wider : sdoc :=
  Node 1 (Concat (lit "a") (Concat (Choice (lit "bb") Newline)
    (Choice (lit "cc") (Concat Newline (Concat Newline (lit "d")))))) [].

Definition C79_wider_no_more_lines : Prop :=
  forall (doc : sdoc) w w' fl downs fl' downs',
    valid_doc (s_tree doc) -> matched (s_tree doc) ->
    obedient (snd (@doc_shape spd (wide_env true) (s_tree doc) None)) ->
    single_line_firsts (snd (@doc_shape spd (wide_env true) (s_tree doc) None)) ->
    (w <= w')%N ->
    @printed spd (wide_env true) doc w [] FStart None [] fl downs ->
    @printed spd (wide_env true) doc w' [] FStart None [] fl' downs' ->
    List.length (all_lines [] fl' downs') <= List.length (all_lines [] fl downs).

Lemma wider_2 : prints' wider 2 None
  [[seg (codes "a") 1 [101]]; [seg (codes "cc") 2 [101]]].
Proof. run. Qed.
Lemma wider_3 : prints' wider 3 None
  [[seg (codes "a") 1 [101]; seg (codes "bb") 2 [101]]; []; [seg (codes "d") 1 [101]]].
Proof. run. Qed.

Theorem C79_wider_no_more_lines_refuted : ~ C79_wider_no_more_lines.
Proof.
  intros C. destruct wider_2 as (fl & downs & Hp & E), wider_3 as (fl' & downs' & Hp' & E').
  assert (H : List.length (all_lines [] fl' downs') <= List.length (all_lines [] fl downs)).
  { apply (C wider 2%N 3%N); auto.
    - apply s_valid_doc. vm_compute. reflexivity.
    - apply doc_matched_ok. vm_compute. reflexivity.
    - apply C53_same_openings. simpl. repeat split.
      + exists [], [codes "bb"]. split; reflexivity.
      + exists [], [codes "cc"]. split; reflexivity.
    - vm_compute. tauto.
    - discriminate. }
  rewrite <- E, <- E' in H. simpl in H. lia.
Qed.
Print Assumptions C79_wider_no_more_lines_refuted.

(** "ki|wi" in [ex_doc], which has choices that fit and choices that do not: six
    lines, where it could have been nine. *)
Lemma kiwi_six : exists ups fl downs, @printed spd (senv true) (ex_doc : D) 16 [1; 0] (FText 2) None ups fl downs /\
  List.length (all_lines ups fl downs) = 6.
Proof. apply (@shown_printed 200). vm_compute. reflexivity. Qed.
Example C79_text_case : exists ups fl downs,
  @printed spd (senv true) (ex_doc : D) 16 [1; 0] (FText 2) None ups fl downs /\
  List.length (all_lines ups fl downs) = 6 /\
  List.length (all_lines ups fl downs) <= List.length (lines_of (second_events (i_id (r_info ex_tree)) (snd (@doc_shape spd (senv true) ex_tree None)))) /\
  List.length (lines_of (second_events (i_id (r_info ex_tree)) (snd (@doc_shape spd (senv true) ex_tree None)))) = 9.
Proof.
  destruct kiwi_six as (ups & fl & downs & H & E). exists ups, fl, downs. split; [exact H|]. split; [exact E|]. split.
  - apply (C79_text_focus ex_rep ex_valid ex_unique ex_splittable) in H; [exact H|vm_compute; tauto].
  - vm_compute. reflexivity.
Qed.

(** The JSON document of Properties13Ex. *)
Example C79_json_case w : exists fl downs, @printed jpd (c_env false) (tree_of case_json) w [] FStart None [] fl downs /\
  List.length (all_lines [] fl downs) <= 
  List.length (lines_of (@second_events jpd (i_id (r_info (@tree_rdoc basic_tree_style (tree_of case_json)))) (snd (@doc_shape jpd (c_env false) (tree_rdoc (tree_of case_json)) None)))).
Proof.
  destruct (@C40_prints (fun s => N.of_nat (List.length s)) (fun _ => false) true white case_json _ case_made case_document w None) as (fl & downs & o & H & _).
  exists fl, downs. split; [exact H|].
  exact (@C79_json (fun s => N.of_nat (List.length s)) (fun _ => false) true white case_json _ w None [] FStart [] fl downs case_made case_document eq_refl H).
Qed.
