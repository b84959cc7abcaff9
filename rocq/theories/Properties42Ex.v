(** Concrete cases for C74. *)
From Verif Require Import Properties42 Properties41Ex Properties2Ex.
From Coq Require Import String.

Set Implicit Arguments.

#[local] Existing Instance debug_env.

Lemma cells_here (s s' : str) : List.length s' = List.length s -> same_cells s s'.
Proof.
  intros H. split; [exact H|]. intros n m. unfold str_width. cbn.
  rewrite !firstn_length, !skipn_length, H. reflexivity.
Qed.

(** [ex_doc] with "plum" instead of "kiwi". *)
Definition plum_doc : sdoc :=
  Node 0 list_note [word 1 "apple"; Node 2 list_note [word 3 "plum"; word 4 "fig"]; word 5 "pear"; Node 6 list_note []].
Example plum_put : s_tree plum_doc = put_text [1; 0] (codes "plum") ex_tree.
Proof. reflexivity. Qed.

Example kiwi_two : exists ups fl downs, printed (ex_doc : D) 16 [1; 0] (FText 2) None ups fl downs /\
  map segs_to_string (rev ups ++ [left_segments fl]) = map codes ["["; "  apple,"; "  [ki"]%string /\
  map segs_to_string (right_segments fl :: downs) = map codes ["wi, fig],"; "  pear,"; "  []"; "]"]%string.
Proof. apply shown_printed with (n := 200). vm_compute. repeat split. Qed.

Example C74_case_edit : exists ups fl downs ups' fl' downs',
  printed (ex_doc : D) 16 [1; 0] (FText 2) None ups fl downs /\
  printed (plum_doc : D) 16 [1; 0] (FText 2) None ups' fl' downs' /\
  line_like eq (edited (codes "kiwi") (codes "plum")) (left_segments fl) (left_segments fl') /\
  line_like eq (edited (codes "kiwi") (codes "plum")) (right_segments fl) (right_segments fl') /\
  lines_like eq (edited (codes "kiwi") (codes "plum")) downs downs'.
Proof.
  destruct kiwi_two as (ups & fl & downs & H & _).
  pose proof (s_rep plum_doc) as Hr. rewrite plum_put in Hr.
  destruct (C74_edit_text_focus (r := ex_tree) [1; 0] (i := s_info (word 3 "kiwi")) (s := codes "kiwi") eq_refl ex_rep Hr ex_valid
    (cells_here (codes "kiwi") (codes "plum") eq_refl) (w := 16) (es := ex_layout 16) ex_unique (fun _ => ex_splittable)
    (ex_has_layout (or_introl eq_refl)) (ex_linear (or_introl eq_refl)) H) as (ups' & fl' & downs' & H' & _ & E1 & E2 & E3).
  exists ups, fl, downs, ups', fl', downs'. auto.
Qed.
(** The same, by running the model. *)
Example C74_case_edit_run : exists ups fl downs, printed (plum_doc : D) 16 [1; 0] (FText 2) None ups fl downs /\
  map segs_to_string (rev ups ++ [left_segments fl]) = map codes ["["; "  apple,"; "  [pl"]%string /\
  map segs_to_string (right_segments fl :: downs) = map codes ["um, fig],"; "  pear,"; "  []"; "]"]%string.
Proof. apply shown_printed with (n := 200). vm_compute. repeat split. Qed.

Example C74_case_edit_lines : exists fl' downs', printed (plum_doc : D) 80 [] FStart None [] fl' downs'.
Proof.
  destruct (C01_layout_is_printed ex_rep ex_valid 80 None (ex_has_layout (or_intror eq_refl))) as (fl & downs & H & _).
  pose proof (s_rep plum_doc) as Hr. rewrite plum_put in Hr.
  destruct (C74_edit_text (r := ex_tree) [1; 0] (i := s_info (word 3 "kiwi")) (s := codes "kiwi") eq_refl ex_rep Hr ex_valid
    (cells_here (codes "kiwi") (codes "plum") eq_refl) H) as (fl' & downs' & H' & _). eauto.
Qed.

(** A longer text does move what comes after it. *)
Definition cherry_doc : sdoc :=
  Node 0 list_note [word 1 "apple"; Node 2 list_note [word 3 "cherry"; word 4 "figs"]; word 5 "pear"; Node 6 list_note []].
Example C74_needs_width :
  map segs_to_string (lines_of (match layout 16 (doc_shape (s_tree cherry_doc) None) with Some es => es | None => [] end)) =
  map codes ["["; "  apple,"; "  ["; "    cherry,"; "    figs"; "  ],"; "  pear,"; "  []"; "]"]%string.
Proof. vm_compute. reflexivity. Qed.

(** Small letters instead of capital ones, everywhere. *)
Definition small (c : char) : char := if (65 <=? c)%N && (c <=? 90)%N then (c + 32)%N else c.
Lemma small_width (s : str) : str_width (map small s) = str_width s.
Proof. unfold str_width. cbn. rewrite map_length. reflexivity. Qed.
Definition call_doc (s t : string) : sdoc :=
  Node 7 (Concat (lit s) (Concat (Indent (codes "  ") None (Concat Newline (Child 0))) (Concat Newline (lit ")")))) [word 8 t].
Lemma call_like : doc_like eq eq (fun s s' : str => s' = map small s) (s_tree (call_doc "F(" "Fig")) (s_tree (call_doc "f(" "fig")).
Proof. repeat (first [apply dl_branch | apply dl_text | constructor]). Qed.
Lemma call_valid s t : valid_doc (s_tree (call_doc s t)).
Proof. apply s_valid_doc. vm_compute. reflexivity. Qed.
Lemma call_unique s t : unique_ids (id_at (s_tree (call_doc s t))).
Proof. apply ids_unique. vm_compute. repeat constructor; simpl; intuition discriminate. Qed.

Example C74_case_renamed : exists ups fl downs, printed (call_doc "F(" "Fig" : D) 80 [0] FEnd None ups fl downs /\
  printed (call_doc "f(" "fig" : D) 80 [0] FEnd None (map (map (rename_seg small)) ups)
    (FocusedLine (map (rename_seg small) (left_segments fl)) (map (rename_seg small) (right_segments fl))) (map (map (rename_seg small)) downs) /\
  map segs_to_string (all_lines ups fl downs) = map codes ["F("; "  Fig"; ")"]%string.
Proof.
  assert (G : exists ups fl downs, printed (call_doc "F(" "Fig" : D) 80 [0] FEnd None ups fl downs /\
    map segs_to_string (all_lines ups fl downs) = map codes ["F("; "  Fig"; ")"]%string).
  { apply shown_printed with (n := 200). vm_compute. reflexivity. }
  destruct G as (ups & fl & downs & H & E). exists ups, fl, downs. split; [exact H|]. split; [|exact E].
  destruct (layout 80 (doc_shape (s_tree (call_doc "F(" "Fig")) None)) as [es|] eqn:Hes; [|vm_compute in Hes; discriminate].
  refine (@C74_renamed_focus _ _ _ small small_width _ _ _ _ (s_rep _) (s_rep _) (call_valid _ _) (call_valid _ _) call_like 80%N None [0] FEnd es ups fl downs
    (call_unique _ _) (call_unique _ _) _ Hes _ H); [discriminate|].
  vm_compute in Hes. injection Hes as <-. unfold linear. vm_compute. repeat constructor; simpl; intuition.
Qed.
