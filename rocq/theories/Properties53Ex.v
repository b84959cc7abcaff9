(** A case of C14, C15 and C19 with the focus in a text: "ki|wi" in [ex_doc]. *)
From Verif Require Import Properties53 Properties42Ex Properties41Ex Properties2Ex.
From Coq Require Import String.

Set Implicit Arguments.
#[local] Existing Instance debug_env.

Example C14_C15_C19_text_case : exists ups fl downs es a ind b a' j m b',
  printed (ex_doc : D) 16 [1; 0] (FText 2) None ups fl downs /\
  layout 16 (doc_shape ex_tree None) = Some es /\ cut_lines 2 (lines_of es) ups fl downs /\
  es = a ++ ENewline ind :: b /\ es = a' ++ EEnter j m :: b' /\
  exists fs x o l ls, reach ex_tree fs x o Newline /\ path_of fs = open_path a /\ lines_of b = l :: ls /\
    cut_lines 2 (lines_of a ++ (indents_from (root_style ex_tree None) fs ++ l) :: ls) ups fl downs.
Proof.
  destruct kiwi_two as (ups & fl & downs & H & _).
  destruct (C15_text_focus ex_rep ex_valid ex_unique ex_splittable H) as (es & H1 & Hc & H2).
  assert (E : layout 16 (doc_shape ex_tree None) = Some (ex_layout 16)) by (exact (ex_has_layout (or_introl eq_refl))).
  rewrite H1 in E. injection E as ->.
  assert (F : exists a ind b, ex_layout 16 = a ++ ENewline ind :: b).
  { assert (S : exists k ind, nth_error (ex_layout 16) k = Some (ENewline ind)) by (exists 2; eexists; vm_compute; reflexivity).
    destruct S as (k & ind & Hk). apply nth_error_split in Hk as (a & b & -> & _). eauto. }
  assert (G : exists a j m b, ex_layout 16 = a ++ EEnter j m :: b).
  { assert (S : exists k j m, nth_error (ex_layout 16) k = Some (EEnter j m)) by (exists 3; eexists _, _; vm_compute; reflexivity).
    destruct S as (k & j & m & Hk). apply nth_error_split in Hk as (a & b & -> & _). eauto. }
  destruct F as (a & ind & b & F), G as (a' & j & m & b' & G).
  exists ups, fl, downs, (ex_layout 16), a, ind, b, a', j, m, b'. repeat (split; [assumption|]). exact (H2 a ind b F).
Qed.
