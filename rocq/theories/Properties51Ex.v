(** A concrete case for Properties51. *)
From Verif Require Import Properties51 Properties31Ex Properties13Ex Properties12Ex.
From Coq Require Import List.
Import ListNotations.
#[local] Existing Instance tree_doc.

(** The JSON document of Properties13Ex at width 30: broken up, it fits. *)
Example C47_json_case path ft ups fl downs :
  is_text_target ft = false -> @printed jpd (c_env false) (tree_of case_json) 30 path ft None ups fl downs ->
  Forall (fun l => exact_width l <= 30)%N (all_lines ups fl downs).
Proof.
  apply (@C47_json (fun s => N.of_nat (List.length s)) (fun _ => false) true white case_json _ case_made case_document 30%N None).
  - reflexivity.
  - assert (E : forallb (fun l : list (@segment jpd) => (exact_width l <=? 30)%N) (lines_of (@second_events jpd (i_id (r_info (@tree_rdoc basic_tree_style (tree_of case_json)))) (snd (@doc_shape jpd (c_env false) (tree_rdoc (tree_of case_json)) None)))) = true).
    { vm_compute. reflexivity. }
    rewrite forallb_forall in E. apply Forall_forall. intros l Hl. apply N.leb_le. apply E. exact Hl.
Qed.
(** It is printed. *)
Example C47_json_case_prints : exists fl downs, @printed jpd (c_env false) (tree_of case_json) 30 [] FStart None [] fl downs.
Proof.
  destruct (@C40_prints (fun s => N.of_nat (List.length s)) (fun _ => false) true white case_json _ case_made case_document 30%N None) as (fl & downs & o & H & _).
  eauto.
Qed.
