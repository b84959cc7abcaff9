(** Concrete cases for C47. *)
From Verif Require Export Properties14 Properties4Ex2.
From Coq Require Import String Ascii.
#[local] Existing Instance debug_env.

Set Implicit Arguments.

(** The document of Properties2Ex meets the hypotheses at every width from 9 to
    65535: its widest line, when every list is broken up, is "    kiwi,". *)
Example C47_hypotheses w : (9 <= w)%N ->
  matched ex_tree /\ single_line_firsts (snd (doc_shape ex_tree None)) /\
  Forall (fun l => exact_width l <= w)%N (lines_of (second_events (i_id (r_info ex_tree)) (snd (doc_shape ex_tree None)))).
Proof.
  intros Hw. split; [apply doc_matched_ok; vm_compute; reflexivity|]. split; [vm_compute; tauto|].
  eapply (Forall_impl (P := fun l => exact_width l <= 9)%N); [intros l Hl; simpl in *; lia|].
  apply Forall_forall. intros l Hl.
  assert (H : forallb (fun l => exact_width l <=? 9)%N (lines_of (second_events (i_id (r_info ex_tree)) (snd (doc_shape ex_tree None)))) = true)
    by (vm_compute; reflexivity).
  eapply forallb_forall in H; [|exact Hl]. apply N.leb_le. exact H.
Qed.

Example C47_case : exists ups fl downs,
  printed (ex_doc : D) 16 [1] FEnd None ups fl downs /\
  List.length (all_lines ups fl downs) = 6 /\
  Forall (fun l => exact_width l <= 16)%N (all_lines ups fl downs).
Proof.
  destruct C01_case as (ups & fl & downs & fl0 & downs0 & H & _ & E & El). exists ups, fl, downs.
  split; [exact H|]. split; [rewrite E; exact El|].
  destruct (@C47_hypotheses 16%N) as (Hm & Hs & HF); [lia|].
  apply (C47_no_line_too_wide ex_rep ex_valid Hm (eq_refl : (16 < U16)%N) Hs HF (eq_refl : is_text_target FEnd = false) H).
Qed.

(** At width 8 the widest line of the broken-up layout does not fit, and a printed
    line is too wide. *)
Example C47_narrow_run :
  match pretty_print_to_string 1000 (ex_doc : D) 8 with
  | Ok s => s = codes "[
  apple,
  [
    kiwi,
    fig
  ],
  pear,
  []
]"
  | Fail _ => False
  end.
Proof. vm_compute. reflexivity. Qed.

(** The hypothesis on first options is needed: the first option of this choice has
    two lines.  Only its first line is looked at, and its second line is wider
    than 10 although the second option would have fitted. *)
Definition two_lines : notation nat nat :=
  Choice (Concat (lit "short") (Concat Newline (lit "a much longer line"))) (lit "narrow").
Definition two_doc : sdoc := Node 0 two_lines [].

Example C47_needs_single_lines :
  valid_doc (s_tree two_doc) /\ matched (s_tree two_doc) /\
  Forall (fun l => exact_width l <= 10)%N (lines_of (second_events (i_id (r_info (s_tree two_doc))) (snd (doc_shape (s_tree two_doc) None)))) /\
  exists fl downs, printed (two_doc : D) 10 [] FStart None [] fl downs /\
    ~ Forall (fun l => exact_width l <= 10)%N (all_lines [] fl downs).
Proof.
  assert (Hv : valid_doc (s_tree two_doc)) by (apply s_valid_doc; vm_compute; reflexivity).
  split; [exact Hv|]. split; [apply doc_matched_ok; vm_compute; reflexivity|].
  split; [vm_compute; repeat constructor; discriminate|].
  destruct (layout 10 (doc_shape (s_tree two_doc) None)) as [es|] eqn:Hes; [|vm_compute in Hes; discriminate].
  destruct (C01_layout_is_printed (s_rep two_doc) Hv 10%N None Hes) as (fl & downs & Hp & E).
  exists fl, downs. split; [exact Hp|]. rewrite <- E. vm_compute in Hes. injection Hes as <-. intros H.
  vm_compute in H. inversion H as [|? ? ? H']. inversion H' as [|? ? H'' ?]. apply H''. reflexivity.
Qed.
