(** A case of C12, C13, C16 and C64 with the focus in a text: in a list that is
    broken up, in the word "kiwi" of a list that is on one line. *)
From Verif Require Import Properties52 Properties19 Properties42Ex Properties41Ex Properties2Ex.
From Coq Require Import String.

Set Implicit Arguments.
#[local] Existing Instance debug_env.

Example ex_obedient : obedient (snd (doc_shape ex_tree None)).
Proof.
  apply C53_same_openings. simpl. 
  repeat match goal with
  | |- _ /\ _ => split
  | |- True => exact I
  | |- exists lits more, _ => exists [], []; split; reflexivity
  | |- exists lits more, _ => exists []; eexists; split; reflexivity
  end.
Qed.

Example kiwi_narrow : exists ups fl downs, printed (ex_doc : D) 16 [1; 0] (FText 2) None ups fl downs /\
  map segs_to_string (left_segments fl :: right_segments fl :: downs) = map codes ["  [ki"; "wi, fig],"; "  pear,"; "  []"; "]"]%string /\
  forallb (fun l => exact_width l <? U16)%N (all_lines ups fl downs) = true.
Proof. apply shown_printed with (n := 200). vm_compute. repeat split. Qed.

Example C12_C13_C16_C64_text_case : exists ups fl downs,
  printed (ex_doc : D) 16 [1; 0] (FText 2) None ups fl downs /\ narrow_lines (all_lines ups fl downs) /\
  (exists t, lays_doc true 16 (doc_shape ex_tree None) t /\ cut_lines 2 (lines_of (events t)) ups fl downs) /\
  (exists cs es, doc_picks (doc_shape ex_tree None) cs es /\ cut_lines 2 (lines_of es) ups fl downs /\
    forall cs' es', doc_picks (doc_shape ex_tree None) cs' es' -> fitting 16 es' -> (cs = cs' /\ es = es') \/ comes_before cs cs') /\
  (exists l s, In l (all_lines ups fl downs) /\ In s l).
Proof.
  destruct kiwi_narrow as (ups & fl & downs & H & _ & E).
  assert (Hn : narrow_lines (all_lines ups fl downs)).
  { apply Forall_forall. intros l Hl. rewrite forallb_forall in E. apply N.ltb_lt. apply E. exact Hl. }
  exists ups, fl, downs. split; [exact H|]. split; [exact Hn|]. split; [|split].
  - exact (C12_text_focus ex_rep ex_valid ex_unique ex_splittable H Hn).
  - exact (C64_text_focus ex_rep ex_valid ex_unique ex_splittable ex_obedient H Hn).
  - destruct (from_start ex_rep ex_valid ex_unique ex_splittable H) as (fl0 & downs0 & _ & la & s & lb & _ & H3 & _).
    eexists _, _. split; [apply in_or_app; right; left; reflexivity|]. rewrite H3. apply in_or_app. left. apply in_or_app. right. left. reflexivity.
Qed.
