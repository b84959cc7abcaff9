(** Concrete cases for C48. *)
From Verif Require Export Properties15 Properties10Ex.
From Coq Require Import String.

Set Implicit Arguments.

(** Four lines; the second and the third have a text after the end of the line. *)
Definition doc48 : sdoc :=
  Node 7 (Concat (lit "first") (Concat Newline (Concat EndOfLine (Concat (Child 0) (Concat Newline (Concat EndOfLine (Concat (Child 1) (Concat Newline (lit "last")))))))))
    [Leaf 8 Text ([97; 98]%N); Node 9 (Concat (lit "x") (Concat Newline (lit "y"))) []].

Notation PP48 n := (@pretty_print spd (wide_env true) n doc48 80 [] FStart None).

Example C48_case : exists up fl down,
  ev (fun n => PP48 n) (Ok (up, fl, down)) /\
  drained (@up_next_left spd (wide_env true)) up [] None /\
  drained (@down_next_left spd (wide_env true)) down
    [inr TextAfterEndOfLine; inr TextAfterEndOfLine;
     inl [seg (codes "y") 1 [107; 109]]; inl [seg (codes "last") 4 [107]]] None /\
  ev (fun n => collect n (@down_next spd (wide_env true) n) down) (Err TextAfterEndOfLine).
Proof.
  eexists _, _, _. split; [|].
  { exists 200. intros n Hn. replace n with (200 + (n - 200)) by lia. vm_compute. reflexivity. }
  assert (H : forall A (f : nat -> A) r, (forall m, f (200 + m) = r) -> ev f r).
  { intros A f r H. exists 200. intros n Hn. replace n with (200 + (n - 200)) by lia. apply H. }
  split; [|split].
  - eapply drained_none. apply H. intros m. vm_compute. reflexivity.
  - eapply drained_err. { apply H. intros m. vm_compute. reflexivity. }
    eapply drained_err. { apply H. intros m. vm_compute. reflexivity. }
    eapply drained_line. { apply H. intros m. vm_compute. reflexivity. }
    eapply drained_line. { apply H. intros m. vm_compute. reflexivity. }
    eapply drained_none. apply H. intros m. vm_compute. reflexivity.
  - apply H. intros m. vm_compute. reflexivity.
Qed.

(** ... and it is a well-behaved, validated document. *)
Example C48_case_valid : @rep spd (s_tree doc48) doc48 /\ valid_doc (s_tree doc48) /\ finite_doc (doc48 : D).
Proof.
  split; [apply s_rep|]. split; [apply s_valid_doc; vm_compute; reflexivity|].
  exact (rep_finite (s_rep doc48)).
Qed.
