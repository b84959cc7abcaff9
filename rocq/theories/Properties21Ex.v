(** Concrete cases for C55. *)
From Verif Require Import Properties21 Properties17Ex.
From Coq Require Import String.

Set Implicit Arguments.

(** A document whose focus is in the middle, with and without the checks. *)
Example C55_case : @printed spd (wide_env false) doc3 10 [0] FStart (Some [1])
  [[seg (codes "first") 5 [1; 107]]]
  {| left_segments := [seg (codes "> ") 2 [1; 107]]; right_segments := [seg ([97; 1000; 98]%N) 4 [1; 107; 108]] |}
  [[seg (codes "a longer line") 13 [1; 107]]].
Proof. exact (C55_printed (doc3_printed 10 [1])). Qed.

(** Two texts that together are wider than 65535 columns: the checks matter. *)
Definition huge (b : bool) : Env := Build_Env (fun s => 40000 * N.of_nat (List.length s))%N (fun _ => false) b.
Definition huge_doc : sdoc := Node 7 (Concat (lit "a") (lit "b")) [].
Example C55_overflow_case :
  ev (fun n => @pretty_print_to_string spd (huge true) n huge_doc 80) (Panic POverflow) /\
  ev (fun n => @pretty_print_to_string spd (huge false) n huge_doc 80) (Ok (codes "ab")).
Proof.
  split; exists 200; intros n Hn; replace n with (200 + (n - 200)) by lia; generalize (n - 200); intros k; vm_compute; reflexivity.
Qed.
