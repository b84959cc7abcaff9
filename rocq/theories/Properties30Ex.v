(** Concrete cases for C63. *)
From Verif Require Import Properties30.

Set Implicit Arguments.

(** A generator that picks a number and then a smaller one. *)
Definition pairs : gen (nat * nat) := GPick 3 (fun i => GPick (i + 1) (fun j => GReturn (i, j))).
Example C63_case_sound : sound pairs.
Proof. constructor; [lia|]. intros i Hi. constructor; [lia|]. intros j Hj. constructor. Qed.
Example C63_case_pairs : gen_collect 10 pairs gen_all_new = Ok [(0, 0); (1, 0); (1, 1); (2, 0); (2, 1); (2, 2)].
Proof. reflexivity. Qed.

(** The assertion of the generator's own test (generative_testing.rs:204). *)
Example C63_case_14 : exists l, generate_all_of_size 20 (tree_gen 10) 5 = Ok l /\ length l = 14.
Proof. eexists. split; vm_compute; reflexivity. Qed.

(** 6 + 12 notations of sizes 1 and 2, and 96 of size 3. *)
Example C63_case_notations :
  exists l, generate_all_up_to_size 200 (notation_gen 5) 4 = Ok l /\ length l = 6 + 12 + 96 /\
    In (Choice (Literal [97%N]) Newline) l.
Proof. eexists. split; [vm_compute; reflexivity|]. split; [reflexivity|]. cbn. auto 200. Qed.

(** Without anything to pick from ([pick_int(0)], which panics when the values are
    random) the iterator returns a value all the same. *)
Example C63_case_unsound : gen_collect 5 (GPick 0 (fun i => GReturn i)) gen_all_new = Ok [0] /\
  gen_random (fun _ _ => 0) 0 (GPick 0 (fun i => GReturn i)) = Panic PAssert /\ ~ sound (GPick 0 (fun i => GReturn i)).
Proof. repeat split. intros H. inversion H. lia. Qed.
