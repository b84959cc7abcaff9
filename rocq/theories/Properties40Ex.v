(** Concrete cases for C72. *)
From Verif Require Import Properties40 Properties18Ex Properties6Ex.
From Coq Require Import String.

Set Implicit Arguments.

Notation rel := (Build_Env len_width (fun _ => false) false).
Notation dbg := (Build_Env len_width (fun _ => false) true).

(** A document with two children, shown in either order. *)
Example C72_case w : (w = 6 \/ w = 5)%N -> ev (fun n => @assert_pp_without_expectation spd dbg n doc52 w) (Ok tt).
Proof.
  intros Hw.
  assert (Hv : valid_doc (s_tree doc52)) by (apply s_valid_doc; vm_compute; reflexivity).
  assert (Hes : exists es, @layout spd rel w (@doc_shape spd rel (s_tree doc52) None) = Some es /\
    Forall (fun l => len_width (segs_to_string l) <= 6)%N (lines_of es)).
  { destruct Hw as [->| ->]; (eexists; split; [vm_compute; reflexivity|]; repeat (constructor; [vm_compute; discriminate|]); constructor). }
  destruct Hes as (es & Hes & Hl).
  destruct (@C01_layout_is_printed spd rel spd_ideq (s_tree doc52) doc52 (s_rep _) Hv w None es Hes) as (fl & downs & Hp & E).
  eapply (@C72_test_passes spd spd_ideq len_width (fun _ => false) (s_tree doc52) doc52 (s_rep _) Hv
    ltac:(apply ids_unique; vm_compute; repeat constructor; simpl; intuition discriminate) once52
    ltac:(apply doc_matched_ok; vm_compute; reflexivity) len_adds) with (T := 3%N) (L := 6%N) (fl := fl) (downs := downs).
  - left. repeat (constructor; [vm_compute; reflexivity|]). constructor.
  - destruct Hw as [->| ->]; reflexivity.
  - reflexivity.
  - repeat (constructor; [vm_compute; discriminate|]). constructor.
  - exact Hp.
  - rewrite <- E. exact Hl.
Qed.

(** The same by running it, with right and with wrong expected lines. *)
Example C72_case_expected :
  @assert_pp spd dbg 100 doc52 6 [codes "abc {}"] = Ok tt /\
  @assert_pp spd dbg 100 doc52 5 [codes "{}"; codes "abc"] = Ok tt /\
  @assert_pp spd dbg 100 doc52 5 [codes "abc {}"] = Panic PAssert.
Proof. repeat split; vm_compute; reflexivity. Qed.

(** A test does fail if a child is hidden by the option taken, or if there are
    texts of width zero (which the oracle gets wrong). *)
Example C72_fails :
  @assert_pp_without_expectation spd dbg 100 hidden52 3 = Ok tt /\
  @assert_pp_without_expectation spd dbg 100 hidden52 2 = Panic PExpect /\
  @assert_pp_without_expectation spd dbg 100 zero_doc 20 = Panic PAssert.
Proof. repeat split; vm_compute; reflexivity. Qed.

(** The loop of the oracle test, on the notations of sizes 1 and 2 and a random one
    of size 5. *)
Example C72_case_loop : @oracle_tests dbg 60 3 [(5, fun _ max => max - 1)] = Ok (18 + 1, 0).
Proof. vm_compute. reflexivity. Qed.

(** Of size 3, three are rejected: text after an EndOfLine. *)
Example C72_case_rejected : @oracle_tests dbg 140 4 [] = Ok (18 + 93, 3).
Proof. vm_compute. reflexivity. Qed.

Example C72_case_random : Forall (fun '(size, rng) => (0 < size /\ (N.of_nat size <= 9000)%N) /\ forall j max, 0 < max -> rng j max < max)
  [(5, fun _ max => max - 1); (50, fun j max => j mod max)].
Proof. repeat constructor; try lia. intros j max Hm. apply Nat.mod_upper_bound. lia. Qed.

Example C72_case_widths :
  widths_add_up len_width /\ len_width [97%N] = 1%N /\ len_width [98%N] = 1%N /\ len_width [99%N] = 1%N /\ len_width [32%N] = 1%N.
Proof. split; [exact len_adds|]. repeat split; reflexivity. Qed.
