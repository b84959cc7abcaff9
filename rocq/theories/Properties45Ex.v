(** Concrete cases of the theorems of Properties45. *)
From Verif Require Import Properties45 TestSuite.
From Coq Require Import String.
Local Notation length := List.length.

Set Implicit Arguments.
Local Open Scope string_scope.

Notation op := (@tree_op basic_tree_style).
Definition a_string (s : string) : op := OText JSON_STRING (u s).

(** Thread 0 makes  ["a", "b"],  thread 1 makes  [["c"]]  and a comment. *)
Definition program_0 : list op := [a_string "a"; a_string "b"; OBranch JSON_ARRAY 2].
Definition program_1 : list op := [a_string "c"; OBranch JSON_ARRAY 1; OBranch JSON_ARRAY 1; OText JSON_COMMENT_WORD (u "d"); OComment; OPick 1].
(** One after the other, and interleaved. *)
Definition schedule_1 : list (nat * op) := map (pair 0) program_0 ++ map (pair 1) program_1.
Definition schedule_2 : list (nat * op) :=
  [(1, a_string "c"); (0, a_string "a"); (1, OBranch JSON_ARRAY 1); (1, OBranch JSON_ARRAY 1); (0, a_string "b");
   (1, OText JSON_COMMENT_WORD (u "d")); (0, OBranch JSON_ARRAY 2); (1, OComment); (1, OPick 1)].
Definition ids_of (sys : @system basic_tree_style) (who : nat) : list (list N) := map tree_ids (th_trees (sys who)).

Lemma never_sent (l : list (nat * op)) : forallb (fun e => match snd e with OSend _ => false | _ => true end) l = true ->
  forall who o, In (who, o) l -> forall to, o <> OSend to.
Proof. intros H who o Hin to ->. rewrite forallb_forall in H. specialize (H _ Hin). discriminate. Qed.

Example C77_schedule_case : forall who, run_schedule true schedule_1 who = run_schedule true schedule_2 who.
Proof.
  apply C77_schedule.
  - apply never_sent. reflexivity.
  - intros [|[|who]]; reflexivity.
Qed.
Example C77_schedule_run :
  ids_of (run_schedule true schedule_2) 0 = [[2; 0; 1]]%N /\ ids_of (run_schedule true schedule_2) 1 = [[2; 1; 0]; [3]]%N.
Proof. split; reflexivity. Qed.

Example C77_next_id_case : th_counter (run_schedule true schedule_2 1) = 4%N.
Proof.
  rewrite C77_next_id; [reflexivity| | |reflexivity].
  - cbn. intros H. repeat destruct H as [H|H]; try discriminate; exact H.
  - reflexivity.
Qed.

(** Thread 1 sends its string to thread 0, which uses it. *)
Definition schedule_3 : list (nat * op) :=
  [(1, a_string "c"); (0, a_string "a"); (1, OSend 0); (1, a_string "e"); (0, OReceive); (0, OBranch JSON_ARRAY 2)].

(** Thread 1 receives nothing: the ids of what it has are distinct. *)
Example C77_own_trees_case : NoDup (flat_map tree_ids (th_trees (run_schedule true schedule_3 1))).
Proof.
  apply C77_own_trees; [|left; reflexivity].
  cbn. intros o H. repeat destruct H as [<-|H]; try (repeat split; discriminate). destruct H.
Qed.

(** Thread 0 has two nodes with id 0, one from each thread; there are at most two. *)
Example C77_collisions_case :
  ids_of (run_schedule true schedule_3) 0 = [[1; 0; 0]]%N /\
  count_occ N.eq_dec (flat_map (fun who => thread_ids (run_schedule true schedule_3 who)) [0; 1]) 0%N <=
    length (made_more_than 0%N schedule_3 [0; 1]) /\
  length (made_more_than 0%N schedule_3 [0; 1]) = 2 /\ length (made_more_than 1%N schedule_3 [0; 1]) = 2 /\
  length (made_more_than 2%N schedule_3 [0; 1]) = 0.
Proof.
  split; [reflexivity|]. split; [|repeat split].
  apply C77_collisions.
  - intros who o H. repeat destruct H as [H|H]; try (injection H as <- <-; split; discriminate). destruct H.
  - left. reflexivity.
  - repeat constructor; cbn; intuition discriminate.
  - intros who o H. repeat destruct H as [H|H]; try (injection H as <- <-; cbn; auto). destruct H.
Qed.

(** So a document may have nodes of several threads with the same id, and then the
    focus may go to the wrong node.  Thread 1 makes  ["c", "d"]  (its array has id
    2) and sends it to thread 0, which makes  [["c", "d"], "a", "b"]  (whose array has
    id 2, too): the focus for path [1], the string "a", is before "d". *)
Definition schedule_5 : list (nat * op) :=
  [(1, a_string "c"); (1, a_string "d"); (1, OBranch JSON_ARRAY 2); (1, OSend 0); (0, OReceive);
   (0, a_string "a"); (0, a_string "b"); (0, OBranch JSON_ARRAY 3)].
Definition focus_text (m : option json_tree) (path : list nat) : option (list str) :=
  match m with
  | Some t => match @print_above_and_below tpd test_env 1000 t 80 path FStart with
              | Ok (_, lft, rgt, _) => Some [lft; rgt] | _ => None end
  | None => None
  end.
Definition mixed_document : option json_tree := hd_error (th_trees (run_schedule true schedule_5 0)).
Example C77_mixed_refuted :
  no_clone_no_reset schedule_5 /\
  ids_of (run_schedule true schedule_5) 0 = [[2; 2; 0; 1; 0; 1]]%N /\
  focus_text mixed_document [0] = Some (map u ["["; "[""c"", ""d""], ""a"", ""b""]"]) /\
  focus_text mixed_document [1] = Some (map u ["[[""c"", "; """d""], ""a"", ""b""]"]).
Proof.
  split.
  - intros who o H. repeat destruct H as [H|H]; try (injection H as <- <-; split; discriminate). destruct H.
  - split; [reflexivity|]. split; vm_compute; reflexivity.
Qed.
(** When one thread makes all the nodes, the focus is before "a". *)
Example C77_not_mixed :
  focus_text (hd_error (th_trees (run_schedule true [(0, a_string "c"); (0, a_string "d"); (0, OBranch JSON_ARRAY 2);
    (0, a_string "a"); (0, a_string "b"); (0, OBranch JSON_ARRAY 3)] 0))) [1] =
  Some (map u ["[[""c"", ""d""], "; """a"", ""b""]"]).
Proof. vm_compute. reflexivity. Qed.
