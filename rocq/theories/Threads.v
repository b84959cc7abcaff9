(** Several threads that create trees: the id counter is thread-local
    (src/doc_examples/tree.rs:11-22), a [Tree] can be sent to another thread (it is
    [Send] if its style is) and cloned (tree.rs:41, [derive(Clone)]: with its ids). *)
From Verif Require Export TreeDoc.

Set Implicit Arguments.

Section Threads.
Context {ts : TreeStyle}.
Variable checks : bool.   (* compiled with overflow checks? *)

(** What a thread can do.  It owns a stack of trees. *)
Inductive tree_op : Type :=
| OText (n : tree_notation) (s : str)          (* Tree::new_text *)
| OBranch (n : tree_notation) (k : nat)        (* Tree::new_branch with the last k trees *)
| OComment                                     (* into_comment, on the last tree *)
| OStyle (s : TS)                              (* with_style *)
| OOverride (l : str) (s : TS)                 (* with_style_override *)
| OClone                                       (* clone the last tree *)
| ODrop                                        (* drop the last tree *)
| OTakeApart                                   (* its children instead of the last tree: [contents] is public *)
| OPick (i : nat)                              (* move a tree to the top *)
| OReset                                       (* Tree::reset_id *)
| OSend (to : nat)                             (* send the last tree to another thread *)
| OReceive.                                    (* receive the oldest tree that was sent, if there is one *)

(** tree.rs:14-16: [ID_COUNTER], one per thread; the trees the thread owns, those
    that were sent to it, and whether it has not panicked. *)
Record thread : Type := Thread {
  th_counter : N;
  th_trees : list tree;
  th_inbox : list tree;
  th_alive : bool
}.
(** A new thread: tree.rs:15 [Cell::new(0)]. *)
Definition thread_start : thread := Thread 0 [] [] true.
(** A panic drops the trees. *)
Definition thread_panicked (th : thread) : thread := Thread (th_counter th) [] [] false.

Definition new_tree (th : thread) (r : res Empty_set (tree * N)) (rest : list tree) : thread :=
  match r with
  | Ok (t, c) => Thread c (t :: rest) (th_inbox th) true
  | _ => thread_panicked th
  end.
Definition with_last (th : thread) (f : tree -> list tree) : thread :=
  match th_trees th with
  | t :: rest => Thread (th_counter th) (f t ++ rest) (th_inbox th) true
  | [] => thread_panicked th
  end.

(** One operation: the thread afterwards, and what was sent to whom. *)
Definition do_op (op : tree_op) (th : thread) : thread * option (nat * tree) :=
  if th_alive th then
    match op with
    | OText n s => (new_tree th (tree_new_text checks n s (th_counter th)) (th_trees th), None)
    | OBranch n k =>
        if length (th_trees th) <? k then (thread_panicked th, None)
        else (new_tree th (tree_new_branch checks n (rev (firstn k (th_trees th))) (th_counter th)) (skipn k (th_trees th)), None)
    | OComment => (with_last th (fun t => [tree_into_comment t]), None)
    | OStyle s => (with_last th (fun t => [tree_with_style s t]), None)
    | OOverride l s => (with_last th (fun t => [tree_with_override l s t]), None)
    | OClone => (with_last th (fun t => [t; t]), None)
    | ODrop => (with_last th (fun t => []), None)
    | OTakeApart => (with_last th (fun t => match t with TreeText _ _ => [t] | TreeKids _ ks => ks end), None)
    | OPick i =>
        match nth_error (th_trees th) i with
        | Some t => (Thread (th_counter th) (t :: firstn i (th_trees th) ++ skipn (S i) (th_trees th)) (th_inbox th) true, None)
        | None => (thread_panicked th, None)
        end
    | OReset => (Thread tree_reset_id (th_trees th) (th_inbox th) true, None)
    | OSend to =>
        (with_last th (fun t => []), match th_trees th with t :: _ => Some (to, t) | [] => None end)
    | OReceive =>
        match th_inbox th with
        | t :: inbox => (Thread (th_counter th) (t :: th_trees th) inbox true, None)
        | [] => (th, None)
        end
    end
  else (th, None).

(** All the threads. *)
Definition system : Type := nat -> thread.
Definition put_thread (sys : system) (who : nat) (th : thread) : system :=
  fun x => if x =? who then th else sys x.
Definition deliver (sys : system) (message : option (nat * tree)) : system :=
  match message with
  | Some (to, t) =>
      let th := sys to in
      put_thread sys to (Thread (th_counter th) (th_trees th) (th_inbox th ++ [t]) (th_alive th))
  | None => sys
  end.
(** Thread [fst e] does [snd e]. *)
Definition thread_step (sys : system) (e : nat * tree_op) : system :=
  let '(th, message) := do_op (snd e) (sys (fst e)) in
  deliver (put_thread sys (fst e) th) message.
(** A schedule: who does what, in which order. *)
Definition run_schedule (schedule : list (nat * tree_op)) : system :=
  fold_left thread_step schedule (fun _ => thread_start).
End Threads.
