(** How much work printing is: the number of iterations of the loops of
    src/pretty_print.rs.

    Every loop of Printer.v is counted, with the loops inside it; so are the
    blocks and chunks inspected by [seek_child] and the path.  An iteration does
    a bounded number of other things: at most three notations are evaluated in
    it.  The cost functions follow the functions of Printer.v line by line:
    [f_cost x] is the number of iterations in [f x], until it returns or, with
    an error, stops. *)
From Verif Require Export SpecMask.

Set Implicit Arguments.

(** The iterations of a loop; [cost s] is the cost of the iteration from state [s]. *)
Fixpoint loop_cost {X S R : Type} (cost : S -> nat) (fuel : nat) (body : S -> res X (step S R)) (s : S) : nat :=
  match fuel with
  | O => 0
  | S fuel' =>
      cost s +
      match body s with
      | Ok (Next s') => loop_cost cost fuel' body s'
      | _ => 0
      end
  end.

(** The cost of what follows a call, if it returned a result. *)
Definition after {X A : Type} (r : res X A) (k : A -> nat) : nat :=
  match r with Ok a => k a | Fail _ => 0 end.

Section Cost.
Context {pd : PrettyDoc} {env : Env}.

(** pretty_print.rs:754-809 [fits]. *)
Definition fits_cost (fuel : nat) (width : N) (at_eol : bool) (n : cnote) (cs : list chunk) : nat :=
  loop_cost (fun _ => 1) fuel fits_body (width, at_eol, [n], cs).

(** pretty_print.rs:677-699 [choose]. *)
Definition choose_cost (fuel : nat) (p : printer) (b : block) (opt1 opt2 : delayed) : nat :=
  after (chunk_new opt1) (fun c1 =>
    if (bl_prefix_len b <=? pr_width p)%N
    then fits_cost fuel (pr_width p - bl_prefix_len b)%N (bl_at_eol b) (ck_note c1) (bl_chunks b)
    else 0).

(** pretty_print.rs:596-623 [expand_focusing_first_block]. *)
Definition expand_first_cost (fuel : nat) (p : printer) (b : block) (c : chunk) : nat :=
  loop_cost (fun _ => 1) fuel expand_first_body ([c], p, b).

(** pretty_print.rs:635-672 [expand_focusing_last_block]. *)
Definition expand_last_cost (fuel : nat) (p : printer) (b : block) (c : chunk) : nat :=
  loop_cost (fun _ => 1) fuel expand_last_body ([], [c], p, b).

(** One iteration of the loops that take the next chunk off a block:
    pretty_print.rs:309-325, 338-352, 392-408, 435-456, 478-506.  Children and
    choices are expanded by [expand]. *)
Definition chunk_cost (fuel : nat) (expand : printer -> block -> chunk -> nat) (s : printer * block) : nat :=
  let '(p, b0) := s in
  1 + match bl_chunks b0 with
      | [] => 0
      | c :: cs =>
          let b := set_chunks b0 cs in
          match ck_note c with
          | CChild _ d => after (chunk_new d) (expand p b)
          | CChoice d1 d2 => choose_cost fuel p b d1 d2 + after (choose fuel p b d1 d2) (expand p b)
          | _ => 0
          end
      end.

(** pretty_print.rs:301-327 [print_next_line]. *)
Definition print_next_line_cost (fuel : nat) (p : printer) : nat :=
  match pr_next p with
  | [] => 0
  | b :: bs => loop_cost (chunk_cost fuel (expand_first_cost fuel)) fuel (print_next_body fuel) (set_next p bs, b)
  end.

(** pretty_print.rs:330-354 [print_prev_line]. *)
Definition print_prev_line_cost (fuel : nat) (p : printer) : nat :=
  match pr_prev p with
  | [] => 0
  | b :: bs => loop_cost (chunk_cost fuel (expand_last_cost fuel)) fuel (print_prev_body fuel) (set_prev p bs, b)
  end.

(** pretty_print.rs:382-410 [seek_end]. *)
Definition seek_end_cost (fuel : nat) (p : printer) (c : chunk) : nat :=
  match pr_next p with
  | [] => 0
  | b :: bs =>
      expand_last_cost fuel (set_next p bs) b c +
      after (expand_last fuel (set_next p bs) b c) (fun s =>
        loop_cost
          (fun s => if Nat.leb (length (bl_chunks (snd s))) (length (bl_chunks b)) then 1
                    else chunk_cost fuel (expand_last_cost fuel) s)
          fuel (seek_end_body fuel (length (bl_chunks b))) s)
  end.

(** pretty_print.rs:414-421 [seek_start]. *)
Definition seek_start_cost (fuel : nat) (p : printer) (c : chunk) : nat :=
  match pr_next p with
  | [] => 0
  | b :: bs => expand_first_cost fuel (set_next p bs) b c
  end.

(** pretty_print.rs:434-458, one iteration of the outer loop of [seek_mark]. *)
Definition seek_mark_outer_cost (fuel : nat) (id : Id) (p : printer) : nat :=
  1 + match pr_next p with
      | [] => 0
      | b :: bs => loop_cost (chunk_cost fuel (expand_first_cost fuel)) fuel (seek_mark_body fuel id) (set_next p bs, b)
      end.

(** pretty_print.rs:425-461 [seek_mark]. *)
Definition seek_mark_cost (fuel : nat) (p : printer) (c : chunk) : nat :=
  match pr_next p with
  | [] => 0
  | b :: bs =>
      expand_first_cost fuel (set_next p bs) b c +
      after (expand_first fuel (set_next p bs) b c) (fun '(p, b) =>
        loop_cost (seek_mark_outer_cost fuel (ck_id c)) fuel (seek_mark_outer fuel (ck_id c)) (push_next p b))
  end.

(** pretty_print.rs:477-508, one iteration of the outer loop of [seek_text]. *)
Definition seek_text_outer_cost (fuel : nat) (text_pos : nat) (p : printer) : nat :=
  1 + match pr_next p with
      | [] => 0
      | b :: bs => loop_cost (chunk_cost fuel (expand_first_cost fuel)) fuel (seek_text_body fuel text_pos) (set_next p bs, b)
      end.

(** pretty_print.rs:465-511 [seek_text]. *)
Definition seek_text_cost (fuel : nat) (p : printer) (c : chunk) (text_pos : nat) : nat :=
  match pr_next p with
  | [] => 0
  | b :: bs =>
      expand_first_cost fuel (set_next p bs) b c +
      after (expand_first fuel (set_next p bs) b c) (fun '(p, b) =>
        loop_cost (seek_text_outer_cost fuel text_pos) fuel (seek_text_outer fuel text_pos) (push_next p b))
  end.

(** pretty_print.rs:534-548: the blocks and the chunks that are looked at to
    find a block with a relevant chunk. *)
Fixpoint scan_cost (parent_id : Id) (child_index : nat) (cs : list chunk) : nat :=
  match cs with
  | [] => 0
  | c :: cs' => 1 + if relevant_chunk parent_id child_index c then 0 else scan_cost parent_id child_index cs'
  end.
Fixpoint walk_cost (parent_id : Id) (child_index : nat) (next : list block) : nat :=
  match next with
  | [] => 0
  | b :: bs =>
      1 + scan_cost parent_id child_index (bl_chunks b) +
      if contains_relevant_chunk parent_id child_index b then 0 else walk_cost parent_id child_index bs
  end.

(** pretty_print.rs:557-582, one iteration of the inner loop of [seek_child]. *)
Definition seek_child_body_cost (fuel : nat) (parent_id : Id) (child_index : nat) (s : printer * block) : nat :=
  match bl_chunks (snd s) with
  | c :: _ =>
      match ck_note c with
      | CChild i _ =>
          if id_eqb (ck_id c) parent_id && Nat.eqb i child_index then 1 else chunk_cost fuel (expand_first_cost fuel) s
      | _ => chunk_cost fuel (expand_first_cost fuel) s
      end
  | [] => 1
  end.

(** pretty_print.rs:528-583, one iteration of the outer loop of [seek_child]. *)
Definition seek_child_outer_cost (fuel : nat) (parent_id : Id) (child_index : nat) (p : printer) : nat :=
  1 + walk_cost parent_id child_index (pr_next p) +
  let '(prev, next) := walk parent_id child_index (pr_prev p) (pr_next p) in
  match next with
  | [] => 0
  | b :: bs =>
      loop_cost (seek_child_body_cost fuel parent_id child_index) fuel (seek_child_body fuel parent_id child_index)
        (Printer (pr_width p) prev bs, b)
  end.

(** pretty_print.rs:516-584 [seek_child]. *)
Definition seek_child_cost (fuel : nat) (p : printer) (parent : chunk) (child_index : nat) : nat :=
  match pr_next p with
  | [] => 0
  | b :: bs =>
      expand_first_cost fuel (set_next p bs) b parent +
      after (expand_first fuel (set_next p bs) b parent) (fun '(p, b) =>
        loop_cost (seek_child_outer_cost fuel (ck_id parent) child_index) fuel
          (seek_child_outer fuel (ck_id parent) child_index) (push_next p b))
  end.

(** pretty_print.rs:369-371, the [for] loop of [seek]. *)
Fixpoint seek_path_cost (fuel : nat) (p : printer) (c : chunk) (path : list nat) : nat :=
  match path with
  | [] => 0
  | i :: path' =>
      1 + (seek_child_cost fuel p c i + after (seek_child fuel p c i) (fun '(p, c) => seek_path_cost fuel p c path'))
  end.

(** pretty_print.rs:358-378 [seek]. *)
Definition seek_cost (fuel : nat) (p : printer) (doc : D) (path : list nat) (ft : focus_target)
    (root_style : option Sty) : nat :=
  after (with_optional_style doc root_style) (fun note =>
  after (chunk_new note) (fun c =>
    seek_path_cost fuel p c path +
    after (seek_path fuel p c path) (fun '(p, c) =>
      match ft with
      | FStart => seek_start_cost fuel p c
      | FEnd => seek_end_cost fuel p c
      | FText pos => seek_text_cost fuel p c pos
      | FMark => seek_mark_cost fuel p c
      end))).

(** pretty_print.rs:32-71 [pretty_print]. *)
Definition pretty_print_cost (fuel : nat) (doc : D) (width : N) (path : list nat) (ft : focus_target)
    (root_style : option Sty) : nat :=
  after (printer_new width) (fun p =>
    seek_cost fuel p doc path ft root_style +
    after (seek fuel p doc path ft root_style) (print_next_line_cost fuel)).

(** At most [k] lines from an iterator, and the focused line with [ku] lines
    above it and [kd] lines below it (see [window] in SpecMask.v). *)
Fixpoint take_lines_cost (next : printer -> pres (printer * option line)) (next_cost : printer -> nat)
    (k : nat) (p : printer) : nat :=
  match k with
  | O => 0
  | S k' =>
      next_cost p +
      after (next p) (fun '(p, ol) =>
        match ol with
        | None => 0
        | Some _ => take_lines_cost next next_cost k' p
        end)
  end.

Definition window_cost (fuel : nat) (doc : D) (w : N) (path : list nat) (ft : focus_target) (st : option Sty)
    (ku kd : nat) : nat :=
  pretty_print_cost fuel doc w path ft st +
  after (pretty_print fuel doc w path ft st) (fun '(up, fl, down) =>
    take_lines_cost (up_next fuel) (print_prev_line_cost fuel) ku up +
    after (take_lines (up_next fuel) ku up) (fun _ =>
      take_lines_cost (down_next fuel) (print_next_line_cost fuel) kd down)).

(** pretty_print.rs:77-88 [pretty_print_to_string]. *)
Definition to_string_cost (fuel : nat) (doc : D) (width : N) : nat :=
  pretty_print_cost fuel doc width [] FStart None +
  after (pretty_print fuel doc width [] FStart None) (fun '(_, fl, down) =>
    loop_cost (fun '(p, _) => 1 + print_next_line_cost fuel p) fuel (to_string_body fuel) (down, focused_to_string fl)).

End Cost.
