(** How much work evaluating notations is: the calls of [eval], and the calls
    of the methods of the document.

    Cost.v counts the iterations of the loops of src/pretty_print.rs; this file
    counts what happens inside of them.  Every call of
    [DelayedConsolidatedNotation::eval] counts one, and every call of a method of
    [PrettyDoc] counts [q]: with [q = 0] only the calls of [eval] are counted,
    with [q = 1] both.  The functions follow those of Consolidated.v and
    Printer.v line by line; [f_calls x] counts the calls made by [f x] until it
    returns or, with an error, stops. *)
From Verif Require Export Cost.

Set Implicit Arguments.

Section Calls.
Context {pd : PrettyDoc} {env : Env}.
Variable q : nat.

(** consolidated_notation.rs:318-341, computing [doc_to_inspect]. *)
Definition inspect_calls (d : delayed) (pos : checkpos) : nat :=
  match pos with
  | Here | RightChild => 0
  | CPChild i =>
      q + after (lift (m_num_children (dl_doc d))) (fun nc =>
        match nc with
        | None => 0
        | Some n => match normalize_child_index i n with None => 0 | Some _ => q end
        end)
  | LeftChild =>
      match dl_join d with
      | None => 0
      | Some jp => match jp_index jp with O => 0 | S _ => q end
      end
  end.

(** [Left], consolidated_notation.rs:403-425; see [left_h] in Consolidated.v. *)
Fixpoint left_calls (evf evj : (delayed -> nat) -> delayed -> nat) (k : nat) (d : delayed) {struct k} : nat :=
  match dl_join d with
  | None => 0
  | Some jp =>
      if Nat.eqb (jp_index jp) 1
      then evf (fun _ => 0) (set_join d None)
      else
        match k with
        | O => 0
        | S k' =>
            q + after (lift (m_unwrap_prev_sibling (jp_child jp) (jp_parent jp) k')) (fun child =>
              evj (left_calls evf evj k')
                (set_join d (Some (JoinPos (jp_parent jp) child k' (jp_first jp) (jp_join jp)))))
        end
  end.

(** consolidated_notation.rs:251-440 [eval]; see [eval_n] in Consolidated.v.
    Every recursive call of [eval] is the last thing its caller does, so the
    number of calls is also the depth of the recursion. *)
Fixpoint eval_n_calls (lc : delayed -> nat) (n : note) (d : delayed) {struct n} : nat :=
  S match n with
  | Empty | EndOfLine | Newline | Literal _ | FocusMark | Concat _ _ => 0
  | Text =>
      q + after (lift (m_num_children (dl_doc d))) (fun nc =>
        match nc with Some _ => 0 | None => q end)
  | Flat x => eval_n_calls lc x (set_flat d)
  | Indent prefix label x =>
      match label with
      | Some l =>
          q + after (lift (m_lookup_style (dl_doc d) l)) (fun ls =>
            eval_n_calls lc x (set_indent d (Segment prefix (str_width prefix) (style_combine (dl_style d) ls) :: dl_indent d)))
      | None => eval_n_calls lc x (set_indent d (Segment prefix (str_width prefix) (dl_style d) :: dl_indent d))
      end
  | Choice a b => if dl_flat d then eval_n_calls lc a d else 0
  | Check c pos a b =>
      inspect_calls d pos + after (doc_to_inspect d pos) (fun x =>
        q + after (lift (m_condition x c)) (fun r =>
          if r : bool then eval_n_calls lc a d else eval_n_calls lc b d))
  | Child i =>
      q + after (lift (m_num_children (dl_doc d))) (fun nc =>
        match nc with
        | None => 0
        | Some len =>
            match normalize_child_index i len with
            | None => 0
            | Some index =>
                q + after (lift (m_unwrap_child (dl_doc d) index)) (fun x =>
                  q + after (lift (m_notation x)) (fun _ => q))
            end
        end)
  | Style l x =>
      q + after (lift (m_lookup_style (dl_doc d) l)) (fun ls =>
        eval_n_calls lc x (set_style d (style_combine (dl_style d) ls)))
  | Count zero one many =>
      q + after (lift (m_num_children (dl_doc d))) (fun nc =>
        match nc with
        | None => 0
        | Some O => eval_n_calls lc zero d
        | Some (S O) => eval_n_calls lc one d
        | Some (S (S _)) => eval_n_calls lc many d
        end)
  | Fold first join =>
      q + after (lift (m_num_children (dl_doc d))) (fun nc =>
        match nc with
        | None => 0
        | Some O => 0
        | Some (S O) => eval_n_calls lc first d
        | Some (S m) =>
            q + after (lift (m_unwrap_last_child (dl_doc d))) (fun child =>
              eval_n_calls
                (left_calls (fun h x => eval_n_calls h first x) (fun h x => eval_n_calls h join x) m)
                join
                (set_join d (Some (JoinPos (dl_doc d) child m first join))))
        end)
  | Left => match dl_join d with None => 0 | Some _ => lc d end
  | Right =>
      match dl_join d with
      | None => 0
      | Some jp => q + after (lift (m_notation (jp_child jp))) (fun _ => q)
      end
  end.

Definition left_of_calls (j : option joinpos) : delayed -> nat :=
  match j with
  | None => fun _ => 0
  | Some jp =>
      left_calls (fun h x => eval_n_calls h (jp_first jp) x) (fun h x => eval_n_calls h (jp_join jp) x) (jp_index jp)
  end.

(** consolidated_notation.rs:251 [eval(self)]. *)
Definition eval_calls (d : delayed) : nat := eval_n_calls (left_of_calls (dl_join d)) (dl_note d) d.

(** pretty_print.rs:105-110 [Chunk::new]. *)
Definition chunk_new_calls (d : delayed) : nat := q + after (lift (m_id (dl_doc d))) (fun _ => eval_calls d).

(** consolidated_notation.rs:228-244 [with_optional_style]. *)
Definition root_calls (doc : D) : nat := q + after (lift (m_notation doc)) (fun _ => q).

(** pretty_print.rs:768-808, one iteration of the loop of [fits]. *)
Definition fits_body_calls (s : N * bool * list cnote * list chunk) : nat :=
  let '(_, _, notations, next_chunks) := s in
  let process (n : cnote) :=
    match n with
    | CChild _ d | CChoice _ d => eval_calls d
    | CConcat d1 d2 => eval_calls d2 + after (eval d2) (fun _ => eval_calls d1)
    | _ => 0
    end in
  match notations with
  | n :: _ => process n
  | [] => match next_chunks with [] => 0 | c :: _ => process (ck_note c) end
  end.

(** pretty_print.rs:754-809 [fits]. *)
Definition fits_calls (fuel : nat) (width : N) (at_eol : bool) (n : cnote) (cs : list chunk) : nat :=
  loop_cost fits_body_calls fuel fits_body (width, at_eol, [n], cs).

(** pretty_print.rs:677-699 [choose]. *)
Definition choose_calls (fuel : nat) (p : printer) (b : block) (opt1 opt2 : delayed) : nat :=
  chunk_new_calls opt1 +
  after (chunk_new opt1) (fun c1 =>
    if (bl_prefix_len b <=? pr_width p)%N
    then
      fits_calls fuel (pr_width p - bl_prefix_len b)%N (bl_at_eol b) (ck_note c1) (bl_chunks b) +
      after (fits fuel (pr_width p - bl_prefix_len b)%N (bl_at_eol b) (ck_note c1) (bl_chunks b)) (fun f =>
        if f : bool then 0 else chunk_new_calls opt2)
    else chunk_new_calls opt2).

(** pretty_print.rs:606-621, one iteration of [expand_focusing_first_block]. *)
Definition first_body_calls (s : list chunk * printer * block) : nat :=
  let '(stack, _, _) := s in
  match stack with
  | c :: _ =>
      match ck_note c with
      | CConcat l r => chunk_new_calls l + after (chunk_new l) (fun _ => chunk_new_calls r)
      | _ => 0
      end
  | [] => 0
  end.
Definition expand_first_calls (fuel : nat) (p : printer) (b : block) (c : chunk) : nat :=
  loop_cost first_body_calls fuel expand_first_body ([c], p, b).

(** pretty_print.rs:646-668, one iteration of [expand_focusing_last_block]. *)
Definition last_body_calls (s : list chunk * list chunk * printer * block) : nat :=
  let '(_, stack, _, _) := s in
  match stack with
  | c :: _ =>
      match ck_note c with
      | CConcat l r => chunk_new_calls r + after (chunk_new r) (fun _ => chunk_new_calls l)
      | _ => 0
      end
  | [] => 0
  end.
Definition expand_last_calls (fuel : nat) (p : printer) (b : block) (c : chunk) : nat :=
  loop_cost last_body_calls fuel expand_last_body ([], [c], p, b).

(** One iteration of the loops that take the next chunk off a block:
    pretty_print.rs:309-325, 338-352, 392-408, 435-456, 478-506. *)
Definition chunk_calls (fuel : nat) (expand : printer -> block -> chunk -> nat) (s : printer * block) : nat :=
  let '(p, b0) := s in
  match bl_chunks b0 with
  | [] => 0
  | c :: cs =>
      let b := set_chunks b0 cs in
      match ck_note c with
      | CChild _ d => chunk_new_calls d + after (chunk_new d) (expand p b)
      | CChoice d1 d2 => choose_calls fuel p b d1 d2 + after (choose fuel p b d1 d2) (expand p b)
      | _ => 0
      end
  end.

(** pretty_print.rs:301-327 [print_next_line]. *)
Definition print_next_line_calls (fuel : nat) (p : printer) : nat :=
  match pr_next p with
  | [] => 0
  | b :: bs => loop_cost (chunk_calls fuel (expand_first_calls fuel)) fuel (print_next_body fuel) (set_next p bs, b)
  end.

(** pretty_print.rs:330-354 [print_prev_line]. *)
Definition print_prev_line_calls (fuel : nat) (p : printer) : nat :=
  match pr_prev p with
  | [] => 0
  | b :: bs => loop_cost (chunk_calls fuel (expand_last_calls fuel)) fuel (print_prev_body fuel) (set_prev p bs, b)
  end.

(** pretty_print.rs:382-410 [seek_end]. *)
Definition seek_end_calls (fuel : nat) (p : printer) (c : chunk) : nat :=
  match pr_next p with
  | [] => 0
  | b :: bs =>
      expand_last_calls fuel (set_next p bs) b c +
      after (expand_last fuel (set_next p bs) b c) (fun s =>
        loop_cost
          (fun s => if Nat.leb (length (bl_chunks (snd s))) (length (bl_chunks b)) then 0
                    else chunk_calls fuel (expand_last_calls fuel) s)
          fuel (seek_end_body fuel (length (bl_chunks b))) s)
  end.

(** pretty_print.rs:414-421 [seek_start]. *)
Definition seek_start_calls (fuel : nat) (p : printer) (c : chunk) : nat :=
  match pr_next p with
  | [] => 0
  | b :: bs => expand_first_calls fuel (set_next p bs) b c
  end.

(** pretty_print.rs:434-458, one iteration of the outer loop of [seek_mark]. *)
Definition seek_mark_outer_calls (fuel : nat) (id : Id) (p : printer) : nat :=
  match pr_next p with
  | [] => 0
  | b :: bs => loop_cost (chunk_calls fuel (expand_first_calls fuel)) fuel (seek_mark_body fuel id) (set_next p bs, b)
  end.

(** pretty_print.rs:425-461 [seek_mark]. *)
Definition seek_mark_calls (fuel : nat) (p : printer) (c : chunk) : nat :=
  match pr_next p with
  | [] => 0
  | b :: bs =>
      expand_first_calls fuel (set_next p bs) b c +
      after (expand_first fuel (set_next p bs) b c) (fun '(p, b) =>
        loop_cost (seek_mark_outer_calls fuel (ck_id c)) fuel (seek_mark_outer fuel (ck_id c)) (push_next p b))
  end.

(** pretty_print.rs:477-508, one iteration of the outer loop of [seek_text]. *)
Definition seek_text_outer_calls (fuel : nat) (text_pos : nat) (p : printer) : nat :=
  match pr_next p with
  | [] => 0
  | b :: bs => loop_cost (chunk_calls fuel (expand_first_calls fuel)) fuel (seek_text_body fuel text_pos) (set_next p bs, b)
  end.

(** pretty_print.rs:465-511 [seek_text]. *)
Definition seek_text_calls (fuel : nat) (p : printer) (c : chunk) (text_pos : nat) : nat :=
  match pr_next p with
  | [] => 0
  | b :: bs =>
      expand_first_calls fuel (set_next p bs) b c +
      after (expand_first fuel (set_next p bs) b c) (fun '(p, b) =>
        loop_cost (seek_text_outer_calls fuel text_pos) fuel (seek_text_outer fuel text_pos) (push_next p b))
  end.

(** pretty_print.rs:557-582, one iteration of the inner loop of [seek_child]. *)
Definition seek_child_body_calls (fuel : nat) (parent_id : Id) (child_index : nat) (s : printer * block) : nat :=
  match bl_chunks (snd s) with
  | c :: _ =>
      match ck_note c with
      | CChild i _ =>
          if id_eqb (ck_id c) parent_id && Nat.eqb i child_index then 0 else chunk_calls fuel (expand_first_calls fuel) s
      | _ => chunk_calls fuel (expand_first_calls fuel) s
      end
  | [] => 0
  end.

(** pretty_print.rs:528-583, one iteration of the outer loop of [seek_child]. *)
Definition seek_child_outer_calls (fuel : nat) (parent_id : Id) (child_index : nat) (p : printer) : nat :=
  let '(prev, next) := walk parent_id child_index (pr_prev p) (pr_next p) in
  match next with
  | [] => 0
  | b :: bs =>
      let s := (Printer (pr_width p) prev bs, b) in
      loop_cost (seek_child_body_calls fuel parent_id child_index) fuel (seek_child_body fuel parent_id child_index) s +
      after (loop fuel (seek_child_body fuel parent_id child_index) s) (fun r =>
        match r with ScFound _ d => chunk_new_calls d | _ => 0 end)
  end.

(** pretty_print.rs:516-584 [seek_child]. *)
Definition seek_child_calls (fuel : nat) (p : printer) (parent : chunk) (child_index : nat) : nat :=
  match pr_next p with
  | [] => 0
  | b :: bs =>
      expand_first_calls fuel (set_next p bs) b parent +
      after (expand_first fuel (set_next p bs) b parent) (fun '(p, b) =>
        loop_cost (seek_child_outer_calls fuel (ck_id parent) child_index) fuel
          (seek_child_outer fuel (ck_id parent) child_index) (push_next p b))
  end.

(** pretty_print.rs:369-371, the [for] loop of [seek]. *)
Fixpoint seek_path_calls (fuel : nat) (p : printer) (c : chunk) (path : list nat) : nat :=
  match path with
  | [] => 0
  | i :: path' =>
      seek_child_calls fuel p c i + after (seek_child fuel p c i) (fun '(p, c) => seek_path_calls fuel p c path')
  end.

(** pretty_print.rs:358-378 [seek]. *)
Definition seek_calls (fuel : nat) (p : printer) (doc : D) (path : list nat) (ft : focus_target)
    (root_style : option Sty) : nat :=
  root_calls doc +
  after (with_optional_style doc root_style) (fun note =>
  chunk_new_calls note +
  after (chunk_new note) (fun c =>
    seek_path_calls fuel p c path +
    after (seek_path fuel p c path) (fun '(p, c) =>
      match ft with
      | FStart => seek_start_calls fuel p c
      | FEnd => seek_end_calls fuel p c
      | FText pos => seek_text_calls fuel p c pos
      | FMark => seek_mark_calls fuel p c
      end))).

(** pretty_print.rs:32-71 [pretty_print]. *)
Definition pretty_print_calls (fuel : nat) (doc : D) (width : N) (path : list nat) (ft : focus_target)
    (root_style : option Sty) : nat :=
  after (printer_new width) (fun p =>
    seek_calls fuel p doc path ft root_style +
    after (seek fuel p doc path ft root_style) (print_next_line_calls fuel)).

(** The focused line with [ku] lines above it and [kd] lines below it. *)
Definition window_calls (fuel : nat) (doc : D) (w : N) (path : list nat) (ft : focus_target) (st : option Sty)
    (ku kd : nat) : nat :=
  pretty_print_calls fuel doc w path ft st +
  after (pretty_print fuel doc w path ft st) (fun '(up, fl, down) =>
    take_lines_cost (up_next fuel) (print_prev_line_calls fuel) ku up +
    after (take_lines (up_next fuel) ku up) (fun _ =>
      take_lines_cost (down_next fuel) (print_next_line_calls fuel) kd down)).

(** pretty_print.rs:77-88 [pretty_print_to_string]. *)
Definition to_string_calls (fuel : nat) (doc : D) (width : N) : nat :=
  pretty_print_calls fuel doc width [] FStart None +
  after (pretty_print fuel doc width [] FStart None) (fun '(_, fl, down) =>
    loop_cost (fun '(p, _) => print_next_line_calls fuel p) fuel (to_string_body fuel) (down, focused_to_string fl)).

End Calls.
