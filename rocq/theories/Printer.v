(** Model of src/pretty_print.rs.

    Conventions.  A Rust [Vec] used as a stack is a list whose head is the top
    of the stack (the last element of the [Vec]); [segments] is kept in printing
    order.  [&mut self] and [&mut Block] become values passed in and returned.
    Simplification: when a function returns an error, the half-updated printer
    is dropped (the printer after an error is not modelled).  Every loop is a
    [loop fuel]; [fuel] bounds each loop separately. *)
From Verif Require Export Consolidated.

Set Implicit Arguments.

Section Printer.
Context {pd : PrettyDoc} {env : Env}.

(** pretty_print.rs:90-93 [Chunk]. *)
Record chunk : Type := Chunk { ck_note : cnote; ck_id : Id }.

(** pretty_print.rs:105-110 [Chunk::new]: [id] first, then [eval]. *)
Definition chunk_new (d : delayed) : pres chunk :=
  i <- lift (m_id (dl_doc d)) ;;
  c <- eval d ;;
  Ok (Chunk c i).

(** pretty_print.rs:115-125 [FocusTarget]. *)
Inductive focus_target : Type :=
| FStart | FEnd | FMark | FText (n : nat).

(** pretty_print.rs:128-132 [Line]. *)
Definition line : Type := list segment.

(** pretty_print.rs:135-140 [FocusedLine]. *)
Record focused_line : Type := FocusedLine {
  left_segments : list segment; right_segments : list segment }.

(** pretty_print.rs:221-232 [Block]. *)
Record block : Type := Block {
  bl_segments : list segment;   (* leftmost first *)
  bl_prefix_len : N;
  bl_at_eol : bool;
  bl_chunks : list chunk        (* leftmost first: top of the stack first *)
}.

Definition set_chunks (b : block) (cs : list chunk) : block :=
  Block (bl_segments b) (bl_prefix_len b) (bl_at_eol b) cs.
Definition set_eol (b : block) : block :=
  Block (bl_segments b) (bl_prefix_len b) true (bl_chunks b).

(** pretty_print.rs:235-250 [Block::new].  The [while let] over the linked list
    followed by [reverse] is [rev]. *)
Definition block_new (ind : indentation) (cs : list chunk) : pres block :=
  let segs := rev ind in
  w <- sum16 ovf (map seg_width segs) ;;
  Ok (Block segs w false cs).

(** pretty_print.rs:252-263 [Block::push_text]. *)
Definition push_text (b : block) (t : textual) : pres block :=
  if bl_at_eol b then Err TextAfterEndOfLine
  else
    w <- add16 ovf (bl_prefix_len b) (tx_width t) ;;
    Ok (Block (bl_segments b ++ [Segment (tx_str t) (tx_width t) (tx_style t)])
              w (bl_at_eol b) (bl_chunks b)).

(** pretty_print.rs:265-271 [Block::print]. *)
Definition block_print (b : block) : pres line :=
  match bl_chunks b with
  | [] => Ok (bl_segments b)
  | _ => Panic PPrintAssert
  end.

(** pretty_print.rs:281-288 [Printer]. *)
Record printer : Type := Printer {
  pr_width : N;
  pr_prev : list block;   (* previous line first *)
  pr_next : list block    (* next line first *)
}.

Definition push_next (p : printer) (b : block) : printer :=
  Printer (pr_width p) (pr_prev p) (b :: pr_next p).
Definition push_prev (p : printer) (b : block) : printer :=
  Printer (pr_width p) (b :: pr_prev p) (pr_next p).
Definition set_next (p : printer) (bs : list block) : printer :=
  Printer (pr_width p) (pr_prev p) bs.
Definition set_prev (p : printer) (bs : list block) : printer :=
  Printer (pr_width p) bs (pr_next p).

(** pretty_print.rs:291-298 [Printer::new]. *)
Definition printer_new (width : N) : pres printer :=
  b <- block_new [] [] ;;
  Ok (Printer width [] [b]).

(** pretty_print.rs:768-808, one iteration of the loop of [fits].  State:
    remaining width, at_eol, stack of notations, remaining chunks. *)
Definition fits_body (s : N * bool * list cnote * list chunk)
  : pres (step (N * bool * list cnote * list chunk) bool) :=
  let '(remaining, at_eol, notations, next_chunks) := s in
  let process (n : cnote) (ns : list cnote) (cs : list chunk) :=
    match n with
    | CEmpty | CFocusMark => Ok (Next (remaining, at_eol, ns, cs))
    | CTextual t =>
        if at_eol then Ok (Done false)
        else if (tx_width t <=? remaining)%N
        then Ok (Next ((remaining - tx_width t)%N, at_eol, ns, cs))
        else Ok (Done false)
    | CEndOfLine => Ok (Next (remaining, true, ns, cs))
    | CNewline _ => Ok (Done true)
    | CChild _ d => c <- eval d ;; Ok (Next (remaining, at_eol, c :: ns, cs))
    | CConcat d1 d2 =>
        c2 <- eval d2 ;;
        c1 <- eval d1 ;;
        Ok (Next (remaining, at_eol, c1 :: c2 :: ns, cs))
    | CChoice _ d2 => c <- eval d2 ;; Ok (Next (remaining, at_eol, c :: ns, cs))
    end in
  match notations with
  | n :: ns => process n ns next_chunks
  | [] =>
      match next_chunks with
      | [] => Ok (Done true)
      | c :: more => process (ck_note c) [] more
      end
  end.

(** pretty_print.rs:754-809 [fits]. *)
Definition fits (fuel : nat) (width : N) (at_eol : bool) (n : cnote) (cs : list chunk) : pres bool :=
  loop fuel fits_body (width, at_eol, [n], cs).

(** pretty_print.rs:677-699 [choose]. *)
Definition choose (fuel : nat) (p : printer) (b : block) (opt1 opt2 : delayed) : pres chunk :=
  c1 <- chunk_new opt1 ;;
  f <- (if (bl_prefix_len b <=? pr_width p)%N
        then fits fuel (pr_width p - bl_prefix_len b)%N (bl_at_eol b) (ck_note c1) (bl_chunks b)
        else Ok false) ;;
  if f : bool then Ok c1 else chunk_new opt2.

(** pretty_print.rs:606-621, one iteration of the loop of
    [expand_focusing_first_block].  State: stack, printer, block. *)
Definition expand_first_body (s : list chunk * printer * block)
  : pres (step (list chunk * printer * block) (printer * block)) :=
  let '(stack, p, b) := s in
  match stack with
  | [] => Ok (Done (p, b))
  | c :: stack =>
      match ck_note c with
      | CEmpty => Ok (Next (stack, p, b))
      | CTextual _ | CChoice _ _ | CChild _ _ | CEndOfLine | CFocusMark =>
          Ok (Next (stack, p, set_chunks b (c :: bl_chunks b)))
      | CNewline ind =>
          nb <- block_new ind (bl_chunks b) ;;
          Ok (Next (stack, push_next p nb, set_chunks b []))
      | CConcat l r =>
          cl <- chunk_new l ;;
          cr <- chunk_new r ;;
          Ok (Next (cr :: cl :: stack, p, b))
      end
  end.

(** pretty_print.rs:596-623 [expand_focusing_first_block]. *)
Definition expand_first (fuel : nat) (p : printer) (b : block) (c : chunk) : pres (printer * block) :=
  loop fuel expand_first_body ([c], p, b).

(** pretty_print.rs:646-668, one iteration of the loop of
    [expand_focusing_last_block].  State: chunks (rightmost first), stack,
    printer, block. *)
Definition expand_last_body (s : list chunk * list chunk * printer * block)
  : pres (step (list chunk * list chunk * printer * block) (list chunk * printer * block)) :=
  let '(chunks, stack, p, b) := s in
  match stack with
  | [] => Ok (Done (chunks, p, b))
  | c :: stack =>
      match ck_note c with
      | CEmpty => Ok (Next (chunks, stack, p, b))
      | CTextual _ | CChoice _ _ | CChild _ _ | CEndOfLine | CFocusMark =>
          Ok (Next (c :: chunks, stack, p, b))
      | CNewline ind =>
          let pb := Block (bl_segments b) (bl_prefix_len b) (bl_at_eol b) (rev chunks) in
          nb <- block_new ind (bl_chunks b) ;;
          Ok (Next ([], stack, push_prev p pb, nb))
      | CConcat l r =>
          cr <- chunk_new r ;;
          cl <- chunk_new l ;;
          Ok (Next (chunks, cl :: cr :: stack, p, b))
      end
  end.

(** pretty_print.rs:635-672 [expand_focusing_last_block]. *)
Definition expand_last (fuel : nat) (p : printer) (b : block) (c : chunk) : pres (printer * block) :=
  '(chunks, p, b) <- loop fuel expand_last_body ([], [c], p, b) ;;
  Ok (p, set_chunks b (rev chunks ++ bl_chunks b)).

(** pretty_print.rs:309-325, one iteration of the loop of [print_next_line]. *)
Definition print_next_body (fuel : nat) (s : printer * block)
  : pres (step (printer * block) (printer * block)) :=
  let '(p, b0) := s in
  match bl_chunks b0 with
  | [] => Ok (Done (p, b0))
  | c :: cs =>
      let b := set_chunks b0 cs in
      match ck_note c with
      | CFocusMark => Ok (Next (p, b))
      | CEmpty | CNewline _ | CConcat _ _ => Panic PUnexpandedChunk
      | CEndOfLine => Ok (Next (p, set_eol b))
      | CTextual t => b <- push_text b t ;; Ok (Next (p, b))
      | CChild _ d =>
          x <- chunk_new d ;;
          s <- expand_first fuel p b x ;;
          Ok (Next s)
      | CChoice d1 d2 =>
          x <- choose fuel p b d1 d2 ;;
          s <- expand_first fuel p b x ;;
          Ok (Next s)
      end
  end.

(** pretty_print.rs:301-327 [print_next_line]. *)
Definition print_next_line (fuel : nat) (p : printer) : pres (printer * option line) :=
  match pr_next p with
  | [] => Ok (p, None)
  | b :: bs =>
      '(p, b) <- loop fuel (print_next_body fuel) (set_next p bs, b) ;;
      l <- block_print b ;;
      Ok (p, Some l)
  end.

(** pretty_print.rs:338-352, one iteration of the loop of [print_prev_line]. *)
Definition print_prev_body (fuel : nat) (s : printer * block)
  : pres (step (printer * block) (printer * block)) :=
  let '(p, b0) := s in
  match bl_chunks b0 with
  | [] => Ok (Done (p, b0))
  | c :: cs =>
      let b := set_chunks b0 cs in
      match ck_note c with
      | CFocusMark => Ok (Next (p, b))
      | CEmpty | CNewline _ | CConcat _ _ => Panic PUnexpandedChunk
      | CEndOfLine => Ok (Next (p, set_eol b))
      | CTextual t => b <- push_text b t ;; Ok (Next (p, b))
      | CChild _ d =>
          x <- chunk_new d ;;
          s <- expand_last fuel p b x ;;
          Ok (Next s)
      | CChoice d1 d2 =>
          x <- choose fuel p b d1 d2 ;;
          s <- expand_last fuel p b x ;;
          Ok (Next s)
      end
  end.

(** pretty_print.rs:330-354 [print_prev_line]. *)
Definition print_prev_line (fuel : nat) (p : printer) : pres (printer * option line) :=
  match pr_prev p with
  | [] => Ok (p, None)
  | b :: bs =>
      '(p, b) <- loop fuel (print_prev_body fuel) (set_prev p bs, b) ;;
      l <- block_print b ;;
      Ok (p, Some l)
  end.

(** pretty_print.rs:392-408, one iteration of the loop of [seek_end]. *)
Definition seek_end_body (fuel : nat) (num_chunks_after : nat) (s : printer * block)
  : pres (step (printer * block) (printer * block)) :=
  let '(p, b0) := s in
  if Nat.leb (length (bl_chunks b0)) num_chunks_after then Ok (Done (p, b0))
  else
    match bl_chunks b0 with
    | [] => Panic PNoBlock
    | c :: cs =>
        let b := set_chunks b0 cs in
        match ck_note c with
        | CFocusMark => Ok (Next (p, b))
        | CEmpty | CNewline _ | CConcat _ _ => Panic PUnexpandedChunk
        | CEndOfLine => Ok (Next (p, set_eol b))
        | CTextual t => b <- push_text b t ;; Ok (Next (p, b))
        | CChild _ d =>
            x <- chunk_new d ;;
            s <- expand_last fuel p b x ;;
            Ok (Next s)
        | CChoice d1 d2 =>
            x <- choose fuel p b d1 d2 ;;
            s <- expand_last fuel p b x ;;
            Ok (Next s)
        end
    end.

(** pretty_print.rs:382-410 [seek_end]. *)
Definition seek_end (fuel : nat) (p : printer) (c : chunk) : pres printer :=
  match pr_next p with
  | [] => Panic PNoBlock
  | b :: bs =>
      let num_chunks_after := length (bl_chunks b) in
      s <- expand_last fuel (set_next p bs) b c ;;
      '(p, b) <- loop fuel (seek_end_body fuel num_chunks_after) s ;;
      Ok (push_next p b)
  end.

(** pretty_print.rs:414-421 [seek_start]. *)
Definition seek_start (fuel : nat) (p : printer) (c : chunk) : pres printer :=
  match pr_next p with
  | [] => Panic PNoBlock
  | b :: bs =>
      '(p, b) <- expand_first fuel (set_next p bs) b c ;;
      Ok (push_next p b)
  end.

(** pretty_print.rs:435-456, one iteration of the inner loop of [seek_mark].
    [Done (inl p)]: returned from the function.  [Done (inr (p, b))]: ran out of
    chunks. *)
Definition seek_mark_body (fuel : nat) (id : Id) (s : printer * block)
  : pres (step (printer * block) (printer + printer * block)) :=
  let '(p, b0) := s in
  match bl_chunks b0 with
  | [] => Ok (Done (inr (p, b0)))
  | c :: cs =>
      let b := set_chunks b0 cs in
      match ck_note c with
      | CEmpty | CNewline _ | CConcat _ _ => Panic PUnexpandedChunk
      | CFocusMark =>
          if id_eqb (ck_id c) id then Ok (Done (inl (push_next p b)))
          else Ok (Next (p, b))
      | CEndOfLine => Ok (Next (p, set_eol b))
      | CTextual t => b <- push_text b t ;; Ok (Next (p, b))
      | CChild _ d =>
          x <- chunk_new d ;;
          s <- expand_first fuel p b x ;;
          Ok (Next s)
      | CChoice d1 d2 =>
          x <- choose fuel p b d1 d2 ;;
          s <- expand_first fuel p b x ;;
          Ok (Next s)
      end
  end.

(** pretty_print.rs:434-458, one iteration of the outer loop of [seek_mark]. *)
Definition seek_mark_outer (fuel : nat) (id : Id) (p : printer)
  : pres (step printer printer) :=
  match pr_next p with
  | [] => Err MissingFocusMark
  | b :: bs =>
      r <- loop fuel (seek_mark_body fuel id) (set_next p bs, b) ;;
      match r with
      | inl p' => Ok (Done p')
      | inr (p', b') => Ok (Next (push_prev p' b'))
      end
  end.

(** pretty_print.rs:425-461 [seek_mark]. *)
Definition seek_mark (fuel : nat) (p : printer) (c : chunk) : pres printer :=
  match pr_next p with
  | [] => Panic PNoBlock
  | b :: bs =>
      '(p, b) <- expand_first fuel (set_next p bs) b c ;;
      loop fuel (seek_mark_outer fuel (ck_id c)) (push_next p b)
  end.

(** pretty_print.rs:478-506, one iteration of the inner loop of [seek_text]. *)
Definition seek_text_body (fuel : nat) (text_pos : nat) (s : printer * block)
  : pres (step (printer * block) (printer + printer * block)) :=
  let '(p, b0) := s in
  match bl_chunks b0 with
  | [] => Ok (Done (inr (p, b0)))
  | c :: cs =>
      let b := set_chunks b0 cs in
      match ck_note c with
      | CEmpty | CNewline _ | CConcat _ _ => Panic PUnexpandedChunk
      | CFocusMark => Ok (Next (p, b))
      | CEndOfLine => Ok (Next (p, set_eol b))
      | CTextual t =>
          if tx_from_text t then
            let '(tl, tr) := split_at t text_pos in
            b <- push_text b tl ;;
            Ok (Done (inl (push_next p
                  (set_chunks b (Chunk (CTextual tr) (ck_id c) :: bl_chunks b)))))
          else b <- push_text b t ;; Ok (Next (p, b))
      | CChild _ d =>
          x <- chunk_new d ;;
          s <- expand_first fuel p b x ;;
          Ok (Next s)
      | CChoice d1 d2 =>
          x <- choose fuel p b d1 d2 ;;
          s <- expand_first fuel p b x ;;
          Ok (Next s)
      end
  end.

(** pretty_print.rs:477-508, one iteration of the outer loop of [seek_text]. *)
Definition seek_text_outer (fuel : nat) (text_pos : nat) (p : printer)
  : pres (step printer printer) :=
  match pr_next p with
  | [] => Err MissingText
  | b :: bs =>
      r <- loop fuel (seek_text_body fuel text_pos) (set_next p bs, b) ;;
      match r with
      | inl p' => Ok (Done p')
      | inr (p', b') => Ok (Next (push_prev p' b'))
      end
  end.

(** pretty_print.rs:465-511 [seek_text]. *)
Definition seek_text (fuel : nat) (p : printer) (c : chunk) (text_pos : nat) : pres printer :=
  match pr_next p with
  | [] => Panic PNoBlock
  | b :: bs =>
      '(p, b) <- expand_first fuel (set_next p bs) b c ;;
      loop fuel (seek_text_outer fuel text_pos) (push_next p b)
  end.

(** pretty_print.rs:534-540 [contains_relevant_chunk]. *)
Definition relevant_chunk (parent_id : Id) (child_index : nat) (c : chunk) : bool :=
  match ck_note c with
  | CChild i _ => id_eqb (ck_id c) parent_id && Nat.eqb i child_index
  | CChoice _ _ => id_eqb (ck_id c) parent_id
  | _ => false
  end.
Definition contains_relevant_chunk (parent_id : Id) (child_index : nat) (b : block) : bool :=
  existsb (relevant_chunk parent_id child_index) (bl_chunks b).

(** pretty_print.rs:541-548, the loop walking to a block with a relevant chunk
    (structural: it only pops [next_blocks]). *)
Fixpoint walk (parent_id : Id) (child_index : nat) (prev next : list block)
  : list block * list block :=
  match next with
  | [] => (prev, [])
  | b :: bs =>
      if contains_relevant_chunk parent_id child_index b then (prev, next)
      else walk parent_id child_index (b :: prev) bs
  end.

(** How step 2 of [seek_child] ends: found, [break], or out of chunks. *)
Inductive seek_child_end : Type :=
| ScFound (p : printer) (d : delayed)
| ScBreak (p : printer)
| ScExhausted (p : printer).

(** pretty_print.rs:557-582, one iteration of the inner loop of [seek_child]. *)
Definition seek_child_body (fuel : nat) (parent_id : Id) (child_index : nat) (s : printer * block)
  : pres (step (printer * block) seek_child_end) :=
  let '(p, b0) := s in
  match bl_chunks b0 with
  | [] => Ok (Done (ScExhausted p))     (* [block] is dropped *)
  | c :: cs =>
      let b := set_chunks b0 cs in
      match ck_note c with
      | CFocusMark => Ok (Next (p, b))
      | CEmpty | CNewline _ | CConcat _ _ => Panic PUnexpandedChunk
      | CEndOfLine => Ok (Next (p, set_eol b))
      | CTextual t => b <- push_text b t ;; Ok (Next (p, b))
      | CChild i d =>
          if id_eqb (ck_id c) parent_id && Nat.eqb i child_index
          then Ok (Done (ScFound (push_next p b) d))
          else
            x <- chunk_new d ;;
            '(p, b) <- expand_first fuel p b x ;;
            Ok (Done (ScBreak (push_next p b)))
      | CChoice d1 d2 =>
          x <- choose fuel p b d1 d2 ;;
          '(p, b) <- expand_first fuel p b x ;;
          Ok (Done (ScBreak (push_next p b)))
      end
  end.

(** pretty_print.rs:528-583, one iteration of the outer loop of [seek_child]. *)
Definition seek_child_outer (fuel : nat) (parent_id : Id) (child_index : nat) (p : printer)
  : pres (step printer (printer * chunk)) :=
  let '(prev, next) := walk parent_id child_index (pr_prev p) (pr_next p) in
  match next with
  | [] => Err (InvalidPath child_index)
  | b :: bs =>
      r <- loop fuel (seek_child_body fuel parent_id child_index)
             (Printer (pr_width p) prev bs, b) ;;
      match r with
      | ScFound p' d => x <- chunk_new d ;; Ok (Done (p', x))
      | ScBreak p' | ScExhausted p' => Ok (Next p')
      end
  end.

(** pretty_print.rs:516-584 [seek_child]. *)
Definition seek_child (fuel : nat) (p : printer) (parent : chunk) (child_index : nat)
  : pres (printer * chunk) :=
  match pr_next p with
  | [] => Panic PNoBlock
  | b :: bs =>
      '(p, b) <- expand_first fuel (set_next p bs) b parent ;;
      loop fuel (seek_child_outer fuel (ck_id parent) child_index) (push_next p b)
  end.

(** pretty_print.rs:369-371, the [for] loop of [seek]. *)
Fixpoint seek_path (fuel : nat) (p : printer) (c : chunk) (path : list nat)
  : pres (printer * chunk) :=
  match path with
  | [] => Ok (p, c)
  | i :: path' =>
      '(p, c) <- seek_child fuel p c i ;;
      seek_path fuel p c path'
  end.

(** pretty_print.rs:358-378 [seek]. *)
Definition seek (fuel : nat) (p : printer) (doc : D) (path : list nat) (ft : focus_target)
    (root_style : option Sty) : pres printer :=
  note <- with_optional_style doc root_style ;;
  c <- chunk_new note ;;
  '(p, c) <- seek_path fuel p c path ;;
  match ft with
  | FStart => seek_start fuel p c
  | FEnd => seek_end fuel p c
  | FText pos => seek_text fuel p c pos
  | FMark => seek_mark fuel p c
  end.

(** pretty_print.rs:32-71 [pretty_print].  The two iterators are the printers
    they wrap: (upward printer, focused line, downward printer). *)
Definition pretty_print (fuel : nat) (doc : D) (width : N) (path : list nat) (ft : focus_target)
    (root_style : option Sty) : pres (printer * focused_line * printer) :=
  p <- printer_new width ;;
  p <- seek fuel p doc path ft root_style ;;
  match pr_next p with
  | [] => Panic PNoBlock
  | b :: _ =>
      let num_left_segs := length (bl_segments b) in
      '(p, ol) <- print_next_line fuel p ;;
      match ol with
      | None => Panic PNoBlock
      | Some l =>
          if Nat.leb num_left_segs (length l)
          then Ok (Printer width (pr_prev p) [],
                   FocusedLine (firstn num_left_segs l) (skipn num_left_segs l),
                   Printer width [] (pr_next p))
          else Panic PIndex
      end
  end.

(** pretty_print.rs:814-820 [UpwardPrinter::next] and 825-831
    [DownwardPrinter::next] (the item before [transpose]). *)
Definition up_next (fuel : nat) (p : printer) : pres (printer * option line) :=
  print_prev_line fuel p.
Definition down_next (fuel : nat) (p : printer) : pres (printer * option line) :=
  print_next_line fuel p.

(** [Iterator::collect::<Result<Vec<_>, _>>()]: call [next] until it returns
    [None] or an error.  [lim] bounds the number of calls. *)
Definition collect_body (next : printer -> pres (printer * option line)) (s : printer * list line)
  : pres (step (printer * list line) (list line)) :=
  let '(p, acc) := s in
  '(p, ol) <- next p ;;
  match ol with
  | None => Ok (Done acc)
  | Some l => Ok (Next (p, acc ++ [l]))
  end.
Definition collect (fuel : nat) (next : printer -> pres (printer * option line)) (p : printer)
  : pres (list line) :=
  loop fuel (collect_body next) (p, []).

(** The concatenation of the segments' strings: pretty_print.rs:162-176
    [to_left_string]/[to_right_string], 187-197 [Line::to_string]. *)
Definition segs_to_string (l : list segment) : str := concat (map seg_str l).

(** pretty_print.rs:199-209 [FocusedLine::to_string]. *)
Definition focused_to_string (l : focused_line) : str :=
  segs_to_string (left_segments l ++ right_segments l).

(** pretty_print.rs:179-185 [From<FocusedLine> for Line]. *)
Definition focused_to_line (l : focused_line) : line := left_segments l ++ right_segments l.

(** pretty_print.rs:142-160 widths. *)
Definition line_width (l : line) : pres N := sum16 ovf (map seg_width l).
Definition left_width (l : focused_line) : pres N := sum16 ovf (map seg_width (left_segments l)).
Definition right_width (l : focused_line) : pres N := sum16 ovf (map seg_width (right_segments l)).
Definition focused_width (l : focused_line) : pres N :=
  sum16 ovf (map seg_width (left_segments l ++ right_segments l)).

Definition newline_char : char := 10%N.

(** pretty_print.rs:83-86, one iteration of the [for] loop. *)
Definition to_string_body (fuel : nat) (s : printer * str) : pres (step (printer * str) str) :=
  let '(p, string) := s in
  '(p, ol) <- down_next fuel p ;;
  match ol with
  | None => Ok (Done string)
  | Some l => Ok (Next (p, (string ++ [newline_char]) ++ segs_to_string l))
  end.

(** pretty_print.rs:77-88 [pretty_print_to_string]. *)
Definition pretty_print_to_string (fuel : nat) (doc : D) (width : N) : pres str :=
  '(_, fl, down) <- pretty_print fuel doc width [] FStart None ;;
  loop fuel (to_string_body fuel) (down, focused_to_string fl).

End Printer.
