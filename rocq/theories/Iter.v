(** The iterators returned by pretty_print, including what is left in them after
    a call to [next] that returned an error.

    [Printer.v] models [next] up to the first error ([up_next], [down_next]).
    Here every function also returns the printer that is left behind when it
    fails.  The [&mut self] methods drop the block and the stack they were
    working on, and keep the blocks that were pushed before the error. *)
From Verif Require Export Printer.

Set Implicit Arguments.

Section Iter.
Context {pd : PrettyDoc} {env : Env}.

(** A loop whose body says what is left behind in [self] when it stops. *)
Fixpoint loop_left {X S R L : Type} (fuel : nat) (body : S -> L * res X (step S R)) (left : S -> L) (s : S)
  : L * res X R :=
  match fuel with
  | O => (left s, OutOfFuel)
  | S fuel' =>
      match body s with
      | (_, Ok (Next s')) => loop_left fuel' body left s'
      | (l, Ok (Done r)) => (l, Ok r)
      | (l, Fail f) => (l, Fail f)
      end
  end.

(** pretty_print.rs:596-623 [expand_focusing_first_block].  An iteration that
    fails (in [Chunk::new]) has not changed [self]. *)
Definition expand_first_left (fuel : nat) (p : printer) (b : block) (c : chunk)
  : printer * pres (printer * block) :=
  loop_left fuel (fun s => (snd (fst s), expand_first_body s)) (fun s => snd (fst s)) ([c], p, b).

(** pretty_print.rs:635-672 [expand_focusing_last_block]. *)
Definition expand_last_left (fuel : nat) (p : printer) (b : block) (c : chunk)
  : printer * pres (printer * block) :=
  let '(q, r) := loop_left fuel (fun s => (snd (fst s), expand_last_body s)) (fun s => snd (fst s)) ([], [c], p, b) in
  (q, '(chunks, p, b) <- r ;; Ok (p, set_chunks b (rev chunks ++ bl_chunks b))).

(** pretty_print.rs:309-325, one iteration of the loop of [print_next_line]. *)
Definition print_next_body_left (fuel : nat) (s : printer * block)
  : printer * pres (step (printer * block) (printer * block)) :=
  let '(p, b0) := s in
  match bl_chunks b0 with
  | [] => (p, Ok (Done (p, b0)))
  | c :: cs =>
      let b := set_chunks b0 cs in
      match ck_note c with
      | CFocusMark => (p, Ok (Next (p, b)))
      | CEmpty | CNewline _ | CConcat _ _ => (p, Panic PUnexpandedChunk)
      | CEndOfLine => (p, Ok (Next (p, set_eol b)))
      | CTextual t => (p, b <- push_text b t ;; Ok (Next (p, b)))
      | CChild _ d =>
          match chunk_new d with
          | Fail f => (p, Fail f)
          | Ok x => let '(q, r) := expand_first_left fuel p b x in (q, s <- r ;; Ok (Next s))
          end
      | CChoice d1 d2 =>
          match choose fuel p b d1 d2 with
          | Fail f => (p, Fail f)
          | Ok x => let '(q, r) := expand_first_left fuel p b x in (q, s <- r ;; Ok (Next s))
          end
      end
  end.

(** pretty_print.rs:301-327 [print_next_line], 825-831 [DownwardPrinter::next]. *)
Definition down_next_left (fuel : nat) (p : printer) : printer * pres (option line) :=
  match pr_next p with
  | [] => (p, Ok None)
  | b :: bs =>
      let '(q, r) := loop_left fuel (print_next_body_left fuel) fst (set_next p bs, b) in
      (q, '(_, b) <- r ;; l <- block_print b ;; Ok (Some l))
  end.

(** pretty_print.rs:338-352, one iteration of the loop of [print_prev_line]. *)
Definition print_prev_body_left (fuel : nat) (s : printer * block)
  : printer * pres (step (printer * block) (printer * block)) :=
  let '(p, b0) := s in
  match bl_chunks b0 with
  | [] => (p, Ok (Done (p, b0)))
  | c :: cs =>
      let b := set_chunks b0 cs in
      match ck_note c with
      | CFocusMark => (p, Ok (Next (p, b)))
      | CEmpty | CNewline _ | CConcat _ _ => (p, Panic PUnexpandedChunk)
      | CEndOfLine => (p, Ok (Next (p, set_eol b)))
      | CTextual t => (p, b <- push_text b t ;; Ok (Next (p, b)))
      | CChild _ d =>
          match chunk_new d with
          | Fail f => (p, Fail f)
          | Ok x => let '(q, r) := expand_last_left fuel p b x in (q, s <- r ;; Ok (Next s))
          end
      | CChoice d1 d2 =>
          match choose fuel p b d1 d2 with
          | Fail f => (p, Fail f)
          | Ok x => let '(q, r) := expand_last_left fuel p b x in (q, s <- r ;; Ok (Next s))
          end
      end
  end.

(** pretty_print.rs:330-354 [print_prev_line], 814-820 [UpwardPrinter::next]. *)
Definition up_next_left (fuel : nat) (p : printer) : printer * pres (option line) :=
  match pr_prev p with
  | [] => (p, Ok None)
  | b :: bs =>
      let '(q, r) := loop_left fuel (print_prev_body_left fuel) fst (set_prev p bs, b) in
      (q, '(_, b) <- r ;; l <- block_print b ;; Ok (Some l))
  end.

End Iter.
