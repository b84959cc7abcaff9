(** Model of tests/standard/pretty_testing.rs and of the test of
    tests/standard/oracle_tests.rs.

    A test that passes returns; one that fails panics. *)
From Verif Require Export Oracle Valid Generative TreeDoc.

Set Implicit Arguments.

(** std: [[String]::join("\n")]. *)
Definition join_newlines (ls : list str) : str :=
  match ls with
  | [] => []
  | first :: rest => fold_left (fun acc s => (acc ++ [newline_char]) ++ s) rest first
  end.

(** std: [str::split('\n')], collected. *)
Fixpoint split_newlines (s : str) : list str :=
  match s with
  | [] => [[]]
  | c :: s' =>
      match split_newlines s' with
      | l :: ls => if (c =? newline_char)%N then [] :: l :: ls else (c :: l) :: ls
      | [] => []
      end
  end.

(** Rust's [for x in l { .. }]. *)
Fixpoint for_each {X A : Type} (l : list A) (body : A -> res X unit) : res X unit :=
  match l with
  | [] => Ok tt
  | x :: l' => _ <- body x ;; for_each l' body
  end.

Section Harness.
Context {pd : PrettyDoc} {env : Env}.

(** pretty_testing.rs:65-73 [compare_lines]: fails if the texts differ.
    Simplification: what is printed then, and the names of the texts, are left out. *)
Definition compare_lines (expected actual : str) : pres unit :=
  if str_eqb actual expected then Ok tt else Panic PAssert.

(** pretty_testing.rs:75-93 [print_above_and_below]. *)
Definition print_above_and_below (fuel : nat) (doc : D) (width : N) (path : list nat) (ft : focus_target)
    : pres (list str * str * str * list str) :=
  '(upward_printer, focused_line, downward_printer) <- unwrapped (pretty_print fuel doc width path ft None) ;;
  lines_above <- unwrapped (collect fuel (up_next fuel) upward_printer) ;;
  lines_below <- unwrapped (collect fuel (down_next fuel) downward_printer) ;;
  Ok (rev (map segs_to_string lines_above), segs_to_string (left_segments focused_line),
      segs_to_string (right_segments focused_line), map segs_to_string lines_below).

(** pretty_testing.rs:191-203 [concat_lines]. *)
Definition concat_lines (lines_above : list str) (left_string right_string : str) (lines_below : list str) : list str :=
  (lines_above ++ [left_string ++ right_string]) ++ lines_below.

(** pretty_testing.rs:96-103, [recur] of [all_paths].  Simplification: the path is an
    argument instead of being changed and restored, and the paths are returned
    instead of being pushed.  [fuel] bounds the recursion. *)
Fixpoint paths_below (fuel : nat) (doc : D) (path : list nat) : pres (list (list nat)) :=
  match fuel with
  | O => OutOfFuel
  | S fuel =>
      n <- unwrapped (lift (m_num_children doc)) ;;
      let fix kids (is : list nat) : pres (list (list nat)) :=
        match is with
        | [] => Ok []
        | i :: is' =>
            child <- unwrapped (lift (m_unwrap_child doc i)) ;;
            here <- paths_below fuel child (path ++ [i]) ;;
            more <- kids is' ;;
            Ok (here ++ more)
        end in
      below <- kids (seq 0 (match n with Some n => n | None => 0 end)) ;;
      Ok (path :: below)
  end.

(** pretty_testing.rs:95-107 [all_paths]. *)
Definition all_paths (fuel : nat) (doc : D) : pres (list (list nat)) := paths_below fuel doc [].

(** pretty_testing.rs:143-189 [assert_pp_impl]. *)
Definition assert_pp_impl (fuel : nat) (doc : D) (width : N) (expected_lines : option (list str)) : pres unit :=
  oracle_result <- oracular_pretty_print fuel doc width ;;
  _ <- match expected_lines with
       | Some expected_lines => compare_lines oracle_result (join_newlines expected_lines)
       | None => Ok tt
       end ;;
  string <- unwrapped (pretty_print_to_string fuel doc width) ;;
  let lines := split_newlines string in
  _ <- match expected_lines with
       | None => _ <- unwrapped (lift (m_notation doc)) ;; compare_lines oracle_result (join_newlines lines)
       | Some _ => compare_lines oracle_result (join_newlines lines)
       end ;;
  paths <- all_paths fuel doc ;;
  for_each paths (fun path =>
    for_each [FStart; FEnd] (fun focus_target =>
      '(lines_above, left_string, right_string, lines_below) <- print_above_and_below fuel doc width path focus_target ;;
      compare_lines oracle_result (join_newlines (concat_lines lines_above left_string right_string lines_below)))).

(** pretty_testing.rs:133-135 [assert_pp] and 138-140 [assert_pp_without_expectation]. *)
Definition assert_pp (fuel : nat) (doc : D) (width : N) (expected_lines : list str) : pres unit :=
  assert_pp_impl fuel doc width (Some expected_lines).
Definition assert_pp_without_expectation (fuel : nat) (doc : D) (width : N) : pres unit :=
  assert_pp_impl fuel doc width None.

(** std: [String::insert].  Simplification: positions in strings and lengths of strings
    ([len]) count characters, not bytes. *)
Definition insert_char (s : str) (i : nat) (ch : char) : pres str :=
  if i <=? length s then Ok (firstn i s ++ ch :: skipn i s) else Panic PIndex.

(** [lines[row].insert(col, ch)]. *)
Definition insert_in_line (lines : list str) (row col : nat) (ch : char) : pres (list str) :=
  match nth_error lines row with
  | None => Panic PIndex
  | Some l => l <- insert_char l col ch ;; Ok (firstn row lines ++ l :: skipn (S row) lines)
  end.

(** pretty_testing.rs:206-237 [assert_pp_seek]. *)
Definition assert_pp_seek (fuel : nat) (doc : D) (width : N) (path : list nat) (expected_lines : list str) : pres unit :=
  '(lines_above_1, left_string_1, right_string_1, lines_below_1) <- print_above_and_below fuel doc width path FStart ;;
  '(lines_above_2, left_string_2, right_string_2, lines_below_2) <- print_above_and_below fuel doc width path FEnd ;;
  let start_row := length lines_above_1 in
  let end_row := length lines_above_2 in
  let start_col := length left_string_1 in
  let end_col := length left_string_2 in
  let lines_1 := concat_lines lines_above_1 left_string_1 right_string_1 lines_below_1 in
  let lines_2 := concat_lines lines_above_2 left_string_2 right_string_2 lines_below_2 in
  _ <- compare_lines (join_newlines lines_1) (join_newlines lines_2) ;;
  lines_with_focus <- insert_in_line lines_1 end_row end_col 41%N ;;
  lines_with_focus <- insert_in_line lines_with_focus start_row start_col 40%N ;;
  compare_lines (join_newlines expected_lines) (join_newlines lines_with_focus).

(** pretty_testing.rs:240-257 [assert_pp_focus]. *)
Definition assert_pp_focus (fuel : nat) (doc : D) (width : N) (path : list nat) (ft : focus_target) (expected_lines : list str) : pres unit :=
  '(lines_above, left_string, right_string, lines_below) <- print_above_and_below fuel doc width path ft ;;
  let lines_with_focus := concat_lines lines_above (left_string ++ [124%N]) right_string lines_below in
  compare_lines (join_newlines expected_lines) (join_newlines lines_with_focus).

(** std: [Iterator::take(k)], collected. *)
Fixpoint taken_lines (next : printer -> pres (printer * option line)) (k : nat) (p : printer) : pres (list line) :=
  match k with
  | O => Ok []
  | S k' =>
      '(p, ol) <- next p ;;
      match ol with
      | None => Ok []
      | Some l => ls <- taken_lines next k' p ;; Ok (l :: ls)
      end
  end.

(** pretty_testing.rs:109-130 [print_region].  [rows / 2 - 1] panics for less than two
    rows with overflow checks, and is the largest number without. *)
Definition print_region (fuel : nat) (doc : D) (width : N) (path : list nat) (ft : focus_target) (rows : nat) : pres (list str) :=
  '(upward_printer, focused_line, downward_printer) <- unwrapped (pretty_print fuel doc width path ft None) ;;
  lines <- unwrapped (taken_lines (up_next fuel) (rows / 2) upward_printer) ;;
  lines_below <-
    (if rows / 2 =? 0 then
       if ovf then Panic POverflow else unwrapped (collect fuel (down_next fuel) downward_printer)
     else unwrapped (taken_lines (down_next fuel) (rows / 2 - 1) downward_printer)) ;;
  Ok ((rev (map segs_to_string lines) ++ [focused_to_string focused_line]) ++ map segs_to_string lines_below).

(** pretty_testing.rs:260-274 [assert_pp_region]. *)
Definition assert_pp_region (fuel : nat) (doc : D) (width : N) (path : list nat) (ft : focus_target) (rows : nat) (expected_lines : list str) : pres unit :=
  lines <- print_region fuel doc width path ft rows ;;
  compare_lines (join_newlines expected_lines) (join_newlines lines).

End Harness.

(** pretty_testing.rs:6-62 [SimpleDoc] and its [PrettyDoc] methods. *)
Definition simple_last_child (doc : notation unit unit) : mres Empty_set (notation unit unit) :=
  default_last_child (fun _ => MOk (Some 0)) (fun _ _ => MPanic) doc.
Definition simple_doc : PrettyDoc := {|
  D := notation unit unit; Id := nat; Sty := unit; Lbl := unit; Cnd := unit; Er := Empty_set;
  id_eqb := Nat.eqb;
  style_combine := fun _ _ => tt;
  m_id := fun _ => MOk 0;
  m_notation := fun doc => MOk doc;
  m_condition := fun _ _ => MOk false;
  m_lookup_style := fun _ _ => MOk tt;
  m_node_style := fun _ => MOk tt;
  m_num_children := fun _ => MOk (Some 0);
  m_unwrap_text := fun _ => MPanic;
  m_unwrap_child := fun _ _ => MPanic;
  m_unwrap_last_child := simple_last_child;
  m_unwrap_prev_sibling := default_prev_sibling (fun _ _ => MPanic)
|}.

Section OracleTest.
Context {env : Env}.
#[local] Existing Instance simple_doc.

(** pretty_testing.rs:20-22 [SimpleDoc::try_new], and oracle_tests.rs:70-77, the body of
    the loop: was the notation valid? *)
Definition test_notation (fuel : nat) (x : notation unit unit) : pres bool :=
  match validate x with
  | Ok _ =>
      _ <- for_each (map N.of_nat (seq 1 8)) (fun width => assert_pp_without_expectation fuel (x : D) width) ;;
      Ok true
  | Fail (FErr _) => Ok false
  | Fail (FPanic p) => Panic p
  | Fail FFuel => OutOfFuel
  end.

(** oracle_tests.rs:67-78: the numbers of valid and invalid notations. *)
Fixpoint test_notations (fuel : nat) (l : list (notation unit unit)) (counts : nat * nat) : pres (nat * nat) :=
  match l with
  | [] => Ok counts
  | x :: l' =>
      valid <- test_notation fuel x ;;
      let '(valid_count, invalid_count) := counts in
      test_notations fuel l' (if valid : bool then (valid_count + 1, invalid_count) else (valid_count, invalid_count + 1))
  end.

(** A computation without errors. *)
Definition no_error {A} (r : res unit A) : pres A :=
  match r with
  | Ok a => Ok a
  | Fail (FErr _) => Panic PExpect
  | Fail (FPanic p) => Panic p
  | Fail FFuel => OutOfFuel
  end.

(** oracle_tests.rs:62-65, the random notations: for each of them, the size, and the
    results of [gen_range] while it is generated.  Simplification: all of them are
    generated before the first is tested. *)
Fixpoint random_notations (fuel : nat) (randoms : list (nat * (nat -> nat -> nat))) : pres (list (notation unit unit)) :=
  match randoms with
  | [] => Ok []
  | (size, rng) :: randoms' =>
      x <- no_error (gen_random rng 0 (notation_gen fuel size)) ;;
      l <- random_notations fuel randoms' ;;
      Ok (x :: l)
  end.

(** oracle_tests.rs:59-84 [oracle_tests]; [max_size] is 6 there, and there are 1000 random
    notations of each of the sizes 10, 20 and 30, and 200 of size 50. *)
Definition oracle_tests (fuel : nat) (max_size : nat) (randoms : list (nat * (nat -> nat -> nat))) : pres (nat * nat) :=
  small <- no_error (generate_all_up_to_size fuel (notation_gen fuel) max_size) ;;
  large <- random_notations fuel randoms ;;
  test_notations fuel (small ++ large) (0, 0).

End OracleTest.
