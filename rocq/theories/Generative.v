(** Model of tests/standard/generative_testing.rs, and of the generator of
    tests/standard/oracle_tests.rs.

    A u32 is a [nat] here: every number computed is at most a size or a maximum
    that is itself a u32. *)
From Verif Require Export Notation.

Set Implicit Arguments.

(** generative_testing.rs:9-13 [Generator::generate] for a given size.  The trait
    requires that it is a function of the numbers it picks; so it is the tree of
    what it does: it returns a value, or it calls [pick_int(max)] and goes on
    depending on the result, or it panics. *)
Inductive gen (A : Type) : Type :=
| GReturn (a : A)
| GPick (max : nat) (go_on : nat -> gen A)
| GPanic (p : panic).
Arguments GReturn {A}.
Arguments GPick {A}.
Arguments GPanic {A}.

(** Rust's sequencing: first [g], then [k] with its value. *)
Fixpoint gbind {A B} (g : gen A) (k : A -> gen B) : gen B :=
  match g with
  | GReturn a => k a
  | GPick max go_on => GPick max (fun i => gbind (go_on i) k)
  | GPanic p => GPanic p
  end.

(** ** generative_testing.rs:26-66, random generation *)

(** generative_testing.rs:52-66 [GenRandom::next], for an rng whose [i]th result of
    [gen_range(0..max)] is [rng i max].  [gen_range] panics on an empty range. *)
Fixpoint gen_random {A} (rng : nat -> nat -> nat) (i : nat) (g : gen A) : res unit A :=
  match g with
  | GReturn a => Ok a
  | GPick max go_on => if max =? 0 then Panic PAssert else gen_random rng (S i) (go_on (rng i max))
  | GPanic p => Panic p
  end.

(** ** generative_testing.rs:71-153, exhaustive generation *)

(** generative_testing.rs:86-92 [GenAll] (without [size] and [generator]: the
    generator for this size is an argument below).  The first element of the list is
    the bottom of the stack. *)
Record gen_all : Type := GenAll {
  ga_index : nat;
  ga_stack : list (nat * nat);
  ga_done : bool
}.

(** generative_testing.rs:95-103 [GenAll::new]. *)
Definition gen_all_new : gen_all := GenAll 0 [] false.

(** generative_testing.rs:107-112, the [while] loop of [advance].  The first element
    of [top] is the top of the stack.  [None]: the stack was emptied. *)
Fixpoint advance_loop (top : list (nat * nat)) : option (list (nat * nat)) :=
  match top with
  | [] => None
  | (n, max) :: top' => if n + 1 <? max then Some ((n + 1, max) :: top') else advance_loop top'
  end.

(** generative_testing.rs:105-116 [GenAll::advance]. *)
Definition advance (g : gen_all) : gen_all :=
  match advance_loop (rev (ga_stack g)) with
  | Some top => GenAll 0 (rev top) (ga_done g)
  | None => GenAll 0 [] true
  end.

(** generative_testing.rs:129-139 [PickNext::pick_int]. *)
Definition pick_next (g : gen_all) (max : nat) : res unit (nat * gen_all) :=
  match nth_error (ga_stack g) (ga_index g) with
  | Some (n, _) => Ok (n, GenAll (ga_index g + 1) (ga_stack g) (ga_done g))
  | None =>
      if ga_index g =? length (ga_stack g)
      then Ok (0, GenAll (ga_index g + 1) (ga_stack g ++ [(0, max)]) (ga_done g))
      else Panic PAssert
  end.

(** generative_testing.rs:150 [self.generator.generate(self.size, &mut picker)]. *)
Fixpoint generate {A} (g : gen A) (s : gen_all) : res unit (A * gen_all) :=
  match g with
  | GReturn a => Ok (a, s)
  | GPick max go_on => '(n, s) <- pick_next s max ;; generate (go_on n) s
  | GPanic p => Panic p
  end.

(** generative_testing.rs:122-153 [GenAll::next]. *)
Definition gen_next {A} (g : gen A) (s : gen_all) : res unit (gen_all * option A) :=
  if ga_done s then Ok (s, None)
  else '(a, s) <- generate g s ;; Ok (advance s, Some a).

(** Calling [next] until it returns [None]: [collect]. *)
Fixpoint gen_collect {A} (fuel : nat) (g : gen A) (s : gen_all) : res unit (list A) :=
  match fuel with
  | O => OutOfFuel
  | S fuel =>
      '(s, oa) <- gen_next g s ;;
      match oa with
      | None => Ok []
      | Some a => l <- gen_collect fuel g s ;; Ok (a :: l)
      end
  end.

(** generative_testing.rs:79-85 [generate_all_of_size], collected. *)
Definition generate_all_of_size {A} (fuel : nat) (generator : nat -> gen A) (size : nat) : res unit (list A) :=
  gen_collect fuel (generator size) gen_all_new.

(** generative_testing.rs:71-76 [generate_all_up_to_size], collected: the sizes are
    those of the range [1..max_size]. *)
Definition generate_all_up_to_size {A} (fuel : nat) (generator : nat -> gen A) (max_size : nat) : res unit (list A) :=
  fold_right (fun size rest => l <- generate_all_of_size fuel generator size ;; ls <- rest ;; Ok (l ++ ls))
    (Ok []) (seq 1 (max_size - 1)).

(** ** oracle_tests.rs:10-57 *)

(** oracle_tests.rs:16-56 [NotationGen::generate].  [fuel] bounds the recursion. *)
Fixpoint notation_gen (fuel : nat) (size : nat) : gen (notation unit unit) :=
  match fuel with
  | O => GPanic PExpect
  | S fuel =>
      let self := notation_gen fuel in
      if size =? 0 then GPanic PAssert
      else if size =? 1 then
        GPick 6 (fun i =>
          match i with
          | 0 => GReturn Empty
          | 1 => GReturn Newline
          | 2 => GReturn EndOfLine
          | 3 => GReturn (Literal [97%N])
          | 4 => GReturn (Literal [98%N; 98%N])
          | 5 => GReturn (Literal [99%N; 99%N; 99%N; 99%N])
          | _ => GPanic PAssert
          end)
      else if size =? 2 then
        GPick 2 (fun i =>
          match i with
          | 0 => gbind (self 1) (fun x => GReturn (Flat x))
          | 1 => gbind (self 1) (fun x => GReturn (n_shr 2 x))
          | _ => GPanic PAssert
          end)
      else
        let size := size - 1 in
        let two (op : notation unit unit -> notation unit unit -> notation unit unit) :=
          GPick (size - 1) (fun i =>
            let left_size := i + 1 in
            let right_size := size - left_size in
            gbind (self left_size) (fun left =>
            gbind (self right_size) (fun right => GReturn (op left right)))) in
        GPick 4 (fun i =>
          match i with
          | 0 => two n_add
          | 1 => two n_or
          | 2 => gbind (self size) (fun x => GReturn (Flat x))
          | 3 => gbind (self size) (fun x => GReturn (n_shr 2 x))
          | _ => GPanic PAssert
          end)
  end.

(** ** generative_testing.rs:156-204 *)

(** generative_testing.rs:161 [struct Tree(Vec<Tree>)]. *)
Inductive gtree : Type := GTree (kids : list gtree).

(** generative_testing.rs:183-196 [TreeGenerator::generate]: the body, and the
    [while] loop over the sizes of the children.  [fuel] bounds both. *)
Fixpoint tree_gen (fuel : nat) (size : nat) : gen gtree :=
  match fuel with
  | O => GPanic PExpect
  | S fuel =>
      if size =? 0 then GPanic PAssert
      else gbind (kids_gen fuel (size - 1)) (fun kids => GReturn (GTree kids))
  end
with kids_gen (fuel : nat) (size : nat) : gen (list gtree) :=
  match fuel with
  | O => GPanic PExpect
  | S fuel =>
      if size =? 0 then GReturn []
      else GPick size (fun i =>
        let child_size := i + 1 in
        gbind (tree_gen fuel child_size) (fun child =>
        gbind (kids_gen fuel (size - child_size)) (fun children => GReturn (child :: children))))
  end.
