(** Base definitions shared by the whole model: results, panics, machine
    arithmetic, and the fuelled loop.  Rust [Result]/[Option] stay data, a panic
    is an explicit failure value, and a Rust [loop]/[while] is [loop]. *)
From Coq Require Export List Arith NArith ZArith Bool Lia.
Export ListNotations.

Set Implicit Arguments.

(** ** Characters and strings *)

(** A Rust [char] is a Unicode scalar value.  Simplification: any [N]. *)
Definition char := N.

(** A Rust [str] is UTF-8 bytes.  Simplification: the list of its characters;
    every operation in the modelled code works at character boundaries. *)
Definition str := list char.

(** ** Panics and errors *)

(** The reasons for which the modelled code can panic. *)
Inductive panic : Type :=
| PLeftOutsideFold      (* consolidated_notation.rs:405 panic! in Left *)
| PRightOutsideFold     (* consolidated_notation.rs:428 panic! in Right *)
| PJoinPosUnwrap        (* consolidated_notation.rs:334,336 join_pos.unwrap() *)
| PUnexpandedChunk      (* pretty_print.rs:313,342,397,438,481,561 panic! "unexpanded chunk" *)
| PPrintAssert          (* pretty_print.rs:266 assert!(self.chunks.is_empty()) *)
| PNoBlock              (* pretty_print.rs:51,52,388,393,417,430,473,525 unwrap() of an empty stack *)
| POverflow             (* arithmetic overflow or underflow with overflow checks on *)
| PDivZero              (* division by zero *)
| PIndex                (* slice index out of bounds, split_off beyond the end *)
| PAssert               (* other assert! *)
| PExpect               (* other expect/unwrap *)
| PMethod.              (* a PrettyDoc method panicked *)

(** consolidated_notation.rs:190-221 [PrintingError]. *)
Inductive perr (E : Type) : Type :=
| InvalidPath (i : nat)
| TextNotationOnTextlessDoc
| ChildIndexOutOfBounds (index : Z) (len : nat)
| ChildNotationOnChildlessDoc
| CheckPosChildIndexOutOfBounds (index : Z) (len : nat)
| CheckPosChildOnChildlessDoc
| CountNotationOnChildlessDoc
| NumChildrenChanged
| TextAfterEndOfLine
| MissingFocusMark
| MissingText
| PrettyDocErr (e : E).

Arguments InvalidPath {E}.
Arguments TextNotationOnTextlessDoc {E}.
Arguments ChildIndexOutOfBounds {E}.
Arguments ChildNotationOnChildlessDoc {E}.
Arguments CheckPosChildIndexOutOfBounds {E}.
Arguments CheckPosChildOnChildlessDoc {E}.
Arguments CountNotationOnChildlessDoc {E}.
Arguments NumChildrenChanged {E}.
Arguments TextAfterEndOfLine {E}.
Arguments MissingFocusMark {E}.
Arguments MissingText {E}.
Arguments PrettyDocErr {E}.

(** Ways in which a computation can fail to return normally.  [X] is the type
    of errors.  [FFuel]: the model ran out of fuel (says nothing about the
    program). *)
Inductive failure (X : Type) : Type :=
| FErr (e : X)
| FPanic (p : panic)
| FFuel.
Arguments FErr {X}.
Arguments FPanic {X}.
Arguments FFuel {X}.

Inductive res (X A : Type) : Type :=
| Ok (a : A)
| Fail (f : failure X).
Arguments Ok {X A}.
Arguments Fail {X A}.

Notation Err e := (Fail (FErr e)).
Notation Panic p := (Fail (FPanic p)).
Notation OutOfFuel := (Fail FFuel).

(** Rust's [?] operator (errors, and panics, propagate). *)
Definition bind {X A B : Type} (r : res X A) (k : A -> res X B) : res X B :=
  match r with
  | Ok a => k a
  | Fail f => Fail f
  end.

Declare Scope res_scope.
Delimit Scope res_scope with res.
Notation "x <- a ;; b" := (bind a (fun x => b))
  (at level 61, a at next level, right associativity) : res_scope.
Notation "' p <- a ;; b" := (bind a (fun x => match x with p => b end))
  (at level 61, p pattern, a at next level, right associativity) : res_scope.
Open Scope res_scope.

Definition is_ok {X A} (r : res X A) : bool :=
  match r with Ok _ => true | Fail _ => false end.

(** Forget which failure happened. *)
Definition to_option {X A} (r : res X A) : option A :=
  match r with Ok a => Some a | Fail _ => None end.

(** ** Machine arithmetic

    geometry.rs:17 [Width = u16].  [ovf] is whether the crate was compiled with
    overflow checks (the default in debug builds, off in release builds). *)
Definition U16 : N := 65536.

Definition add16 {X} (ovf : bool) (a b : N) : res X N :=
  if (a + b <? U16)%N then Ok (a + b)%N
  else if ovf then Panic POverflow
  else Ok ((a + b) mod U16)%N.

(** [iter().sum::<u16>()]: left to right, starting from 0. *)
Fixpoint sum16_from {X} (ovf : bool) (acc : N) (ws : list N) : res X N :=
  match ws with
  | [] => Ok acc
  | w :: ws' => acc' <- add16 ovf acc w ;; sum16_from ovf acc' ws'
  end.
Definition sum16 {X} (ovf : bool) (ws : list N) : res X N := sum16_from ovf 0%N ws.

(** ** Loops *)

Inductive step (S R : Type) : Type :=
| Next (s : S)
| Done (r : R).
Arguments Next {S R}.
Arguments Done {S R}.

(** A Rust loop whose body, run in state [s], either goes round again ([Next])
    or leaves the loop ([Done]); at most [fuel] iterations. *)
Fixpoint loop {X S R : Type} (fuel : nat) (body : S -> res X (step S R)) (s : S) : res X R :=
  match fuel with
  | O => OutOfFuel
  | S fuel' =>
      match body s with
      | Ok (Next s') => loop fuel' body s'
      | Ok (Done r) => Ok r
      | Fail f => Fail f
      end
  end.
