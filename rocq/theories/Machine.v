(** Unsigned machine arithmetic of any size.  [m] is the number of values
    (2^16 for u16, 2^32 for u32, 2^64 for usize); [ovf] is whether the crate was
    compiled with overflow checks.  Simplification: usize has 64 bits. *)
From Verif Require Export Base.

Set Implicit Arguments.

Definition U32 : N := 2 ^ 32.
Definition USIZE : N := 2 ^ 64.

Definition addM {X} (m : N) (ovf : bool) (a b : N) : res X N :=
  if (a + b <? m)%N then Ok (a + b)%N
  else if ovf then Panic POverflow
  else Ok ((a + b) mod m)%N.

Definition subM {X} (m : N) (ovf : bool) (a b : N) : res X N :=
  if (b <=? a)%N then Ok (a - b)%N
  else if ovf then Panic POverflow
  else Ok ((m + a - b) mod m)%N.

Definition mulM {X} (m : N) (ovf : bool) (a b : N) : res X N :=
  if (a * b <? m)%N then Ok (a * b)%N
  else if ovf then Panic POverflow
  else Ok ((a * b) mod m)%N.

(** Division and remainder panic on zero in every build. *)
Definition divM {X} (a b : N) : res X N := if (b =? 0)%N then Panic PDivZero else Ok (a / b)%N.
Definition modM {X} (a b : N) : res X N := if (b =? 0)%N then Panic PDivZero else Ok (a mod b)%N.

(** [as]: truncation. *)
Definition castM (m : N) (a : N) : N := (a mod m)%N.

(** [iter().sum()]. *)
Fixpoint sumM_from {X} (m : N) (ovf : bool) (acc : N) (l : list N) : res X N :=
  match l with
  | [] => Ok acc
  | x :: l' => acc <- addM m ovf acc x ;; sumM_from m ovf acc l'
  end.
Definition sumM {X} (m : N) (ovf : bool) (l : list N) : res X N := sumM_from m ovf 0%N l.

(** [iter().map(f).collect()] where [f] may panic. *)
Fixpoint mapM {X A B} (f : A -> res X B) (l : list A) : res X (list B) :=
  match l with
  | [] => Ok []
  | x :: l' => y <- f x ;; ys <- mapM f l' ;; Ok (y :: ys)
  end.

(** The range [a..b]. *)
Definition range (a b : N) : list N :=
  map (fun i => a + N.of_nat i)%N (seq 0 (N.to_nat (b - a))).
