(** What a generator can generate (C63). *)
From Verif Require Export Generative.

Set Implicit Arguments.

(** Picking these numbers, each below the maximum it was picked with, makes the
    generator return [a]. *)
Inductive chooses {A} : gen A -> list nat -> A -> Prop :=
| chooses_return a : chooses (GReturn a) [] a
| chooses_pick max go_on i picks a : i < max -> chooses (go_on i) picks a -> chooses (GPick max go_on) (i :: picks) a.

(** The generator does not panic and always has something to pick from, as long
    as the numbers picked are below their maxima. *)
Inductive sound {A} : gen A -> Prop :=
| sound_return a : sound (GReturn a)
| sound_pick max go_on : 0 < max -> (forall i, i < max -> sound (go_on i)) -> sound (GPick max go_on).

(** The order of the dictionary. *)
Inductive before : list nat -> list nat -> Prop :=
| before_here i j p q : i < j -> before (i :: p) (j :: q)
| before_later i p q : before p q -> before (i :: p) (i :: q).

(** The notations that the exhaustive test is about, by their number of
    operators and leaves. *)
Inductive made_of : nat -> notation unit unit -> Prop :=
| made_empty : made_of 1 Empty
| made_newline : made_of 1 Newline
| made_eol : made_of 1 EndOfLine
| made_a : made_of 1 (Literal [97%N])
| made_bb : made_of 1 (Literal [98%N; 98%N])
| made_cccc : made_of 1 (Literal [99%N; 99%N; 99%N; 99%N])
| made_flat k x : made_of k x -> made_of (1 + k) (Flat x)
| made_nest k x : made_of k x -> made_of (1 + k) (Indent [32%N; 32%N] None (Concat Newline x))
| made_concat k l x y : made_of k x -> made_of l y -> made_of (1 + k + l) (Concat x y)
| made_choice k l x y : made_of k x -> made_of l y -> made_of (1 + k + l) (Choice x y).

(** The number of nodes of a tree. *)
Fixpoint nodes (t : gtree) : nat :=
  match t with GTree kids => 1 + fold_right (fun k n => nodes k + n) 0 kids end.
