(** Specification for the texts of errors, positions and notations (C69, C70). *)
From Verif Require Export Show.

Set Implicit Arguments.

(** The number a string of decimal digits stands for: the last digit counts one,
    what is before it counts ten. *)
Inductive numeral : str -> N -> Prop :=
| num_digit d : (d < 10)%N -> numeral [48 + d]%N d
| num_more s n d : numeral s n -> (0 < n)%N -> (d < 10)%N -> numeral (s ++ [48 + d]%N) (10 * n + d)%N.

(** No line break (code 10). *)
Definition single_line (s : str) : Prop := ~ In 10%N s.

(** [s] is part of the message. *)
Definition says (message s : str) : Prop := exists a b, message = a ++ s ++ b.

(** Two notations that differ only in how [Concat]s are grouped, and in the style
    labels of indentations. *)
Inductive regrouped {L C : Type} : notation L C -> notation L C -> Prop :=
| rg_refl n : regrouped n n
| rg_sym n m : regrouped n m -> regrouped m n
| rg_trans n m k : regrouped n m -> regrouped m k -> regrouped n k
| rg_group a b c : regrouped (Concat (Concat a b) c) (Concat a (Concat b c))
| rg_label s l l' n : regrouped (Indent s l n) (Indent s l' n)
| rg_flat n m : regrouped n m -> regrouped (Flat n) (Flat m)
| rg_indent s l n m : regrouped n m -> regrouped (Indent s l n) (Indent s l m)
| rg_concat a b a' b' : regrouped a a' -> regrouped b b' -> regrouped (Concat a b) (Concat a' b')
| rg_choice a b a' b' : regrouped a a' -> regrouped b b' -> regrouped (Choice a b) (Choice a' b')
| rg_check c p a b a' b' : regrouped a a' -> regrouped b b' -> regrouped (Check c p a b) (Check c p a' b')
| rg_style l n m : regrouped n m -> regrouped (Style l n) (Style l m)
| rg_count z o m z' o' m' : regrouped z z' -> regrouped o o' -> regrouped m m' -> regrouped (Count z o m) (Count z' o' m')
| rg_fold f j f' j' : regrouped f f' -> regrouped j j' -> regrouped (Fold f j) (Fold f' j').

(** The literals and indentations of a notation contain no single quote (39). *)
Fixpoint no_quotes {L C : Type} (n : notation L C) : Prop :=
  match n with
  | Literal s => ~ In 39%N s
  | Indent s _ m => ~ In 39%N s /\ no_quotes m
  | Flat m | Style _ m => no_quotes m
  | Concat a b | Choice a b | Check _ _ a b | Fold a b => no_quotes a /\ no_quotes b
  | Count a b c => no_quotes a /\ no_quotes b /\ no_quotes c
  | _ => True
  end.

(** A name: letters, digits and underscores only (the Debug output of a fieldless enum). *)
Definition name_char (c : N) : bool :=
  ((48 <=? c) && (c <=? 57) || (65 <=? c) && (c <=? 90) || (97 <=? c) && (c <=? 122) || (c =? 95))%N.
Definition is_name (s : str) : Prop := forallb name_char s = true.
