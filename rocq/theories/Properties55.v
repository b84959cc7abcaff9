(** C41: the order in which a style is built does not matter. *)
From Verif Require Import BasicStyle.

Theorem C41_builders_commute s c :
  bs_with_color (bs_make_bold s) c = bs_make_bold (bs_with_color s c).
Proof. reflexivity. Qed.

(** Bold green, in either order. *)
Example C41_builders_case :
  bs_with_color (bs_make_bold bs_default) Green = BasicStyle Green true /\
  bs_make_bold (bs_with_color bs_default Green) = BasicStyle Green true.
Proof. split; reflexivity. Qed.
Print Assumptions C41_builders_commute.
