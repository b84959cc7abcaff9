(** Model of src/doc_examples/style.rs. *)
From Verif Require Export Base.
From Coq Require Import String Ascii.

Set Implicit Arguments.

(** A Rust string literal (ASCII). *)
Fixpoint chars (s : string) : str :=
  match s with
  | EmptyString => []
  | String a s' => N_of_ascii a :: chars s'
  end.

(** std: [==] on [str]. *)
Fixpoint str_eqb (a b : str) : bool :=
  match a, b with
  | [], [] => true
  | x :: a', y :: b' => N.eqb x y && str_eqb a' b'
  | _, _ => false
  end.

(** style.rs:12-22 [Color]; the default is [White]. *)
Inductive color : Type := White | Black | Red | Green | Yellow | Blue | Magenta | Cyan.

(** style.rs:5-8 [BasicStyle]. *)
Record basic_style : Type := BasicStyle { bs_color : color; bs_bold : bool }.

(** style.rs:4 [Default] and 26-28 [new]. *)
Definition bs_default : basic_style := BasicStyle White false.

(** style.rs:31-36 [color] and 39-44 [bold]. *)
Definition bs_with_color (s : basic_style) (c : color) : basic_style := BasicStyle c (bs_bold s).
Definition bs_make_bold (s : basic_style) : basic_style := BasicStyle (bs_color s) true.

(** style.rs:50-55 [Style::combine]. *)
Definition bs_combine (outer inner : basic_style) : basic_style :=
  BasicStyle (bs_color inner) (bs_bold outer || bs_bold inner).

(** style.rs:61-83 [From<&'static str>]: the arms of the match, in order. *)
Definition bs_arms : list (string * basic_style) := [
  ("white", bs_with_color bs_default White);
  ("bold_white", bs_make_bold (bs_with_color bs_default White));
  ("black", bs_with_color bs_default Black);
  ("bold_black", bs_make_bold (bs_with_color bs_default Black));
  ("red", bs_with_color bs_default Red);
  ("bold_red", bs_make_bold (bs_with_color bs_default Red));
  ("green", bs_with_color bs_default Green);
  ("bold_green", bs_make_bold (bs_with_color bs_default Green));
  ("yellow", bs_with_color bs_default Yellow);
  ("bold_yellow", bs_make_bold (bs_with_color bs_default Yellow));
  ("blue", bs_with_color bs_default Blue);
  ("bold_blue", bs_make_bold (bs_with_color bs_default Blue));
  ("magenta", bs_with_color bs_default Magenta);
  ("bold_magenta", bs_make_bold (bs_with_color bs_default Magenta));
  ("cyan", bs_with_color bs_default Cyan);
  ("bold_cyan", bs_make_bold (bs_with_color bs_default Cyan))
]%string.
Definition bs_from (label : str) : basic_style :=
  match find (fun arm => str_eqb label (chars (fst arm))) bs_arms with
  | Some arm => snd arm
  | None => bs_default
  end.
