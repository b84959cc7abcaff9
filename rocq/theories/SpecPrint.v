(** What a caller of pretty_print observes. *)
From Verif Require Export PFuel Printer.

Set Implicit Arguments.

Section SpecPrint.
Context {pd : PrettyDoc} {env : Env}.

(** The call succeeds with focused line [fl], and collecting the two iterators
    gives the lines [ups] (upward, nearest first) and [downs] (downward). *)
Definition printed (doc : D) (w : N) (path : list nat) (ft : focus_target) (st : option Sty)
    (ups : list line) (fl : focused_line) (downs : list line) : Prop :=
  exists up down,
    ev (fun n => pretty_print n doc w path ft st) (Ok (up, fl, down)) /\
    ev (fun n => collect n (up_next n) up) (Ok ups) /\
    ev (fun n => collect n (down_next n) down) (Ok downs).

(** The call, or one of the two iterators, fails with [f]. *)
Definition print_fails (doc : D) (w : N) (path : list nat) (ft : focus_target) (st : option Sty)
    (f : failure (perr Er)) : Prop :=
  ev (fun n => pretty_print n doc w path ft st) (Fail f) \/
  exists up fl down,
    ev (fun n => pretty_print n doc w path ft st) (Ok (up, fl, down)) /\
    (ev (fun n => collect n (up_next n) up) (Fail f) \/
     ev (fun n => collect n (down_next n) down) (Fail f)).

(** All the lines, top to bottom. *)
Definition all_lines (ups : list line) (fl : focused_line) (downs : list line) : list line :=
  rev ups ++ (left_segments fl ++ right_segments fl) :: downs.

Definition is_text_target (ft : focus_target) : bool :=
  match ft with FText _ => true | _ => false end.

End SpecPrint.
