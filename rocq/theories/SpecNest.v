(** Documents made of parts: what a node displays, with another notation. *)
From Verif Require Export SpecElab SpecPrint SpecLine.

Set Implicit Arguments.

Section Nest.
Context {pd : PrettyDoc} {env : Env}.

(** The node [r] (its text or children, style, labels, conditions, id), with
    the notation [n]. *)
Definition with_note (r : rdoc) (n : note) : rdoc :=
  match r with
  | RText i s => RText (Info (i_id i) n (i_style i) (i_lookup i) (i_cond i)) s
  | RBranch i ks => RBranch (Info (i_id i) n (i_style i) (i_lookup i) (i_cond i)) ks
  end.

(** The style in which the root of the document is displayed. *)
Definition root_style (r : rdoc) (st : option Sty) : Sty :=
  match st with Some s => style_combine s (i_style (r_info r)) | None => i_style (r_info r) end.

(** What [Indent prefix label] puts before each line, directly inside the root. *)
Definition prefix_seg (r : rdoc) (st : option Sty) (prefix : str) (label : option Lbl) : segment :=
  Segment prefix (str_width prefix)
    match label with
    | Some l => style_combine (root_style r st) (i_lookup (r_info r) l)
    | None => root_style r st
    end.

(** Printing all of [d], from its start, succeeds with the lines [ls]. *)
Definition prints (d : D) (w : N) (st : option Sty) (ls : list line) : Prop :=
  exists fl downs, printed d w [] FStart st [] fl downs /\ ls = all_lines [] fl downs.

End Nest.
