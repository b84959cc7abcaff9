(** Documents that agree on what can be visible (C62). *)
From Verif Require Export SpecPane SpecPane2.

Set Implicit Arguments.

Section Visible.
Context {pd : PrettyDoc} {env : Env} {L : Type}.

(** Two documents (or none), to be displayed with the same options, such that
    whatever printing a window of the first gives that can be seen in [sz],
    printing that of the second gives too.  (Nothing is said about windows whose
    printing fails, and about larger ones.) *)
Definition looks_the_same (sz : size) (a b : option (D * printing_options)) : Prop :=
  match a, b with
  | None, None => True
  | Some (doc, o), Some (doc', o') =>
      o' = o /\
      forall w st ku kd x, (0 < w <= s_width sz)%N -> (N.of_nat (ku + kd) < s_height sz)%N ->
      let part d n := SpecMask.window n d (asked_width o w) (o_focus_path o) (o_focus_target o) (Some st) ku kd in
      ev (part doc) (Ok x) -> ev (part doc') (Ok x)
  | _, _ => False
  end.

End Visible.
