(** Specification for C48: calling [next] again and again, whatever it returns. *)
From Verif Require Export PFuel Iter.

Set Implicit Arguments.

Section SpecIter.
Context {pd : PrettyDoc} {env : Env}.

(** [drained next p items e]: calling [next] on the iterator [p] until it returns
    [None] gives [items]: a line ([inl]) or an error ([inr]) for each call.  [e]
    is how it ended: [None], or the panic that stopped it. *)
Inductive drained (next : nat -> printer -> printer * pres (option line)) :
    printer -> list (line + perr Er) -> option panic -> Prop :=
| drained_none p p' : ev (fun n : nat => next n p) (p', Ok None) -> drained next p [] None
| drained_line p p' l items e :
    ev (fun n : nat => next n p) (p', Ok (Some l)) -> drained next p' items e -> drained next p (inl l :: items) e
| drained_err p p' x items e :
    ev (fun n : nat => next n p) (p', Err x) -> drained next p' items e -> drained next p (inr x :: items) e
| drained_panic p p' x :
    ev (fun n : nat => next n p) (p', Panic x) -> drained next p [] (Some x).

(** What [collect::<Result<Vec<_>, _>>()] makes of those items: it stops at the
    first error. *)
Fixpoint until_failure (items : list (line + perr Er)) (e : option panic) : pres (list line) :=
  match items with
  | [] => match e with None => Ok [] | Some x => Panic x end
  | inr x :: _ => Err x
  | inl l :: items => match until_failure items e with Ok ls => Ok (l :: ls) | Fail f => Fail f end
  end.

End SpecIter.
