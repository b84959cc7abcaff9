(** Two documents that behave alike except that some methods of the first
    return errors. *)
From Verif Require Export Printer.

Set Implicit Arguments.

Section SpecMask.
Context {pd : PrettyDoc} {env : Env}.

(** A method of the first answers as the second's, or returns an error. *)
Definition answers {A} (x' x : mres Er A) : Prop := x' = x \/ exists e, x' = MErr e.

Definition answers_node (R : D -> D -> Prop) (x' x : mres Er D) : Prop :=
  (exists e, x' = MErr e) \/ (x' = MPanic /\ x = MPanic) \/
  (exists y' y, x' = MOk y' /\ x = MOk y /\ R y' y).

(** [R d' d]: node [d'] behaves as node [d], except that some of its methods, or
    of the nodes below it, may return errors instead. *)
Definition masks (R : D -> D -> Prop) : Prop :=
  forall d' d, R d' d ->
    answers (m_id d') (m_id d) /\
    answers (m_notation d') (m_notation d) /\
    (forall c, answers (m_condition d' c) (m_condition d c)) /\
    (forall l, answers (m_lookup_style d' l) (m_lookup_style d l)) /\
    answers (m_node_style d') (m_node_style d) /\
    answers (m_num_children d') (m_num_children d) /\
    answers (m_unwrap_text d') (m_unwrap_text d) /\
    (forall i, answers_node R (m_unwrap_child d' i) (m_unwrap_child d i)) /\
    answers_node R (m_unwrap_last_child d') (m_unwrap_last_child d) /\
    (forall p' p i, R p' p -> answers_node R (m_unwrap_prev_sibling d' p' i) (m_unwrap_prev_sibling d p i)).

(** At most [k] lines from an iterator. *)
Fixpoint take_lines (next : printer -> pres (printer * option line)) (k : nat) (p : printer) : pres (list line) :=
  match k with
  | O => Ok []
  | S k' =>
      '(p, ol) <- next p ;;
      match ol with
      | None => Ok []
      | Some l => ls <- take_lines next k' p ;; Ok (l :: ls)
      end
  end.

(** The focused line, [ku] lines above it and [kd] lines below it. *)
Definition window (fuel : nat) (doc : D) (w : N) (path : list nat) (ft : focus_target) (st : option Sty)
    (ku kd : nat) : pres (list line * focused_line * list line) :=
  '(up, fl, down) <- pretty_print fuel doc w path ft st ;;
  ups <- take_lines (up_next fuel) ku up ;;
  downs <- take_lines (down_next fuel) kd down ;;
  Ok (ups, fl, downs).

Definition is_doc_error {A} (x : pres A) : Prop := exists e, x = Err (PrettyDocErr e).

End SpecMask.
