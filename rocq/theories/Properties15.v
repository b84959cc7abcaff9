(** The iterators after an error (C48).

    [up_next_left] and [down_next_left] (Iter) are [next] of the two iterators
    that pretty_print returns: the iterator that is left, and what was returned.
    [drained] (SpecIter) calls [next] until it returns [None]. *)
From Verif Require Export Properties2 PIter.

Set Implicit Arguments.

Section Iterators.
Context {pd : PrettyDoc} {env : Env} {ideq : IdEq pd}.

(** C48.  Whatever [next] returns, errors included, a caller who goes on calling
    it gets to the end: [None], or a panic. *)
Theorem C48_draining_ends doc w path ft st up fl down :
  finite_doc doc ->
  ev (fun n => pretty_print n doc w path ft st) (Ok (up, fl, down)) ->
  (exists items e, drained up_next_left up items e) /\
  (exists items e, drained down_next_left down items e).
Proof.
  intros Hf Hpp. destruct (finite_tree st Hf) as (root & Ht & Hr).
  destruct (@iter_drained pd env _ (nofuel_eol doc) (@nofuel_ovf _ _ doc)) with (doc := doc) (st := st) (root := root)
    (w := w) (path := path) (ft := ft) (up := up) (fl := fl) (down := down) as [(i1 & e1 & H1 & _) (i2 & e2 & H2 & _)]; auto.
  - intros [H _]. apply H. reflexivity.
  - split; eauto.
Qed.

(** C48.  What is drained does not depend on how long one waits: it is a function
    of the iterator. *)
Theorem C48_drained_once next p items e items' e' :
  drained next p items e -> drained next p items' e' -> items' = items /\ e' = e.
Proof.
  intros H. revert items' e'. induction H; intros items' e' H';
    inversion H'; subst; match goal with A : ev _ _, B : ev _ _ |- _ => pose proof (ev_det A B) as E end; try discriminate E; auto.
  - injection E as <- <-. destruct (IHdrained _ _ H2) as [-> ->]. auto.
  - injection E as <- <-. destruct (IHdrained _ _ H2) as [-> ->]. auto.
  - injection E as <- <-. auto.
Qed.

(** C48.  Collecting the lines is draining, up to the first error: what follows
    an error never changes what came before it. *)
Theorem C48_down_until_error p items e :
  drained down_next_left p items e ->
  ev (fun n => collect n (down_next n) p) (until_failure items e).
Proof.
  intros H. pose proof (loops_ev (@drained_collect pd _ _ down_left_eq p items e H [])) as E. unfold collect.
  destruct (until_failure items e); exact E.
Qed.

Theorem C48_up_until_error p items e :
  drained up_next_left p items e ->
  ev (fun n => collect n (up_next n) p) (until_failure items e).
Proof.
  intros H. pose proof (loops_ev (@drained_collect pd _ _ up_left_eq p items e H [])) as E. unfold collect.
  destruct (until_failure items e); exact E.
Qed.

(** C48.  After [None] comes [None]. *)
Theorem C48_none_is_final p q :
  (ev (fun n => down_next_left n p) (q, Ok None) -> q = p) /\
  (ev (fun n => up_next_left n p) (q, Ok None) -> q = p).
Proof.
  split; intros [N H]; specialize (H N (le_n _)).
  - unfold down_next_left in H. destruct (pr_next p) as [|b bs]; [congruence|].
    destruct (loop_left _ _ _ _) as [l [[p' b']|f]]; cbn [bind] in H; [|discriminate].
    destruct (block_print b'); discriminate.
  - unfold up_next_left in H. destruct (pr_prev p) as [|b bs]; [congruence|].
    destruct (loop_left _ _ _ _) as [l [[p' b']|f]]; cbn [bind] in H; [|discriminate].
    destruct (block_print b'); discriminate.
Qed.

(** ** Validated documents *)
Variables (r : rdoc) (doc : D).
Hypothesis Hrep : rep r doc.
Hypothesis Hv : valid_doc r.

(** C48.  For a well-behaved document, the errors before and after the first one
    are of the same kinds (C10), and the only panic is the overflow of a width,
    when overflows are checked. *)
Theorem C48_only_these_failures w path ft st up fl down items e :
  ev (fun n => pretty_print n doc w path ft st) (Ok (up, fl, down)) ->
  drained up_next_left up items e \/ drained down_next_left down items e ->
  (forall x, In (inr x) items -> x = TextAfterEndOfLine \/ mismatch_error x) /\
  (forall x, e = Some x -> x = POverflow /\ ovf = true).
Proof.
  intros Hpp Hd.
  assert (H : ending_ok val_fail items e).
  { destruct (@iter_drained pd env _ (val_eol) (@val_ovf _ _)) with (doc := doc) (st := st) (root := doc_shape r st)
      (w := w) (path := path) (ft := ft) (up := up) (fl := fl) (down := down) as [(i1 & e1 & H1 & H1') (i2 & e2 & H2 & H2')]; auto.
    - apply rep_tree; auto.
    - apply rep_root_ok; auto.
    - destruct Hd as [Hd|Hd];
        [destruct (C48_drained_once H1 Hd) as [-> ->]|destruct (C48_drained_once H2 Hd) as [-> ->]]; auto. }
  destruct H as [H1 H2]. split.
  - intros x Hx. destruct (H1 x Hx) as [H| ->]; auto.
  - intros x Hx. apply (H2 x Hx).
Qed.

End Iterators.
