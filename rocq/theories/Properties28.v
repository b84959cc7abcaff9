(** C61: the calls made while printing, and the depth of the recursion. *)
From Verif Require Export PCalls2 PCalls3 Properties24.

Set Implicit Arguments.

(** The notations that are evaluated while a document is printed: that of the
    document, and the parts of those that have been evaluated. *)
Inductive evaluated {pd : PrettyDoc} {env : Env} (doc : D) (st : option Sty) : delayed -> Prop :=
| ev_root d : with_optional_style doc st = Ok d -> evaluated doc st d
| ev_concat_l d a b : evaluated doc st d -> eval d = Ok (CConcat a b) -> evaluated doc st a
| ev_concat_r d a b : evaluated doc st d -> eval d = Ok (CConcat a b) -> evaluated doc st b
| ev_choice_l d a b : evaluated doc st d -> eval d = Ok (CChoice a b) -> evaluated doc st a
| ev_choice_r d a b : evaluated doc st d -> eval d = Ok (CChoice a b) -> evaluated doc st b
| ev_kid d i a : evaluated doc st d -> eval d = Ok (CChild i a) -> evaluated doc st a.

Section Calls.
Context {pd : PrettyDoc} {env : Env}.

Lemma evaluated_parts doc st d c : evaluated doc st d -> eval d = Ok c -> fine_c (evaluated doc st) c.
Proof.
  intros H E. destruct c; simpl; auto; [split|split|].
  - eapply ev_concat_l; eauto.
  - eapply ev_concat_r; eauto.
  - eapply ev_choice_l; eauto.
  - eapply ev_choice_r; eauto.
  - eapply ev_kid; eauto.
Qed.

(** C61.  Printing makes calls only to evaluate those notations: if evaluating
    each of them makes at most [E] calls, then printing makes at most
    [2 * (E + q)] calls for each iteration of its loops (Cost.v), whatever the
    document does. *)
Theorem C61_calls_per_iteration q E doc st : (forall d, evaluated doc st d -> eval_calls q d <= E) ->
  (forall n w path ft ku kd,
   window_calls q n doc w path ft st ku kd <= 2 * (E + q) * (window_cost n doc w path ft st ku kd + 2)) /\
  (st = None -> forall n w, to_string_calls q n doc w <= 2 * (E + q) * (to_string_cost n doc w + 2)).
Proof.
  intros HE. split.
  - intros. apply window_rat with (fine := evaluated doc st); auto; [apply evaluated_parts|]. intros; apply ev_root; auto.
  - intros Hst n w. apply to_string_rat with (fine := evaluated doc st) (st := st); auto; [apply evaluated_parts|]. intros; apply ev_root; auto.
Qed.

Section Shallow.
Variables (H k : nat) (doc : D).
Hypothesis Hk : 1 <= k.
Hypothesis Hdoc : shallow H k doc.

Lemma evaluated_fine st d : evaluated doc st d -> fine H k doc d.
Proof.
  induction 1 as [d Hd|d a b _ IH Hd|d a b _ IH Hd|d a b _ IH Hd|d a b _ IH Hd|d i a _ IH Hd];
    [eapply root_fine; eauto|..]; pose proof (eval_fine Hk Hdoc IH Hd) as F; simpl in F; tauto.
Qed.

(** C61.  The recursion of [eval], which has no bound in the source, goes at most
    [H * (k + 1)] calls deep: with [k = 1], if no fold has a bare [Left], twice
    the nesting of the deepest notation, however large the document is. *)
Theorem C61_eval_depth st d : evaluated doc st d -> eval_calls 0 d <= H * (k + 1).
Proof. intros Hd. pose proof (@fine_calls _ _ 0 H k Hk doc d (evaluated_fine Hd)). lia. Qed.

(** C61.  Each evaluation calls at most four methods of the document per
    recursive call. *)
Theorem C61_eval_calls q st d : evaluated doc st d -> eval_calls q d <= (1 + 4 * q) * (H * (k + 1)).
Proof. intros Hd. apply (@fine_calls _ _ q H k Hk doc d (evaluated_fine Hd)). Qed.
End Shallow.

(** ** Well-behaved documents *)
Lemma reach_node r doc : rep r doc -> forall x, reachable doc x -> exists path x', node_at r path = Some x' /\ rep x' x.
Proof.
  intros Hr x. induction 1 as [|x i y Hx (path & x' & Hp & Hx') Hy]; [exists [], r; auto|].
  destruct x' as [j s|j ks].
  - exfalso. eapply handle_text; eauto. apply (rep_num Hx').
  - pose proof (handle_lt Hy (rep_num Hx')) as Hi. cbn [r_kids] in Hi.
    destruct (nth_error ks i) as [y'|] eqn:E; [|apply nth_error_None in E; lia].
    exists (path ++ [i]), y'. split.
    + clear - Hp E. revert r Hp. induction path as [|m path IH]; intros r Hp; cbn [app node_at] in *.
      * injection Hp as ->. cbn [r_kids]. rewrite E. reflexivity.
      * destruct (nth_error (r_kids r) m); [|discriminate]. auto.
    + inversion Hx' as [|? ? ? H1 H2 H3 H4 H5 H6]; subst. eapply H6; eauto.
Qed.

Lemma node_valid r path : forall x, valid_doc r -> node_at r path = Some x -> valid_doc x.
Proof.
  revert r. induction path as [|m path IH]; intros r x Hv Hp; cbn [node_at] in Hp; [congruence|].
  destruct (nth_error (r_kids r) m) as [y|] eqn:E; [|discriminate]. eapply IH; [|exact Hp].
  eapply valid_kid; eauto. eapply nth_error_In; eauto.
Qed.

(** The same in terms of the tree of the document. *)
Definition shallow_tree (H k : nat) (r : rdoc) : Prop :=
  forall path x, node_at r path = Some x ->
  nesting (i_note (r_info x)) <= H /\ (no_bare_left (i_note (r_info x)) \/ length (r_kids x) <= S k).

Lemma tree_shallow H k r doc : rep r doc -> valid_doc r -> shallow_tree H k r -> shallow H k doc.
Proof.
  intros Hr Hv Ht x n Hx Hn. destruct (reach_node Hr Hx) as (path & x' & Hp & Hx'). destruct (Ht _ _ Hp) as [H1 H2].
  assert (E : n = i_note (r_info x')).
  { inversion Hx' as [i s d Hi|i ks d Hi]; subst; destruct Hi; simpl in *; congruence. }
  subst n. split; [apply valid_note; eapply node_valid; eauto|]. split; [exact H1|]. destruct H2 as [H2|H2]; [left; exact H2|right].
  intros c Hc. rewrite (rep_num Hx') in Hc. destruct x' as [i s|i ks]; cbn in Hc, H2; injection Hc as <- || discriminate. exact H2.
Qed.

(** C61.  So printing a window makes, at any width and with any focus, at most
    quadratically many calls of [eval] and of the methods of the document. *)
Theorem C61_window_calls H k r doc : 1 <= k -> rep r doc -> valid_doc r -> displays_once r -> shallow_tree H k r ->
  forall n w path ft st ku kd,
  window_calls 1 n doc w path ft st ku kd <= 72 * (5 * (H * (k + 1)) + 1) * (doc_parts r + 3) ^ 2.
Proof.
  intros Hk Hr Hv Ho Ht n w path ft st ku kd.
  pose proof (tree_shallow Hr Hv Ht) as Hs.
  destruct (@C61_calls_per_iteration 1 (5 * (H * (k + 1))) doc st (fun d => C61_eval_calls Hk Hs 1 (st := st) (d := d))) as [Hw _].
  specialize (Hw n w path ft ku kd). pose proof (C58_window_quadratic Hr Hv Ho n w path ft st ku kd) as Hc.
  set (E := 5 * (H * (k + 1))) in *. set (S := doc_parts r) in *. set (W := window_cost n doc w path ft st ku kd) in *.
  assert (W + 2 <= 36 * (S + 3) ^ 2) by (simpl in *; nia). nia.
Qed.

Theorem C61_to_string_calls H k r doc : 1 <= k -> rep r doc -> valid_doc r -> displays_once r -> shallow_tree H k r ->
  forall n w, to_string_calls 1 n doc w <= 72 * (5 * (H * (k + 1)) + 1) * (doc_parts r + 3) ^ 2.
Proof.
  intros Hk Hr Hv Ho Ht n w.
  pose proof (tree_shallow Hr Hv Ht) as Hs.
  destruct (@C61_calls_per_iteration 1 (5 * (H * (k + 1))) doc None (fun d => C61_eval_calls Hk Hs 1 (st := None) (d := d))) as [_ Hw].
  specialize (Hw eq_refl n w). pose proof (C58_to_string_quadratic Hr Hv Ho n w) as Hc.
  set (E := 5 * (H * (k + 1))) in *. set (S := doc_parts r) in *. set (W := to_string_cost n doc w) in *.
  assert (W + 2 <= 36 * (S + 3) ^ 2) by (simpl in *; nia). nia.
Qed.

Lemma left_calls_S q evf evj m d jp : dl_join d = Some jp -> jp_index jp = S (S m) ->
  left_calls q evf evj (S (S m)) d =
  q + after (lift (m_unwrap_prev_sibling (jp_child jp) (jp_parent jp) (S m))) (fun child =>
        evj (left_calls q evf evj (S m)) (set_join d (Some (JoinPos (jp_parent jp) child (S m) (jp_first jp) (jp_join jp))))).
Proof. intros Ej Ei. cbn [left_calls]. rewrite Ej, Ei. reflexivity. Qed.

Lemma fold_calls q lc f j d m x : m_num_children (dl_doc d) = MOk (Some (S (S m))) -> m_unwrap_last_child (dl_doc d) = MOk x ->
  eval_n_calls q lc (Fold f j) d =
  S (q + (q + eval_n_calls q (left_calls q (fun h x => eval_n_calls q h f x) (fun h x => eval_n_calls q h j x) (S m)) j
    (set_join d (Some (JoinPos (dl_doc d) x (S m) f j))))).
Proof. intros E1 E2. cbn [eval_n_calls]. rewrite E1. cbn [lift after]. rewrite E2. reflexivity. Qed.

Lemma skip_calls lc c b d jp : dl_join d = Some jp -> m_condition (jp_child jp) c = MOk true ->
  eval_n_calls 0 lc (Check c RightChild Left b) d = S (S (lc d)).
Proof. intros Ej Ec. cbn [eval_n_calls inspect_calls doc_to_inspect]. rewrite Ej. cbn [after]. rewrite Ec. reflexivity. Qed.

(** C61.  A bare [Left] does need the bound on the number of children: a fold
    that skips the children on which a condition holds recurses once per child
    skipped, so that with a long list of them the stack of the program
    overflows. *)
Theorem C61_skipped_children_lower i ks doc st d f c b : rep (RBranch i ks) doc -> i_note i = Fold f (Check c RightChild Left b) ->
  (forall x, In x ks -> i_cond (r_info x) c = true) ->
  with_optional_style doc st = Ok d -> evaluated doc st d /\ 2 * length ks <= eval_calls 0 d + 2.
Proof.
  intros Hr Hn Hc Hd. split; [apply ev_root; exact Hd|].
  pose proof Hr as Hr0. inversion Hr as [|? ? ? H1 H2 H3 H4 H5 H6]; subst. 
  assert (Hi : m_notation doc = MOk (Fold f (Check c RightChild Left b))) by (rewrite <- Hn; destruct H1; assumption).
  unfold with_optional_style in Hd. rewrite Hi in Hd. cbn [lift bind] in Hd. apply bind_ok in Hd. destruct Hd as (s & Hs & Hd). injection Hd as <-.
  destruct (length ks) as [|[|m]] eqn:El; [lia|lia|].
  destruct H4 as [x Hx]; [intros ->; discriminate|].
  unfold eval_calls. cbn [dl_join dl_note]. erewrite fold_calls by (cbn [dl_doc]; eauto). cbn [dl_doc].
  assert (Hh : child_handle doc (S m) x) by (eapply ch_last; eauto; rewrite H2, El; reflexivity).
  set (lc := left_calls 0 (fun h x => eval_n_calls 0 h f x) (fun h x => eval_n_calls 0 h (Check c RightChild Left b) x)).
  assert (Hcond : forall n y, n < S (S m) -> child_handle doc n y -> m_condition y c = MOk true).
  { intros n y Hln Hy. destruct (nth_error ks n) as [k|] eqn:E; [|apply nth_error_None in E; lia].
    pose proof (H6 _ _ _ Hy E) as Hk. rewrite <- (Hc k); [|eapply nth_error_In; eauto]. inversion Hk as [? ? ? Q|? ? ? Q]; subst; destruct Q; auto. }
  assert (Hl : forall n d y, n <= m -> child_handle doc (S n) y -> dl_join d = Some (JoinPos doc y (S n) f (Check c RightChild Left b)) ->
    2 * n <= lc (S n) d).
  { induction n as [|n IH]; intros d y Hln Hy Ej; [lia|]. unfold lc. rewrite (left_calls_S _ _ _ _ Ej) by reflexivity.
    cbn [jp_index jp_child jp_parent jp_first jp_join].
    destruct (H5 (S n) y) as [z Hz]; [lia|exact Hy|]. rewrite Hz. cbn [lift after].
    assert (Hz' : child_handle doc (S n) z) by (eapply ch_prev; eauto).
    rewrite (@skip_calls _ c b _ (JoinPos doc z (S n) f (Check c RightChild Left b))) by (auto; apply (Hcond (S n) z ltac:(lia) Hz')).
    specialize (IH (set_join d (Some (JoinPos doc z (S n) f (Check c RightChild Left b)))) z ltac:(lia) Hz' eq_refl). unfold lc in IH. lia. }
  rewrite (@skip_calls _ c b _ (JoinPos doc x (S m) f (Check c RightChild Left b))) by (auto; apply (Hcond (S m) x ltac:(lia) Hh)).
  fold lc. match goal with |- context [lc (S m) ?d] => pose proof (Hl m d x (le_n _) Hh eq_refl) end. lia.
Qed.

End Calls.
