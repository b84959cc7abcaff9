(** C73: what the helpers for focuses of tests/standard/pretty_testing.rs check:
    [assert_pp_seek], [assert_pp_focus] and [assert_pp_region].
    [ev f x]: [f fuel = x] for every sufficiently large fuel.  A test that passes
    returns [Ok tt]; one that fails panics. *)
From Verif Require Export PHarness4.

Set Implicit Arguments.

Section All.
Context {pd : PrettyDoc}.

Section Takes.
Context {env : Env}.

Lemma taken_collected next : forall n p acc ls, loop n (collect_body next) (p, acc) = Ok ls ->
  exists tl, ls = acc ++ tl /\ forall k, taken_lines next k p = Ok (firstn k tl).
Proof.
  induction n as [|n IH]; intros p acc ls H; [discriminate|].
  cbn [loop] in H. unfold collect_body at 1 in H. destruct (next p) as [[p' [l|]]|f] eqn:E; cbn [bind] in H; [| |discriminate].
  - apply IH in H as (tl & -> & Ht). exists (l :: tl). rewrite <- app_assoc. split; [reflexivity|].
    intros [|k]; [reflexivity|]. cbn [taken_lines]. rewrite E. cbn [bind]. rewrite Ht. reflexivity.
  - injection H as <-. exists []. rewrite app_nil_r. split; [reflexivity|]. intros [|k]; [reflexivity|].
    cbn [taken_lines]. rewrite E. reflexivity.
Qed.

Lemma taken_up up ups k : ev (fun n => collect n (up_next n) up) (Ok ups) -> ev (fun n => taken_lines (up_next n) k up) (Ok (firstn k ups)).
Proof.
  intros (N & H). exists N. intros n Hn. specialize (H n Hn). unfold collect in H.
  apply taken_collected in H as (tl & E & Ht). cbn in E. subst. apply Ht.
Qed.
Lemma taken_down down downs k : ev (fun n => collect n (down_next n) down) (Ok downs) -> ev (fun n => taken_lines (down_next n) k down) (Ok (firstn k downs)).
Proof.
  intros (N & H). exists N. intros n Hn. specialize (H n Hn). unfold collect in H.
  apply taken_collected in H as (tl & E & Ht). cbn in E. subst. apply Ht.
Qed.
End Takes.

(** The test [f] compares [actual] with [expected]: it passes if they are the same, and fails otherwise. *)
Definition compares (f : nat -> pres unit) (actual expected : str) : Prop :=
  (actual = expected -> ev f (Ok tt)) /\ (actual <> expected -> ev f (Panic PAssert)).

Lemma compares_if f actual expected : ev f (if str_eqb actual expected then Ok tt else Panic PAssert) -> compares f actual expected.
Proof.
  intros H. split; intros E.
  - rewrite (proj2 (str_eqb_spec actual expected) E) in H. exact H.
  - destruct (str_eqb actual expected) eqn:Es; [apply str_eqb_spec in Es; contradiction|exact H].
Qed.

Lemma ev_unwrapped {A} (f : nat -> pres A) a : ev f (Ok a) -> ev (fun n => unwrapped (f n)) (Ok a).
Proof. intros (N & H). exists N. intros n Hn. rewrite H by lia. reflexivity. Qed.

Section Focus.
Context {env : Env}.

Section Printed.
Variables (doc : D) (w : N) (path : list nat) (ft : focus_target).
Variables (ups : list line) (fl : focused_line) (downs : list line).
Hypothesis Hprinted : printed doc w path ft None ups fl downs.

(** [assert_pp_focus] compares with what is printed, with a bar at the focus:
    between the text above and left of it, and the text right of it and below. *)
Theorem C73_focus expected :
  compares (fun n => assert_pp_focus n doc w path ft expected)
    (join_lines (map segs_to_string (rev ups ++ [left_segments fl])) ++ [124%N] ++
     join_lines (map segs_to_string (right_segments fl :: downs)))
    (join_lines expected).
Proof.
  set (before := join_lines (map segs_to_string (rev ups ++ [left_segments fl]))).
  set (behind := join_lines (map segs_to_string (right_segments fl :: downs))).
  apply compares_if.
  unfold assert_pp_focus. eapply ev_bind_ok; [exact (ev_above_below Hprinted)|]. exists 0. intros n _. cbn beta iota.
  unfold compare_lines, concat_lines. rewrite !join_newlines_lines. rewrite <- !app_assoc. cbn [app].
  rewrite <- map_rev.
  assert (E : join_lines (map segs_to_string (rev ups) ++ ((segs_to_string (left_segments fl) ++ [124%N]) ++ segs_to_string (right_segments fl)) :: map segs_to_string downs) =
    before ++ [124%N] ++ behind).
  { refine (eq_trans (join_split_lines _ _ _ _) _). rewrite app_assoc. refine (f_equal2 (@app N) _ eq_refl).
    unfold before. rewrite map_app. refine (join_split_lines _ _ [124%N] []). }
  rewrite <- app_assoc in E. cbn [app] in E. match goal with |- (if str_eqb ?x _ then _ else _) = _ => replace x with (before ++ [124%N] ++ behind) by exact (eq_sym E) end.
  reflexivity.
Qed.

(** [assert_pp_region]: of [rows] rows, at least two, half are above the focused line,
    and one less is below it. *)
Theorem C73_region rows expected : 2 <= rows ->
  compares (fun n => assert_pp_region n doc w path ft rows expected)
    (join_lines (rev (firstn (rows / 2) (map segs_to_string ups)) ++ focused_to_string fl :: firstn (rows / 2 - 1) (map segs_to_string downs)))
    (join_lines expected).
Proof.
  intros Hr. apply compares_if. unfold assert_pp_region.
  eapply ev_bind_ok.
  - unfold print_region. destruct Hprinted as (up & down & H1 & H2 & H3).
    eapply ev_bind_ok; [apply ev_unwrapped; exact H1|]. cbn beta iota.
    eapply ev_bind_ok; [apply ev_unwrapped; apply taken_up; exact H2|].
    rewrite (proj2 (Nat.eqb_neq (rows / 2) 0)) by (pose proof (Nat.div_le_mono 2 rows 2 ltac:(discriminate) Hr); cbn in *; lia).
    eapply ev_bind_ok; [apply ev_unwrapped; apply taken_down; exact H3|]. exists 0. reflexivity.
  - exists 0. intros n _. unfold compare_lines. rewrite !join_newlines_lines.
    rewrite <- !firstn_map, <- app_assoc. reflexivity.
Qed.

(** There are at most that many lines. *)
Theorem C73_region_rows rows : 2 <= rows ->
  length (rev (firstn (rows / 2) (map segs_to_string ups)) ++ focused_to_string fl :: firstn (rows / 2 - 1) (map segs_to_string downs)) <= rows.
Proof.
  intros Hr. rewrite app_length, rev_length. cbn [length]. pose proof (firstn_le_length (rows / 2) (map segs_to_string ups)).
  pose proof (firstn_le_length (rows / 2 - 1) (map segs_to_string downs)).
  pose proof (Nat.div_mod rows 2 ltac:(discriminate)). pose proof (Nat.div_le_mono 2 rows 2 ltac:(discriminate) Hr). cbn in *. lia.
Qed.

(** With fewer than two rows it panics, and without overflow checks it takes every line below. *)
Theorem C73_region_small rows expected : rows < 2 ->
  (ovf = true -> ev (fun n => assert_pp_region n doc w path ft rows expected) (Panic POverflow)) /\
  (ovf = false -> compares (fun n => assert_pp_region n doc w path ft rows expected)
    (join_lines (focused_to_string fl :: map segs_to_string downs)) (join_lines expected)).
Proof.
  intros Hr.
  assert (G : ev (fun n => assert_pp_region n doc w path ft rows expected)
     (if ovf then Panic POverflow
      else if str_eqb (join_lines (focused_to_string fl :: map segs_to_string downs)) (join_lines expected) then Ok tt else Panic PAssert)).
  2: { split; intros Ho; rewrite Ho in G; [exact G|apply compares_if; exact G]. }
  assert (E : rows / 2 = 0) by (apply Nat.div_small; lia). unfold assert_pp_region, print_region. rewrite E.
  destruct Hprinted as (up & down & H1 & H2 & H3). destruct ovf eqn:Ho.
  - apply ev_bind_fail. eapply ev_bind_ok; [apply ev_unwrapped; exact H1|]. cbn beta iota. exists 0. reflexivity.
  - eapply ev_bind_ok.
    + eapply ev_bind_ok; [apply ev_unwrapped; exact H1|]. cbn beta iota. cbn [taken_lines Nat.eqb].
      eapply ev_bind_ok; [exists 0; reflexivity|]. eapply ev_bind_ok; [apply ev_unwrapped; exact H3|]. exists 0. reflexivity.
    + exists 0. intros n _. unfold compare_lines. rewrite !join_newlines_lines. reflexivity.
Qed.
End Printed.

Section Seek.
Context {ideq : IdEq pd}.
Variables (r : rdoc) (doc : D).
Hypothesis Hrep : rep r doc.
Hypothesis Hv : valid_doc r.
Hypothesis Hu : unique_ids (id_at r).
Variables (w : N) (es : list event).
Hypothesis Hes : layout w (doc_shape r None) = Some es.
Variables (path : list nat) (before during after : list event).
Hypothesis Hfirst : first_display es path before during after.

(** [assert_pp_seek] compares with the text, with the first display of the node in parentheses. *)
Theorem C73_seek expected :
  compares (fun n => assert_pp_seek n doc w path expected)
    (trace_text before ++ [40%N] ++ trace_text during ++ [41%N] ++ trace_text after) (join_lines expected).
Proof.
  apply compares_if.
  destruct (C68_start Hrep Hv Hu w None Hes Hfirst) as (ups1 & fl1 & downs1 & P1 & A1 & B1).
  destruct (C68_end Hrep Hv Hu w None Hes Hfirst) as (ups2 & fl2 & downs2 & P2 & A2 & B2).
  destruct (@two_insertions pd before during after _ _ _ _ _ _ A1 B1 A2 B2) as (L1 & L2 & ls1 & ls2 & I1 & I2 & J).
  unfold assert_pp_seek. eapply ev_bind_ok; [exact (ev_above_below P1)|]. eapply ev_bind_ok; [exact (ev_above_below P2)|].
  exists 0. intros n _. cbn beta iota. rewrite !concat_all_lines, L1, L2, compare_same. cbn [bind].
  rewrite !rev_length, !map_length, I1. cbn [bind]. rewrite I2. cbn [bind]. unfold compare_lines. rewrite !join_newlines_lines, J. reflexivity.
Qed.

(** It panics for a path through the node that the document does not show. *)
Theorem C73_seek_invalid i path2 expected : ~ shows_child before during path i ->
  ev (fun n => assert_pp_seek n doc w (path ++ i :: path2) expected) (Panic PExpect).
Proof.
  intros Hno. unfold assert_pp_seek. apply ev_bind_fail. unfold print_above_and_below. apply ev_bind_fail.
  destruct (@C68_rejected _ _ _ r doc Hrep Hv Hu w None es Hes path i path2 FStart before during after ltac:(discriminate) Hfirst Hno) as (N & H).
  exists N. intros n Hn. rewrite H by lia. reflexivity.
Qed.
End Seek.
End Focus.
End All.
