(** C72: what the repository's own test of the printer against the oracle
    (tests/standard/pretty_testing.rs, tests/standard/oracle_tests.rs) can find.
    [ev f x]: [f fuel = x] for every sufficiently large fuel.  A test that passes
    returns [Ok tt]; one that fails panics. *)
From Verif Require Export PHarness.

Set Implicit Arguments.

Section Passes.
Context {pd : PrettyDoc} {ideq : IdEq pd}.
Variables (uw : str -> N) (cf : char -> bool).
Variables (r : rdoc) (doc : D).
Hypothesis Hrep : rep r doc.
Hypothesis Hv : valid_doc r.
Hypothesis Hu : unique_ids (id_at r).
Hypothesis Hone : all_once r.
Hypothesis Hm : matched r.
Notation release := (Build_Env uw cf false).
Notation debug := (Build_Env uw cf true).
Hypothesis Hadd : widths_add_up uw.
Hypothesis Hpos : Forall (fun t => 0 < @str_width release t)%N (doc_texts r) \/ doc_has_eol r = false.

Section Width.
Variables (T L w : N) (fl : focused_line) (downs : list line).
Hypothesis Hw : (w < 10000)%N.
Hypothesis HT : (T + L + 10000 < 65536)%N.
Hypothesis Htexts : Forall (fun t => @str_width release t <= T)%N (doc_texts r).
Hypothesis Hprinted : @printed pd release doc w [] FStart None [] fl downs.
Hypothesis Hlines : Forall (fun l => uw (segs_to_string l) <= L)%N (all_lines [] fl downs).
Let text := join_lines (map segs_to_string (all_lines [] fl downs)).

Lemma lines_narrow : narrow_lines (all_lines [] fl downs).
Proof.
  pose proof (@C25_segment_widths pd release ideq r doc Hrep Hv w [] FStart None [] fl downs eq_refl Hprinted) as Hs.
  unfold narrow_lines. rewrite Forall_forall in *. intros l Hl. specialize (Hlines l Hl).
  assert (G : forall l', incl l' l -> (exact_width l' <= uw (segs_to_string l'))%N).
  { induction l' as [|s l' IH]; intros Hi; [unfold exact_width, segs_to_string; cbn; rewrite (uw_nil Hadd); lia|].
    unfold exact_width, segs_to_string in *. cbn [map fold_right concat]. rewrite (Hadd (seg_str s)).
    rewrite (Hs l s Hl (Hi _ (or_introl eq_refl))). cbn [usize_width].
    specialize (IH (fun x Hx => Hi _ (or_intror Hx))). pose proof (N.mod_le (uw (seg_str s)) 65536 ltac:(discriminate)). lia. }
  specialize (G l (incl_refl l)). unfold U16. lia.
Qed.

Lemma debug_printed : exists fl' downs', @printed pd debug doc w [] FStart None [] fl' downs' /\
  all_lines [] fl' downs' = all_lines [] fl downs.
Proof.
  destruct (@debug_layout pd ideq uw cf r doc Hrep Hv w None fl downs Hprinted lines_narrow) as (es & Hes & El).
  destruct (@C01_layout_is_printed pd debug ideq r doc Hrep Hv w None es Hes) as (fl' & downs' & Hp' & El').
  exists fl', downs'. split; [exact Hp'|]. congruence.
Qed.

Lemma test_result expected : (forall ls, expected = Some ls -> join_lines ls = text) ->
  ev (fun n => @assert_pp_impl pd debug n doc w expected) (Ok tt).
Proof.
  intros He. destruct debug_printed as (fl' & downs' & Hp & E).
  apply (@ev_oracle_test pd debug r doc w text expected Hrep).
  - apply (@C08_oracle_returns pd ideq uw cf r doc Hrep Hv Hadd Hpos T L w fl downs Hm Hw HT Htexts Hprinted Hlines).
  - unfold text. rewrite <- E. apply (@C24_to_string_joins_lines pd debug ideq doc w [] FStart [] fl' downs' (rep_finite Hrep) eq_refl Hp).
  - intros path ft Hx Hft. destruct (node_at r path) as [x|] eqn:Ex; [|congruence].
    destruct (@C52_every_node pd debug ideq r doc Hrep Hv Hu Hone w None fl' downs' path x ft Hp Ex Hft) as (ups1 & fl1 & downs1 & H1 & H2).
    exists ups1, fl1, downs1. split; [exact H1|]. unfold text. rewrite H2, E. reflexivity.
  - exact He.
Qed.

(** The test passes for every document that can be printed, whose notations match
    their nodes and show each child (or the text) exactly once, with distinct ids,
    if nothing is so wide that it overflows. *)
Theorem C72_test_passes : ev (fun n => @assert_pp_without_expectation pd debug n doc w) (Ok tt).
Proof. apply test_result. discriminate. Qed.

(** With expected lines: the test passes if they are right, ... *)
Theorem C72_expected_passes expected : join_lines expected = text ->
  ev (fun n => @assert_pp pd debug n doc w expected) (Ok tt).
Proof. intros H. apply test_result. intros ls [= <-]. exact H. Qed.

(** ... and fails if they are not. *)
Theorem C72_unexpected_fails expected : join_lines expected <> text ->
  ev (fun n => @assert_pp pd debug n doc w expected) (Panic PAssert).
Proof.
  intros H. unfold assert_pp, assert_pp_impl. eapply ev_bind_ok.
  - apply (@C08_oracle_returns pd ideq uw cf r doc Hrep Hv Hadd Hpos T L w fl downs Hm Hw HT Htexts Hprinted Hlines).
  - exists 0. intros n _. rewrite join_newlines_lines. unfold compare_lines.
    destruct (str_eqb (join_lines expected) _) eqn:E; [|reflexivity]. apply str_eqb_spec in E. contradiction.
Qed.
End Width.
End Passes.

(** Conversely, whenever the test passes, whatever the document: the oracle,
    [pretty_print_to_string], and the lines printed with any node in focus, at its
    start or its end, are all the same text. *)
Theorem C72_passing_means {pd : PrettyDoc} {env : Env} n doc w expected : assert_pp_impl n doc w expected = Ok tt ->
  exists s, ev (fun n => oracular_pretty_print n doc w) (Ok s) /\ ev (fun n => pretty_print_to_string n doc w) (Ok s) /\
    (forall ls, expected = Some ls -> join_lines ls = s) /\
    forall r path ft, rep r doc -> node_at r path <> None -> ft = FStart \/ ft = FEnd ->
      exists ups fl downs, printed doc w path ft None ups fl downs /\ join_lines (map segs_to_string (all_lines ups fl downs)) = s.
Proof.
  intros H. destruct (@passing_test pd env n doc w expected H) as (s & paths & H1 & H2 & H3 & H4 & H5).
  exists s. split; [|split; [|split; [exact H4|]]].
  - apply (fle_ev (fun n => oracular_pretty_print n doc w) (n := n)); [|exact H1]. intros m Hm. apply oracle_mono. exact Hm.
  - apply (fle_ev (fun n => pretty_print_to_string n doc w) (n := n)); [|exact H2]. intros m Hm. apply to_string_mono. exact Hm.
  - intros r path ft Hr Hx Hft.
    assert (Hin : In path paths).
    { destruct (all_paths_spec Hr) as (l & El & Hl).
      pose proof (fle_ev (fun n => all_paths n doc) (n := n) (fun m Hm => paths_mono Hm doc []) H3) as E3.
      pose proof (ev_det El E3) as [= ->]. apply Hl. exact Hx. }
    destruct (H5 path ft Hin Hft) as (up & fl & down & ups & downs & P1 & P2 & P3 & P4).
    exists ups, fl, downs. split; [|exact P4]. exists up, down. split; [|split].
    + apply (fle_ev (fun n => pretty_print n doc w path ft None) (n := n)); [|exact P1]. intros m Hm. apply pretty_print_mono. exact Hm.
    + apply (fle_ev (fun n => collect n (up_next n) up) (n := n)); [|exact P2]. intros m Hm. apply (collect_mono up_next); [exact Hm|].
      intros p. apply print_prev_line_mono. exact Hm.
    + apply (fle_ev (fun n => collect n (down_next n) down) (n := n)); [|exact P3]. intros m Hm. apply (collect_mono down_next); [exact Hm|].
      intros p. apply print_next_line_mono. exact Hm.
Qed.
