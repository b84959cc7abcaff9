(** The oracle (C08). *)
From Verif Require Export POracle2 Properties5.

Set Implicit Arguments.

Section OracleAgrees.
Context {pd : PrettyDoc} {ideq : IdEq pd}.
Variables (uw : str -> N) (cf : char -> bool).
Variables (r : rdoc) (doc : D).
Hypothesis Hrep : rep r doc.
Hypothesis Hv : valid_doc r.
Notation release := (Build_Env uw cf false).
Notation debug := (Build_Env uw cf true).

(** Widths add up, and either every Literal and Text has positive width, or
    there is no EndOfLine. *)
Hypothesis Hadd : widths_add_up uw.
Hypothesis Hpos : Forall (fun t => 0 < @str_width release t)%N (doc_texts r) \/ doc_has_eol r = false.

Lemma display_join : forall ls a, fold_left (fun acc s => (acc ++ [newline_char]) ++ s) ls a = join_lines (a :: ls).
Proof.
  induction ls as [|l ls IH]; intros a; simpl; auto.
  rewrite IH. destruct ls; simpl; rewrite <- ?app_assoc; reflexivity.
Qed.

Lemma mode_ok T : Forall (fun t => @str_width release t <= T)%N (doc_texts r) -> exists mode, @gdoc pd release mode T r.
Proof.
  intros HT. destruct Hpos as [H|H].
  - exists true. split; [|discriminate]. rewrite Forall_forall in *. intros t Ht. split; auto.
  - exists false. split; auto. rewrite Forall_forall in *. intros t Ht. split; auto. discriminate.
Qed.

Lemma ctx_root st : @gctx pd release (root_ctx r st).
Proof. constructor. Qed.

Lemma any_text : Forall (fun t => @str_width release t <= U16)%N (doc_texts r).
Proof.
  apply Forall_forall. intros t _. unfold str_width. pose proof (N.mod_lt (@usize_width release t) U16). unfold U16 in *. lia.
Qed.

Lemma oracle_parts n w s : @oracular_pretty_print pd debug n doc w = Ok s ->
  exists d c lay, @with_optional_style pd doc None = Ok d /\ @eval pd debug d = Ok c /\
    @opp pd debug n ol_empty c (Some 0%N) w = Ok lay /\ s = ol_display lay.
Proof.
  unfold oracular_pretty_print. intros H. apply bind_ok in H as (d & Hd & H). apply bind_ok in H as (c & Hc & H). apply bind_ok in H as (lay & Hl & [= <-]).
  unfold unwrapped in *. exists d, c, lay.
  destruct (with_optional_style doc None) as [|[]]; try discriminate. injection Hd as ->.
  destruct (@eval pd debug d) as [|[]]; try discriminate. injection Hc as ->.
  destruct (@opp pd debug n ol_empty c (Some 0%N) w) as [|[]]; try discriminate. injection Hl as ->. auto.
Qed.

Lemma oracle_layout n w s : @oracular_pretty_print pd debug n doc w = Ok s ->
  exists es, @layout pd release w (@doc_shape pd release r None) = Some es /\ s = join_lines (map segs_to_string (lines_of es)).
Proof.
  intros H. apply oracle_parts in H as (d & c & lay & Hd & Hc & Hl & ->).
  pose proof (@rep_tree pd debug r doc Hrep Hv None) as Ht. unfold doc_tree in Ht. rewrite Hd in Ht. destruct Ht as [_ Ht].
  rewrite Hc in Ht. destruct (@opps_sound pd debug eq_refl w _ _ _ _ _ _ _ Ht Hl) as [Hw Ho].
  destruct (mode_ok any_text) as (mode & Hm).
  destruct (@opps_rend pd uw cf Hadd mode U16 w _ Hw (@gs_elab pd release mode U16 r Hm _ (ctx_root None)) (i_id (r_info r)) look_end _ _ _ (0%N, false) [] Ho)
    as (es & p' & Hr & _ & E & _).
  - apply suits_end.
  - split; auto. simpl. rewrite (uw_nil Hadd). reflexivity.
  - reflexivity.
  - exists es. split.
    + unfold layout. simpl. simpl in Hr. unfold pos0. rewrite Hr. reflexivity.
    + unfold ol_display. rewrite E. simpl. unfold lines_of. destruct (lines_cur es []) as (x & xs & _ & ->). simpl. apply display_join.
Qed.

(** C08.  Whenever the oracle (in a build with overflow checks) returns a
    string, pretty_print_to_string returns the same string (in a build without
    overflow checks; see the next theorem for builds with checks). *)
Theorem C08_oracle_agrees n w s :
  @oracular_pretty_print pd debug n doc w = Ok s ->
  ev (fun n => @pretty_print_to_string pd release n doc w) (Ok s).
Proof.
  intros H. apply oracle_layout in H as (es & Hes & ->).
  destruct (@C01_layout_is_printed pd release ideq r doc Hrep Hv w None es Hes) as (fl & downs & Hp & ->).
  apply (@C24_to_string_joins_lines pd release ideq doc w [] FStart [] fl downs (rep_finite Hrep) eq_refl Hp).
Qed.

(** C08.  With overflow checks too, if no printed line is wider than a u16 can hold. *)
Theorem C08_oracle_agrees_checked n w s fl downs :
  @oracular_pretty_print pd debug n doc w = Ok s ->
  @printed pd release doc w [] FStart None [] fl downs -> narrow_lines (all_lines [] fl downs) ->
  ev (fun n => @pretty_print_to_string pd debug n doc w) (Ok s).
Proof.
  intros H Hp Hn. pose proof (@C08_oracle_agrees n w s H) as H1.
  pose proof (@C24_to_string_joins_lines pd release ideq doc w [] FStart [] fl downs (rep_finite Hrep) eq_refl Hp) as H2.
  pose proof (ev_det H1 H2) as E.
  destruct (@debug_layout pd ideq uw cf r doc Hrep Hv w None fl downs Hp Hn) as (es & Hes & El).
  destruct (@C01_layout_is_printed pd debug ideq r doc Hrep Hv w None es Hes) as (fl' & downs' & Hp' & El').
  rewrite E, El, El'.
  apply (@C24_to_string_joins_lines pd debug ideq doc w [] FStart [] fl' downs' (rep_finite Hrep) eq_refl Hp').
Qed.

(** C08, conversely.  When pretty_print_to_string prints a document whose
    notations match its nodes, the oracle returns the same string, as long as
    the printing width is below the oracle's limit and nothing is so wide that
    it overflows: no text wider than [T], no line wider than [L]. *)
Theorem C08_oracle_returns T L w fl downs :
  matched r -> (w < 10000)%N -> (T + L + 10000 < 65536)%N ->
  Forall (fun t => @str_width release t <= T)%N (doc_texts r) ->
  @printed pd release doc w [] FStart None [] fl downs ->
  Forall (fun l => uw (segs_to_string l) <= L)%N (all_lines [] fl downs) ->
  ev (fun n => @oracular_pretty_print pd debug n doc w) (Ok (join_lines (map segs_to_string (all_lines [] fl downs)))).
Proof.
  intros Hm Hw HT Ht Hp Hl. destruct (@C01_printed_has_layout pd release ideq r doc Hrep Hv w None [] FStart [] fl downs eq_refl Hp) as (es & Hes & E).
  rewrite E in *. destruct (mode_ok Ht) as (mode & Hmo).
  pose proof (@gs_elab pd release mode T r Hmo _ (ctx_root None)) as Hg.
  pose proof (@matched_no_fail pd release r None Hv Hm) as Hn. simpl in Hn.
  unfold layout, doc_shape in Hes. destruct (rend w (elab r (root_ctx r None)) (i_id (r_info r)) look_end pos0) as [[es' p']|] eqn:Er; [|discriminate]. injection Hes as ->.
  assert (H0 : at_pos uw mode ol_empty (0%N, false)) by (split; auto; simpl; rewrite (uw_nil Hadd); reflexivity).
  destruct (@opps_total pd uw cf Hadd mode T w L _ Hw HT Hg Hn _ _ (Some 0%N) ol_empty _ [] es p' Er) as (lay & Hlay); auto.
  { apply suits_end. }
  { intros n [= <-]. discriminate. }
  destruct (@opps_rend pd uw cf Hadd mode T w _ Hw Hg (i_id (r_info r)) look_end _ _ _ (0%N, false) [] Hlay) as (es2 & p2 & Hr & _ & E2 & _); auto.
  { apply suits_end. }
  unfold pos0 in Er. rewrite Er in Hr. injection Hr as <- <-.
  pose proof (@rep_tree pd debug r doc Hrep Hv None) as Htr. unfold doc_tree in Htr.
  destruct (with_optional_style doc None) as [d|f] eqn:Ed; [|simpl in Htr; discriminate]. destruct Htr as [_ Htr].
  destruct (@den_ok pd debug _ _ d (no_fail_head _ Hn) Htr) as (c & Ec). rewrite Ec in Htr.
  destruct (@opps_complete pd debug eq_refl w _ Hw _ _ _ _ _ Htr Hlay) as (N & HN).
  exists N. intros n Hle. unfold oracular_pretty_print. rewrite Ed. cbn [unwrapped bind]. rewrite Ec. cbn [unwrapped bind]. rewrite HN by auto. cbn [unwrapped bind].
  f_equal. unfold ol_display. rewrite E2. simpl. unfold lines_of. destruct (lines_cur es []) as (x & xs & _ & ->). simpl. apply display_join.
Qed.

End OracleAgrees.
