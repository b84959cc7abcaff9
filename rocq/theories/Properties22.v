(** The JSON program of examples/json.rs (C56): what it writes to the terminal,
    and that this can be read as JSON again. *)
From Verif Require Export PProgram3.
From Coq Require Import String.

Set Implicit Arguments.

Section Program.
Variables (uw : str -> N) (cf : char -> bool).
Local Notation with_checks := (Build_Env uw cf true).
Local Notation without_checks := (Build_Env uw cf false).
Local Notation build checks := (Build_Env uw cf checks).
Notation width := (@str_width without_checks).

(** C56.  A release build prints every value, at every width.  A build with
    overflow checks prints the same, or panics at an overflow. *)
Theorem C56_prints v w : exists out,
  ev (fun n => @json_program without_checks n v w) (Ok out) /\
  exists N, forall n, N <= n ->
    @json_program with_checks n v w = Ok out \/ @json_program with_checks n v w = Panic POverflow.
Proof.
  destruct (program_output uw cf v w) as (o & _ & _ & H). eexists. split; [exact H|]. destruct H as [N H]. exists N. intros n Hn.
  destruct (checked_program uw cf n v w) as [E|E]; [left; rewrite E; apply H; exact Hn|right; exact E].
Qed.

(** What any build prints. *)
Lemma any_output checks v w out : ev (fun n => @json_program (build checks) n v w) (Ok out) ->
  exists o, written (fun _ => false) [] (value_json v) o /\ spaced (tokens (value_json v)) (jtext o) /\
    out = lines_to_string (@painted without_checks None o) ++ [10%N].
Proof.
  intros H. destruct (program_output uw cf v w) as (o & H1 & H2 & H3). exists o. split; [exact H1|]. split; [exact H2|].
  assert (H' : ev (fun n => @json_program without_checks n v w) (Ok out)).
  { destruct checks; [|exact H]. eapply ev_checked_ok; [|exact H]. intros n. apply checked_program. }
  pose proof (ev_det H' H3) as E. injection E as ->. reflexivity.
Qed.

(** C56.  The terminal shows one of the ways to write the value (C40), in the
    colors of its parts, then an empty line; and it is left in the state in which
    it was found.  (If no string contains an escape character.) *)
Theorem C56_terminal checks v w out : all_chars (fun c => c <> 27%N) v ->
  ev (fun n => @json_program (build checks) n v w) (Ok out) ->
  exists o, written (fun _ => false) [] (value_json v) o /\
    terminal Normal None out = (shows (jlines o) ++ [LineEnd], (Normal, None)).
Proof.
  intros Hv H. destruct (any_output checks _ _ H) as (o & H1 & H2 & ->). exists o. split; [exact H1|]. apply (program_terminal _ _ _ Hv H2).
Qed.

(** C56.  And if no line is too wide for a u16, it is the way that C40 describes,
    which depends on the width. *)
Theorem C56_layout checks v w out : all_chars (fun c => c <> 27%N) v ->
  narrow_lines (@painted without_checks None (pretty_json (fun _ => false) width N.add w (value_json v))) ->
  ev (fun n => @json_program (build checks) n v w) (Ok out) ->
  terminal Normal None out = (shows (jlines (pretty_json (fun _ => false) width N.add w (value_json v))) ++ [LineEnd], (Normal, None)).
Proof.
  intros Hv Hn H. destruct (to_doc_total v 0%N) as (doc & c & E). pose proof (to_doc_made _ (fun _ => false) v _ E) as Hm.
  assert (Hd : is_document (value_json v)) by (apply d_entry, e_value, value_is_value).
  destruct (C40_layout uw cf Hm Hd false w None Hn) as (fl & downs & Hp & Hl).
  pose proof (@program_lines without_checks v w doc c fl downs E Hp) as Q. unfold ev in Q. rewrite Hl in Q.
  assert (H' : ev (fun n => @json_program without_checks n v w) (Ok out)).
  { destruct checks; [|exact H]. eapply ev_checked_ok; [|exact H]. intros n. apply checked_program. }
  pose proof (ev_det H' Q) as Eo. injection Eo as ->. apply (program_terminal _ v _ Hv).
  destruct (C40_prints uw cf Hm Hd w None) as (fl' & downs' & o & H1 & H2 & H3).
  destruct (printed_det Hp H1) as (_ & <- & <-).
  assert (B : blank []) by (intros ? ? []).
  pose proof (proj1 (adds_written (fun _ => false) []) (value_json v) o H2 B (value_no_comment v) [] [] sp_end) as S. rewrite !app_nil_r in S.
  assert (Et : jtext o = jtext (pretty_json (fun _ => false) width N.add w (value_json v))); [|rewrite <- Et; exact S].
  pose proof (eq_trans (eq_sym H3) Hl) as Ep. apply (f_equal (fun l => join_lines (map segs_to_string l))) in Ep. unfold painted in Ep.
  change (map (map _) (jlines ?o)) with (map (map (@jseg without_checks false)) (jlines_from [] o)) in Ep.
  rewrite !(@join_jlines without_checks false _ []) in Ep. exact Ep.
Qed.

(** C56.  Then a build with overflow checks prints it too, if there are fewer
    than 2^32 nodes. *)
Theorem C56_prints_checked checks v w :
  narrow_lines (@painted without_checks None (pretty_json (fun _ => false) width N.add w (value_json v))) ->
  (nodes v < U32)%N ->
  exists out, ev (fun n => @json_program (build checks) n v w) (Ok out).
Proof.
  intros Hn Hc. destruct (@to_doc_counts checks v 0%N) as (doc & E); [lia|]. pose proof (to_doc_made _ (fun _ => false) v _ E) as Hm.
  assert (Hd : is_document (value_json v)) by (apply d_entry, e_value, value_is_value).
  destruct (C40_layout uw cf Hm Hd checks w None Hn) as (fl & downs & Hp & Hl).
  eexists. eapply (@program_lines (build checks)); eassumption.
Qed.

(** C56.  What is shown can be read as JSON again (RFC 8259), and is the value
    that was printed, if no string has a character that needs to be escaped. *)
Theorem C56_reads checks v w out : unescaped_value v ->
  ev (fun n => @json_program (build checks) n v w) (Ok out) ->
  json_text v (shown_text (fst (terminal Normal None out))).
Proof.
  intros Hv H. destruct (any_output checks _ _ H) as (o & H1 & H2 & ->).
  assert (Hc : all_chars (fun c => c <> 27%N) v) by (apply (@all_chars_impl (fun c => 32 <= c)%N); [intros c Hc; lia|apply unescaped_chars; exact Hv]).
  rewrite (program_text _ v _ Hc H2). apply text_ws; [apply spaced_text; assumption|]. constructor; [auto|]. constructor; [auto|constructor].
Qed.

(** C56.  So at no width are two different values shown alike. *)
Theorem C56_distinct checks checks' v v' w w' out out' : unescaped_value v -> unescaped_value v' ->
  ev (fun n => @json_program (build checks) n v w) (Ok out) ->
  ev (fun n => @json_program (build checks') n v' w') (Ok out') ->
  shown_text (fst (terminal Normal None out)) = shown_text (fst (terminal Normal None out')) -> v = v'.
Proof.
  intros Hv Hv' H H' E. eapply text_unique; [eapply C56_reads; eassumption|]. rewrite E. eapply C56_reads; eassumption.
Qed.

(** C56.  A value that fits on one line is shown on one line. *)
Lemma fits_output checks v w out : (out_width width (on_one_line (value_json v)) <= w)%N ->
  ev (fun n => @json_program (build checks) n v w) (Ok out) ->
  out = lines_to_string (@painted without_checks None (on_one_line (value_json v))) ++ [10%N].
Proof.
  intros Hf H. destruct (to_doc_total v 0%N) as (doc & c & E). pose proof (to_doc_made _ (fun _ => false) v _ E) as Hm.
  assert (Hd : is_document (value_json v)) by (apply d_entry, e_value, value_is_value).
  destruct (json_layout uw cf Hm Hd w None) as (es & H1 & H2). destruct (made_jtree Hm) as [Hjt _].
  destruct (@C01_layout_is_printed jpd without_checks _ _ _ (C46_tree_is_well_behaved doc) (@jtree_valid without_checks (fun _ => false) _ doc Hjt) w None es H1)
    as (fl & downs & Hp & Hls).
  pose proof (@program_lines without_checks v w doc c fl downs E Hp) as Q. unfold ev in Q. rewrite <- Hls, H2 in Q.
  assert (H' : ev (fun n => @json_program without_checks n v w) (Ok out)).
  { destruct checks; [|exact H]. eapply ev_checked_ok; [|exact H]. intros n. apply checked_program. }
  pose proof (ev_det H' Q) as Eo. injection Eo as ->.
  replace (pretty (fun _ => false) width wadd w [] 0 0 (value_json v)) with (on_one_line (value_json v)); [reflexivity|].
  pose proof (value_no_comment v) as Hc.
  assert (F : negb (has_comment (value_json v)) && (0 + out_width width (on_one_line (value_json v)) + 0 <=? w)%N = true).
  { rewrite Hc. apply N.leb_le. lia. }
  destruct v as [| | | |l|l]; try reflexivity; (destruct l as [|x l]; [reflexivity|]); cbn [value_json map] in *; cbn [pretty]; rewrite F; reflexivity.
Qed.
Lemma fits_spaced v : spaced (tokens (value_json v)) (jtext (on_one_line (value_json v))).
Proof.
  assert (H : written (fun _ => false) [] (value_json v) (on_one_line (value_json v))) by (constructor; [apply value_no_comment|apply value_is_value]).
  assert (B : blank []) by (intros ? ? []).
  pose proof (proj1 (adds_written (fun _ => false) []) (value_json v) _ H B (value_no_comment v) [] [] sp_end) as S. rewrite !app_nil_r in S. exact S.
Qed.
Theorem C56_one_line checks v w out : all_chars (fun c => c <> 27%N) v -> (out_width width (on_one_line (value_json v)) <= w)%N ->
  ev (fun n => @json_program (build checks) n v w) (Ok out) ->
  exists l, jlines (on_one_line (value_json v)) = [l] /\ terminal Normal None out = (shows [l] ++ [LineEnd], (Normal, None)).
Proof.
  intros Hv Hf H. rewrite (fits_output checks v Hf H).
  rewrite (program_terminal _ v _ Hv (fits_spaced v)).
  pose proof (jlines_no_break (on_one_line (value_json v)) [] (one_line_no_break (value_json v))) as L. fold (jlines (on_one_line (value_json v))) in L.
  destruct (jlines _) as [|l [|]]; try discriminate. eauto.
Qed.

(** C56.  The characters of a string are written as they are.  So what is shown
    for a string with a quote is not JSON, at any width ... *)
Theorem C56_escape_refuted checks w out :
  ev (fun n => @json_program (build checks) n (VString [34%N]) w) (Ok out) ->
  forall v, ~ json_text v (shown_text (fst (terminal Normal None out))).
Proof.
  intros H. destruct (any_output checks _ _ H) as (o & H1 & H2 & ->).
  assert (Hc : all_chars (fun c => c <> 27%N) (VString [34%N])) by (repeat constructor; discriminate).
  rewrite (program_text _ _ _ Hc H2). clear H H2. cbn [value_json] in H1.
  inversion H1 as [x _ _ E1 E2| | | | | |]. subst x o. clear H1. cbn [on_one_line quoted jtext app]. 
  intros v (a & s & b & E & Ha & Hs & Hb).
  destruct a as [|x a]; [|inversion Ha; subst; cbn in E; injection E as E0; lia]. clear Ha. cbn [app] in E.
  assert (Hv : exists src, s = 34%N :: src ++ [34%N] /\ exists t, string_body src t).
  { destruct Hs; cbn in E; try discriminate; [|eauto].
    apply number_chars in H. destruct s as [|c s]; [destruct Hb as [|? ? Hb _]; [discriminate|injection E as <- _; lia]|].
    inversion H as [|? ? H0 _]. cbn in E. injection E as <- _. unfold num_char in H0. lia. }
  destruct Hv as (src & -> & t & Ht). destruct Ht as [|c src t Hc' _|e c src t He _|a1 a2 a3 a4 n src t _ _ _|a1 a2 a3 a4 a5 a6 a7 a8 hi lo src t _ _ _ _ _]; cbn in E; try discriminate.
  - injection E as <-. inversion Hb. lia.
  - injection E as <- _. destruct Hc' as (_ & Hq & _). lia.
Qed.

(** ... and two different values can be shown alike. *)
Definition two_strings : value := VArray [VString (chars "a"); VString (chars "b")].
Definition one_string : value := VArray [VString (chars "a" ++ [34%N] ++ chars ", " ++ [34%N] ++ chars "b")].
Theorem C56_same_text_refuted checks w out out' : 
  (out_width width (on_one_line (value_json two_strings)) <= w)%N ->
  (out_width width (on_one_line (value_json one_string)) <= w)%N ->
  ev (fun n => @json_program (build checks) n two_strings w) (Ok out) ->
  ev (fun n => @json_program (build checks) n one_string w) (Ok out') ->
  two_strings <> one_string /\ shown_text (fst (terminal Normal None out)) = shown_text (fst (terminal Normal None out')).
Proof.
  intros Hf Hf' H H'. rewrite (fits_output checks _ Hf H), (fits_output checks _ Hf' H'). split; [unfold two_strings, one_string; congruence|].
  rewrite (program_text _ two_strings _), (program_text _ one_string _); try apply fits_spaced; [reflexivity| |]; cbn; repeat constructor; discriminate.
Qed.
End Program.
