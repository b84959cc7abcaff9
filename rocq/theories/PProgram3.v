(** The JSON program: what it writes, and what a terminal makes of it. *)
From Verif Require Export PProgram2 Properties21.
From Coq Require Import String.

Set Implicit Arguments.

Local Notation jpd := (@tree_doc basic_tree_style).

(** ** Terminals *)
Lemma terminal_app a : forall m col b,
  terminal m col (a ++ b) =
  let '(o1, (m1, col1)) := terminal m col a in let '(o2, st) := terminal m1 col1 b in (o1 ++ o2, st).
Proof.
  induction a as [|c a IH]; intros m col b; cbn [app terminal].
  - destruct (terminal m col b). reflexivity.
  - destruct m as [| |p].
    + destruct (c =? 27)%N; [apply IH|]. rewrite IH. destruct (terminal Normal col a) as [o1 [m1 col1]]. destruct (terminal m1 col1 b) as [o2 st]. reflexivity.
    + destruct (c =? 91)%N; apply IH.
    + destruct (_ && _); apply IH.
Qed.
Lemma terminal_fg c col : terminal Normal col (fg c) = ([], (Normal, Some c)).
Proof. destruct c; reflexivity. Qed.
Lemma terminal_reset col : terminal Normal col fg_reset = ([], (Normal, None)).
Proof. reflexivity. Qed.
Lemma terminal_plain col s : Forall (fun c => c <> 27%N) s ->
  terminal Normal col s = (map (fun c => if (c =? 10)%N then LineEnd else Glyph c col) s, (Normal, col)).
Proof.
  induction 1 as [|c s Hc _ IH]; [reflexivity|]. cbn [terminal map]. rewrite IH. destruct (N.eqb_spec c 27); [contradiction|]. reflexivity.
Qed.

Definition pieces (ls : list (@line jpd)) : list (list (color * str)) :=
  map (map (fun s : @segment jpd => (bs_color (seg_style s), seg_str s))) ls.

Lemma fold_segs l : forall acc, fold_left (fun string s => string ++ segment_to_string s) l acc = acc ++ List.concat (map segment_to_string l).
Proof.
  induction l as [|s l IH]; intros acc; cbn [fold_left map List.concat]; [rewrite app_nil_r; reflexivity|].
  rewrite IH, <- app_assoc. reflexivity.
Qed.
Lemma lines_string ls : lines_to_string ls =
  List.concat (map (fun l => List.concat (map segment_to_string l) ++ [10%N]) ls) ++ fg_reset.
Proof.
  unfold lines_to_string. f_equal.
  assert (H : forall ls acc, fold_left (fun string line => fold_left (fun string s => string ++ segment_to_string s) line string ++ [newline_char]) ls acc =
    acc ++ List.concat (map (fun l => List.concat (map segment_to_string l) ++ [10%N]) ls)); [|apply (H ls [])].
  clear ls. induction ls as [|l ls IH]; intros acc; cbn [fold_left map List.concat]; [rewrite app_nil_r; reflexivity|].
  rewrite IH, fold_segs. rewrite <- !app_assoc. reflexivity.
Qed.

Definition quiet_segs (l : @line jpd) : Prop := Forall (fun s : @segment jpd => Forall (fun c => c <> 27%N) (seg_str s)) l.
Lemma terminal_segs (l : @line jpd) : quiet_segs l -> forall col, exists col',
  terminal Normal col (List.concat (map segment_to_string l)) =
  (List.concat (map (fun s : @segment jpd => map (fun c => if (c =? 10)%N then LineEnd else Glyph c (Some (bs_color (seg_style s)))) (seg_str s)) l), (Normal, col')).
Proof.
  induction 1 as [|s l Hs _ IH]; intros col; cbn [map List.concat]; [exists col; reflexivity|].
  destruct (IH (Some (bs_color (seg_style s)))) as [col' E]. exists col'.
  unfold segment_to_string at 1. rewrite <- app_assoc, terminal_app, terminal_fg, terminal_app, terminal_plain by exact Hs.
  rewrite E. reflexivity.
Qed.
Lemma terminal_lines (ls : list (@line jpd)) : Forall quiet_segs ls -> forall col, exists col',
  terminal Normal col (List.concat (map (fun l => List.concat (map segment_to_string l) ++ [10%N]) ls)) = (shows (pieces ls), (Normal, col')).
Proof.
  unfold shows, pieces. induction 1 as [|l ls Hl _ IH]; intros col; cbn [map List.concat]; [exists col; reflexivity|].
  destruct (terminal_segs Hl col) as [c1 E1]. destruct (IH c1) as [c2 E2]. exists c2.
  rewrite <- app_assoc, terminal_app, E1, terminal_app. change (terminal Normal c1 [10%N]) with ([LineEnd], (Normal, c1)). cbn beta iota. rewrite E2. rewrite (map_map _ _ l). cbn [fst snd].
  rewrite <- !app_assoc. reflexivity.
Qed.
Lemma terminal_output (ls : list (@line jpd)) : Forall quiet_segs ls ->
  terminal Normal None (lines_to_string ls ++ [10%N]) = (shows (pieces ls) ++ [LineEnd], (Normal, None)).
Proof.
  intros H. rewrite lines_string, <- app_assoc, terminal_app. destruct (terminal_lines H None) as [c ->].
  rewrite terminal_app, terminal_reset. reflexivity.
Qed.

Lemma shown_app a b : shown_text (a ++ b) = shown_text a ++ shown_text b.
Proof. apply map_app. Qed.
Lemma shown_shows ls : shown_text (shows ls) = List.concat (map (fun l => List.concat (map snd l) ++ [10%N]) ls).
Proof.
  unfold shows. induction ls as [|l ls IH]; [reflexivity|]. cbn [map List.concat]. rewrite !shown_app, IH. f_equal. f_equal.
  clear. induction l as [|[c s] l IH]; [reflexivity|]. cbn [map List.concat fst snd]. rewrite shown_app, IH. f_equal.
  unfold shown_text. rewrite map_map. rewrite <- (map_id s) at 2. apply map_ext. intros x. destruct (N.eqb_spec x 10); auto.
Qed.
Lemma shown_jlines o : forall cur, shown_text (shows (jlines_from cur o)) = (List.concat (map snd cur) ++ jtext o) ++ [10%N].
Proof.
  intros cur. rewrite shown_shows. revert cur. induction o as [|[c s|p] o IH]; intros cur; cbn [jlines_from jtext map List.concat].
  - rewrite !app_nil_r. reflexivity.
  - rewrite IH, map_app, concat_app. cbn [map List.concat snd]. rewrite app_nil_r, <- !app_assoc. reflexivity.
  - rewrite IH. rewrite <- ?app_assoc. cbn [app]. rewrite <- ?app_assoc. reflexivity.
Qed.

(** ** Characters *)
Lemma spaced_chars (P : char -> Prop) toks s : P 32%N -> P 10%N -> (forall t, In t toks -> Forall P t) -> spaced toks s -> Forall P s.
Proof.
  intros H1 H2 Ht. induction 1 as [|toks s _ IH|toks s _ IH|t toks s _ IH].
  - constructor.
  - constructor; auto.
  - constructor; auto.
  - apply Forall_app. split; [apply Ht; left; reflexivity|]. apply IH. intros x Hx. apply Ht. right. exact Hx.
Qed.
Lemma separate_in (sep : str) (l : list (list str)) t : In t (separate sep l) -> t = sep \/ exists x, In x l /\ In t x.
Proof.
  induction l as [|x l IH]; [intros []|]. cbn [separate]. destruct l as [|y l].
  - intros H. right. exists x. split; [left; reflexivity|exact H].
  - intros H. apply in_app_or in H as [H|[H|H]].
    + right. exists x. split; [left; reflexivity|exact H].
    + left. congruence.
    + destruct (IH H) as [E|(z & Hz & Hi)]; [left; exact E|]. right. exists z. split; [right; exact Hz|exact Hi].
Qed.

Section Chars.
Variable P : char -> Prop.
Lemma all_chars_array l : all_chars P (VArray l) -> forall x, In x l -> all_chars P x.
Proof. cbn [all_chars]. induction l as [|x l IH]; intros H y Hy; [destruct Hy|]. destruct H as [H1 H2]. destruct Hy as [<-|Hy]; auto. Qed.
Lemma all_chars_object l : all_chars P (VObject l) -> forall k x, In (k, x) l -> Forall P k /\ all_chars P x.
Proof.
  cbn [all_chars]. induction l as [|[k x] l IH]; intros H k' y Hy; [destruct Hy|]. destruct H as [H1 [H2 H3]].
  destruct Hy as [E|Hy]; [injection E as <- <-; auto|eauto].
Qed.
Hypothesis HP : Forall P (chars "nulltruefalse[]{},:""").
Lemma P_sub s : incl s (chars "nulltruefalse[]{},:""") -> Forall P s.
Proof. intros H. apply Forall_forall. intros x Hx. rewrite Forall_forall in HP. apply HP. apply H. exact Hx. Qed.
Ltac psub := apply P_sub; intros ?x ?Hx; cbn in *; tauto.
Lemma P_quoted k : Forall P k -> Forall P (string_token k).
Proof.
  intros H. unfold string_token. change (34%N :: k ++ [34%N]) with ([34%N] ++ k ++ [34%N]). rewrite !Forall_app. split; [psub|]. split; [exact H|psub].
Qed.
Lemma tokens_chars v : all_chars P v -> forall t, In t (tokens (value_json v)) -> Forall P t.
Proof.
  induction v as [|b|s|s|l IH|l IH] using value_ind'; intros Hv t Ht; cbn [value_json tokens] in Ht.
  - destruct Ht as [<-|[]]. psub.
  - destruct b; destruct Ht as [<-|[]]; psub.
  - destruct Ht as [<-|[]]. exact Hv.
  - destruct Ht as [<-|[]]. apply P_quoted. exact Hv.
  - pose proof (all_chars_array _ Hv) as Hl. destruct Ht as [<-|Ht]; [psub|]. apply in_app_or in Ht as [Ht|[<-|[]]]; [|psub].
    apply separate_in in Ht as [->|(x & Hx & Ht)]; [psub|]. apply in_map_iff in Hx as (y & <- & Hy). apply in_map_iff in Hy as (z & <- & Hz).
    eapply IH; eauto.
  - pose proof (all_chars_object _ Hv) as Hl. destruct Ht as [<-|Ht]; [psub|]. apply in_app_or in Ht as [Ht|[<-|[]]]; [|psub].
    apply separate_in in Ht as [->|(x & Hx & Ht)]; [psub|]. apply in_map_iff in Hx as (y & <- & Hy). apply in_map_iff in Hy as ([k z] & <- & Hz).
    destruct (Hl _ _ Hz) as [Hk Hzc]. cbn [tokens] in Ht. destruct Ht as [<-|[<-|Ht]]; [apply P_quoted; exact Hk|psub|eapply IH; eauto].
Qed.
End Chars.

Lemma unescaped_chars v : unescaped_value v -> all_chars (fun c => 32 <= c)%N v.
Proof.
  assert (HS : forall s, Forall unescaped s -> Forall (fun c => 32 <= c)%N s).
  { intros s. apply Forall_impl. intros c [H _]. exact H. }
  induction v as [|b|s|s|l IH|l IH] using value_ind'; intros H; try exact I.
  - cbn in *. apply number_chars in H. eapply Forall_impl; [|exact H]. intros c. unfold num_char. lia.
  - apply HS. exact H.
  - induction l as [|x l IHl]; [exact I|]. destruct H as [H1 H2]. split; [apply IH; [left; reflexivity|exact H1]|].
    apply IHl; [|exact H2]. intros y Hy. apply IH. right. exact Hy.
  - induction l as [|[k x] l IHl]; [exact I|]. destruct H as [H0 [H1 H2]]. split; [apply HS; exact H0|]. split; [apply (IH k); [left; reflexivity|exact H1]|].
    apply IHl; [|exact H2]. intros k' y Hy. apply (IH k'). right. exact Hy.
Qed.
Lemma all_chars_impl (P Q : char -> Prop) v : (forall c, P c -> Q c) -> all_chars P v -> all_chars Q v.
Proof.
  intros HPQ. assert (HS : forall s, Forall P s -> Forall Q s) by (intros s; apply Forall_impl; exact HPQ).
  induction v as [|b|s|s|l IH|l IH] using value_ind'; intros H; try exact I; try (apply HS; exact H).
  - induction l as [|x l IHl]; [exact I|]. destruct H as [H1 H2]. split; [apply IH; [left; reflexivity|exact H1]|].
    apply IHl; [|exact H2]. intros y Hy. apply IH. right. exact Hy.
  - induction l as [|[k x] l IHl]; [exact I|]. destruct H as [H0 [H1 H2]]. split; [apply HS; exact H0|]. split; [apply (IH k); [left; reflexivity|exact H1]|].
    apply IHl; [|exact H2]. intros k' y Hy. apply (IH k'). right. exact Hy.
Qed.

(** ** The program *)
Lemma checked_to_doc v : forall c, checked (json_to_doc true v c) (json_to_doc false v c).
Proof.
  assert (HB : forall note ks c, checked (tree_new_branch (ts := basic_tree_style) true note ks c) (tree_new_branch (ts := basic_tree_style) false note ks c))
    by (intros; unfold tree_new_branch, next_id; chk).
  assert (HT : forall note s c, checked (tree_new_text (ts := basic_tree_style) true note s c) (tree_new_text (ts := basic_tree_style) false note s c))
    by (intros; unfold tree_new_text, next_id; chk).
  induction v as [|b|s|s|l IH|l IH] using value_ind'; intros c.
  - apply HB.
  - destruct b; apply HB.
  - apply HT.
  - apply HT.
  - change (checked ('(ts, c) <- elems_to_doc true l c ;; json_array true ts c) ('(ts, c) <- elems_to_doc false l c ;; json_array false ts c)).
    apply checked_bind; [|intros [? ?]; apply HB]. revert c. induction l as [|x l IHl]; intros c; [apply checked_refl|]. cbn [elems_to_doc].
    apply checked_bind; [apply IH; left; reflexivity|]. intros [t c1]. apply checked_bind; [|intros [? ?]; apply checked_refl].
    apply IHl. intros y Hy. apply IH. right. exact Hy.
  - change (checked ('(ts, c) <- entries_to_doc true l c ;; json_object true ts c) ('(ts, c) <- entries_to_doc false l c ;; json_object false ts c)).
    apply checked_bind; [|intros [? ?]; apply HB]. revert c. induction l as [|[k x] l IHl]; intros c; [apply checked_refl|]. cbn [entries_to_doc].
    apply checked_bind; [apply (IH k); left; reflexivity|]. intros [t c1]. apply checked_bind.
    { unfold json_object_pair. apply checked_bind; [apply HT|]. intros [? ?]. apply HB. }
    intros [t' c2]. apply checked_bind; [|intros [? ?]; apply checked_refl].
    apply IHl. intros k' y Hy. apply (IH k'). right. exact Hy.
Qed.

Section Program.
Variables (uw : str -> N) (cf : char -> bool).
Local Notation with_checks := (Build_Env uw cf true).
Local Notation without_checks := (Build_Env uw cf false).

Lemma checked_program n v w : checked (@json_program with_checks n v w) (@json_program without_checks n v w).
Proof.
  unfold json_program. destruct (checked_to_doc v 0%N) as [E|E]; cbn [ovf]; rewrite E; [|right; reflexivity].
  destruct (json_to_doc false v 0%N) as [[doc c]|[[]|p|]]; try apply checked_refl.
  apply checked_bind; [|intros; apply checked_refl]. unfold pretty_print_json.
  apply checked_bind; [apply checked_pretty_print|]. intros [[up fl] down].
  apply checked_bind; [|intros; apply checked_refl]. apply checked_collect. apply checked_down.
Qed.

Lemma program_lines (env : Env) v w doc c fl downs : json_to_doc ovf v 0 = Ok (doc, c) ->
  @printed jpd env doc w [] FStart None [] fl downs ->
  ev (fun n => json_program n v w) (Ok (lines_to_string (all_lines [] fl downs) ++ [10%N])).
Proof.
  intros E (up & down & H1 & _ & H3). unfold json_program. rewrite E. unfold pretty_print_json.
  apply (ev_bind_ok (a := all_lines [] fl downs) (fun _ lines => Ok (lines_to_string lines ++ [newline_char]))); [|exists 0; reflexivity].
  eapply ev_bind_ok; [exact H1|]. cbn beta iota. eapply ev_bind_ok; [exact H3|]. exists 0. reflexivity.
Qed.

(** What is printed. *)
Lemma program_output v w : exists o,
  written (fun _ => false) [] (value_json v) o /\
  spaced (tokens (value_json v)) (jtext o) /\
  ev (fun n => @json_program without_checks n v w) (Ok (lines_to_string (@painted without_checks None o) ++ [10%N])).
Proof.
  destruct (to_doc_total v 0%N) as (doc & c & E). pose proof (to_doc_made _ (fun _ => false) v _ E) as Hm.
  assert (Hd : is_document (value_json v)) by (apply d_entry, e_value, value_is_value).
  destruct (C40_prints uw cf Hm Hd w None) as (fl & downs & o & H1 & H2 & H3). exists o. split; [exact H2|]. split.
  - assert (B : blank []) by (intros ? ? []).
    pose proof (proj1 (adds_written (fun _ => false) []) (value_json v) o H2 B (value_no_comment v) [] [] sp_end) as H. rewrite !app_nil_r in H. exact H.
  - pose proof (@program_lines without_checks v w doc c fl downs E H1) as Q. cbv beta in Q. unfold ev in *. rewrite H3 in Q. exact Q.
Qed.
Lemma pieces_painted (env : Env) o : pieces (painted None o) = jlines o.
Proof.
  unfold pieces, painted. rewrite map_map. rewrite <- (map_id (jlines o)) at 2. apply map_ext. intros l. rewrite map_map.
  rewrite <- (map_id l) at 2. apply map_ext. intros [c s]. reflexivity.
Qed.
Lemma jlines_chars (P : char -> Prop) o : forall cur, Forall P (List.concat (map snd cur) ++ jtext o) ->
  Forall (fun l => Forall (fun x => Forall P (snd x)) l) (jlines_from cur o).
Proof.
  assert (C : forall cur : list (color * str), Forall P (List.concat (map snd cur)) -> Forall (fun x => Forall P (snd x)) cur).
  { induction cur as [|[c s] cur IH]; intros H; constructor; cbn [map List.concat snd] in *; apply Forall_app in H as [H1 H2]; auto. }
  induction o as [|[c s|p] o IH]; intros cur H; cbn [jlines_from jtext] in *.
  - rewrite app_nil_r in H. constructor; [apply C; exact H|constructor].
  - apply IH. rewrite map_app, concat_app. cbn [map List.concat snd]. rewrite app_nil_r, <- app_assoc. exact H.
  - apply Forall_app in H as [H1 H2]. constructor; [apply C; exact H1|]. apply IH. inversion H2. assumption.
Qed.
Lemma painted_quiet (env : Env) o : Forall (fun c => c <> 27%N) (jtext o) -> Forall quiet_segs (painted None o).
Proof.
  intros H. pose proof (jlines_chars o [] H) as H'. unfold painted, quiet_segs. fold (jlines o) in H'.
  rewrite Forall_map. eapply Forall_impl; [|exact H']. intros l Hl. rewrite Forall_map. exact Hl.
Qed.
Lemma program_terminal (env : Env) v o : all_chars (fun c => c <> 27%N) v -> spaced (tokens (value_json v)) (jtext o) ->
  terminal Normal None (lines_to_string (painted None o) ++ [10%N]) = (shows (jlines o) ++ [LineEnd], (Normal, None)).
Proof.
  intros Hv Hs. rewrite terminal_output, pieces_painted; [reflexivity|]. apply painted_quiet.
  eapply spaced_chars; [| | |exact Hs]; [discriminate|discriminate|]. apply tokens_chars; [|exact Hv].
  repeat constructor; discriminate.
Qed.
Lemma program_text (env : Env) v o : all_chars (fun c => c <> 27%N) v -> spaced (tokens (value_json v)) (jtext o) ->
  shown_text (fst (terminal Normal None (lines_to_string (painted None o) ++ [10%N]))) = jtext o ++ [10; 10]%N.
Proof.
  intros Hv Hs. rewrite (program_terminal _ v _ Hv Hs). cbn [fst]. rewrite shown_app. unfold jlines. rewrite shown_jlines.
  cbn. rewrite <- app_assoc. reflexivity.
Qed.
End Program.
