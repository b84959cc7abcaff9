(** Proofs about the helpers for focuses (C73). *)
From Verif Require Export PHarness SpecHarness Properties35.

Set Implicit Arguments.

Lemma join_split_lines (A : list str) l x B : join_lines (A ++ (l ++ x) :: B) = join_lines (A ++ [l]) ++ join_lines (x :: B).
Proof.
  assert (H : forall (l x : str) B, join_lines ((l ++ x) :: B) = l ++ join_lines (x :: B)).
  { intros l1 x1 [|b B1]; [reflexivity|]. rewrite !join_lines_cons by discriminate. rewrite <- app_assoc. reflexivity. }
  induction A as [|a A IH]; cbn [app].
  - rewrite H. reflexivity.
  - rewrite !join_lines_cons by (destruct A; discriminate). rewrite IH. rewrite <- app_assoc. reflexivity.
Qed.

Lemma join_char ch x B : join_lines ((ch :: x) :: B) = ch :: join_lines (x :: B).
Proof. destruct B as [|b B]; [reflexivity|]. rewrite !join_lines_cons by discriminate. reflexivity. Qed.

Section Lines.
Context {pd : PrettyDoc} {env : Env}.

Lemma insert_line (A : list str) l r B ch :
  insert_in_line (A ++ (l ++ r) :: B) (length A) (length l) ch = Ok (A ++ (l ++ ch :: r) :: B).
Proof.
  assert (Hsk : skipn (S (length A)) (A ++ (l ++ r) :: B) = B).
  { rewrite skipn_app. replace (S (length A) - length A) with 1 by lia. rewrite skipn_all2 by lia. reflexivity. }
  unfold insert_in_line. rewrite Hsk. rewrite nth_error_app2 by lia. rewrite Nat.sub_diag. cbn [nth_error].
  unfold insert_char. rewrite (proj2 (Nat.leb_le _ _)) by (rewrite app_length; lia). cbn [bind].
  rewrite firstn_app, Nat.sub_diag, firstn_all. cbn [firstn]. rewrite app_nil_r.
  rewrite skipn_app, Nat.sub_diag, skipn_all. cbn [skipn app].
  rewrite firstn_app, Nat.sub_diag, firstn_all. cbn [firstn]. rewrite app_nil_r. reflexivity.
Qed.

Lemma lines_glue (a b : list event) : forall A l r B, lines_of a = A ++ [l] -> lines_of b = r :: B -> lines_of (a ++ b) = A ++ (l ++ r) :: B.
Proof.
  unfold lines_of. intros A l r B Ha Hb. destruct (lines_app a b []) as (l' & A' & E1 & E2).
  rewrite Ha in E1. apply app_inj_tail in E1 as [<- <-]. rewrite E2. f_equal.
  destruct (lines_cur b l) as (r' & B' & E3 & E4). rewrite Hb in E3. injection E3 as <- <-. exact E4.
Qed.

Lemma joined_text (es : list event) : join_lines (map segs_to_string (lines_of es)) = trace_text es.
Proof.
  assert (G : forall cur, join_lines (map segs_to_string (lines_from cur es)) = segs_to_string cur ++ trace_text es).
  { induction es as [|e es IH]; intros cur; [cbn; rewrite app_nil_r; reflexivity|].
    destruct e; cbn [lines_from trace_text]; try apply IH.
    - rewrite IH, segs_app'. unfold segs_to_string at 2. cbn. rewrite app_nil_r, app_assoc. reflexivity.
    - cbn [map]. rewrite join_lines_cons, IH; [reflexivity|]. destruct (lines_cur es (rev ind)) as (? & ? & _ & ->). discriminate. }
  apply G.
Qed.

Lemma trace_app (a b : list event) : trace_text (a ++ b) = trace_text a ++ trace_text b.
Proof. induction a as [|[] a IH]; cbn [app trace_text]; rewrite ?IH, <- ?app_assoc; auto. Qed.

(** Two insertions: the one that is further back first. *)
Lemma two_insertions (before during after : list event) ups1 fl1 downs1 ups2 fl2 downs2 :
  lines_of before = rev ups1 ++ [left_segments fl1] -> lines_of (during ++ after) = right_segments fl1 :: downs1 ->
  lines_of (before ++ during) = rev ups2 ++ [left_segments fl2] -> lines_of after = right_segments fl2 :: downs2 ->
  map segs_to_string (all_lines ups1 fl1 downs1) = map segs_to_string (lines_of (before ++ during ++ after)) /\
  map segs_to_string (all_lines ups2 fl2 downs2) = map segs_to_string (lines_of (before ++ during ++ after)) /\
  exists ls1 ls2,
    insert_in_line (map segs_to_string (lines_of (before ++ during ++ after))) (length ups2) (length (segs_to_string (left_segments fl2))) 41%N = Ok ls1 /\
    insert_in_line ls1 (length ups1) (length (segs_to_string (left_segments fl1))) 40%N = Ok ls2 /\
    join_lines ls2 = trace_text before ++ [40%N] ++ trace_text during ++ [41%N] ++ trace_text after.
Proof.
  intros H1 H2 H3 H4.
  assert (E1 : lines_of (before ++ during ++ after) = all_lines ups1 fl1 downs1) by (apply lines_glue; auto).
  assert (E2 : lines_of (before ++ during ++ after) = all_lines ups2 fl2 downs2) by (rewrite app_assoc; apply lines_glue; auto).
  split; [rewrite E1; reflexivity|]. split; [rewrite E2; reflexivity|].
  set (S := segs_to_string). set (A := map S (rev ups1)). set (l := S (left_segments fl1)). set (r := S (right_segments fl2)). set (B := map S downs2).
  assert (La : length ups1 = length A) by (unfold A; rewrite map_length, rev_length; reflexivity).
  assert (Lb : length ups2 = length (map S (rev ups2))) by (rewrite map_length, rev_length; reflexivity).
  assert (Tb : trace_text before = join_lines (A ++ [l])) by (rewrite <- joined_text, H1, map_app; reflexivity).
  assert (Ta : trace_text after = join_lines (r :: B)) by (rewrite <- joined_text, H4; reflexivity).
  assert (Ins : insert_in_line (map S (lines_of (before ++ during ++ after))) (length ups2) (length (S (left_segments fl2))) 41%N =
    Ok (map S (rev ups2) ++ (S (left_segments fl2) ++ 41%N :: r) :: B)).
  { rewrite E2. unfold all_lines. rewrite map_app. cbn [map]. unfold S at 2. rewrite segs_app'. rewrite Lb. apply insert_line. }
  exists (map S (rev ups2) ++ (S (left_segments fl2) ++ 41%N :: r) :: B). rewrite Ins, La.
  destruct (lines_cur during []) as (h & M & Ed & _). fold (lines_of during) in Ed. clear Ins.
  assert (E3 : lines_of (before ++ during) = rev ups1 ++ (left_segments fl1 ++ h) :: M) by (apply lines_glue; auto). rewrite H3 in E3.
  assert (Eh : S (left_segments fl1 ++ h) = l ++ S h) by apply segs_app'.
  destruct (rev M) as [|t M'] eqn:Em.
  - assert (M = []) by (rewrite <- (rev_involutive M), Em; reflexivity). subst M. clear Em.
    apply app_inj_tail in E3 as [E3 E4].
    assert (Td : trace_text during = S h) by (rewrite <- joined_text, Ed; reflexivity).
    rewrite E3, E4. fold A. rewrite Eh, <- app_assoc.
    eexists. split; [reflexivity|]. split; [apply insert_line|].
    refine (eq_trans (join_split_lines A l (40%N :: S h ++ 41%N :: r) B) _). rewrite join_char. refine (f_equal2 (@app N) (eq_sym Tb) _). cbn [app]. f_equal.
    change ((S h ++ 41%N :: r) :: B) with ([] ++ (S h ++ 41%N :: r) :: B). refine (eq_trans (join_split_lines [] (S h) (41%N :: r) B) _). rewrite join_char. rewrite Td. refine (f_equal2 (@app N) eq_refl (f_equal (cons _) (eq_sym Ta))).
  - assert (M = rev M' ++ [t]) by (rewrite <- (rev_involutive M), Em; reflexivity). subst M. clear Em.
    change (rev ups1 ++ (left_segments fl1 ++ h) :: rev M' ++ [t]) with (rev ups1 ++ ((left_segments fl1 ++ h) :: rev M') ++ [t]) in E3.
    rewrite app_assoc in E3. apply app_inj_tail in E3 as [E3 E4].
    assert (Td : trace_text during = join_lines (map S (h :: rev M') ++ [S t])) by (rewrite <- joined_text, Ed; change (h :: rev M' ++ [t]) with ((h :: rev M') ++ [t]); rewrite map_app; reflexivity).
    rewrite E3, E4. rewrite map_app. cbn [map]. fold A. rewrite Eh, <- app_assoc. cbn [app].
    eexists. split; [reflexivity|]. split; [apply insert_line|].
    refine (eq_trans (join_split_lines A l (40%N :: S h) (map S (rev M') ++ (S t ++ 41%N :: r) :: B)) _). rewrite join_char. refine (f_equal2 (@app N) (eq_sym Tb) _). cbn [app]. f_equal.
    change (S h :: map S (rev M') ++ (S t ++ 41%N :: r) :: B) with (map S (h :: rev M') ++ (S t ++ 41%N :: r) :: B).
    refine (eq_trans (join_split_lines (map S (h :: rev M')) (S t) (41%N :: r) B) _). rewrite join_char. refine (f_equal2 (@app N) (eq_sym Td) (f_equal (cons _) (eq_sym Ta))).
Qed.
End Lines.
