(** Windows of a document of which only a part is open; vertical lists. *)
From Verif Require Export PPeek9.
From Verif Require Import SpecMask.

Set Implicit Arguments.

Section PPeek10.
Context {pd : PrettyDoc} {env : Env} {ideq : IdEq pd}.

(** ** Lines *)

Lemma lines_cut es : forall cur a b, lines_from cur es = a ++ b -> a <> [] -> b <> [] ->
  exists e1 ind e2, es = e1 ++ ENewline ind :: e2 /\ lines_from cur e1 = a /\ lines_from (rev ind) e2 = b.
Proof.
  induction es as [|e es IH]; intros cur a b H Ha Hb; simpl in H.
  - destruct a as [|x [|y a]]; [congruence| |discriminate]. destruct b; [congruence|discriminate].
  - assert (Hcase : (exists ind, e = ENewline ind) \/ exists cur', lines_from cur' es = a ++ b /\ forall e1, lines_from cur (e :: e1) = lines_from cur' e1).
    { destruct e; eauto. }
    destruct Hcase as [(ind & ->)|(cur' & H' & Hc)].
    + destruct a as [|x a]; [congruence|]. injection H as -> H. destruct a as [|y a].
      * exists [], ind, es. auto.
      * destruct (IH _ _ _ H) as (e1 & ind' & e2 & -> & H1 & H2); auto; [discriminate|].
        exists (ENewline ind :: e1), ind', e2. split; auto. split; auto. simpl. rewrite H1. reflexivity.
    + destruct (IH _ _ _ H') as (e1 & ind' & e2 & -> & H1 & H2); auto.
      exists (e :: e1), ind', e2. split; auto. split; auto. rewrite Hc. exact H1.
Qed.

Lemma above_le z ind u all left k : lines_from (rev ind) u = rev all ++ [left] -> k <= length all ->
  above (z ++ Ev (ENewline ind) :: map Ev u) k (firstn k all) left.
Proof.
  intros H Hk. right. destruct (Nat.eq_dec k (length all)) as [->|Hne].
  - rewrite firstn_all. exists z, ind, u. auto.
  - rewrite <- (firstn_skipn k all), rev_app_distr, <- app_assoc in H.
    destruct (@lines_cut _ _ _ _ H) as (e1 & ind' & e2 & -> & _ & H2).
    + intros E. apply (f_equal (@length _)) in E. rewrite rev_length, skipn_length in E. simpl in E. lia.
    + destruct (rev (firstn k all)); discriminate.
    + exists (z ++ Ev (ENewline ind) :: map Ev e1), ind', e2. rewrite map_app. split.
      * rewrite <- app_assoc. reflexivity.
      * split; auto. rewrite firstn_length. lia.
Qed.

Lemma below_le z ind u all right k : lines_from [] u = right :: all -> k <= length all ->
  below (map Ev u ++ Ev (ENewline ind) :: z) k right (firstn k all).
Proof.
  intros H Hk. right. destruct (Nat.eq_dec k (length all)) as [->|Hne].
  - rewrite firstn_all. exists u, ind, z. auto.
  - rewrite <- (firstn_skipn k all) in H. change (right :: firstn k all ++ skipn k all) with ((right :: firstn k all) ++ skipn k all) in H.
    destruct (@lines_cut _ _ _ _ H) as (e1 & ind' & e2 & -> & H1 & _).
    + discriminate.
    + intros E. apply (f_equal (@length _)) in E. rewrite skipn_length in E. simpl in E. lia.
    + exists e1, ind', (map Ev e2 ++ Ev (ENewline ind) :: z). rewrite map_app. split.
      * rewrite <- app_assoc. reflexivity.
      * split; auto. rewrite firstn_length. lia.
Qed.

(** ** The lines that are shown are lines of the full layout *)

Lemma fills_split x y es : fills (x ++ y) es -> exists a b, es = a ++ b /\ fills x a /\ fills y b.
Proof.
  revert es; induction x as [|e x IH]; intros es H; simpl in H.
  - exists [], es. split; auto. split; auto. constructor.
  - inversion H as [|e0 x0 es0 H1|g x0 mid es0 H1]; subst.
    + destruct (IH _ H1) as (a & b & -> & Ha & Hb). exists (e0 :: a), b. split; auto. split; auto. constructor; auto.
    + destruct (IH _ H1) as (a & b & -> & Ha & Hb). exists (mid ++ a), b. rewrite app_assoc. split; auto. split; auto. constructor; auto.
Qed.

Lemma fills_ev u es : fills (map Ev u) es -> es = u.
Proof. revert es; induction u as [|e u IH]; intros es H; inversion H; subst; auto. f_equal; auto. Qed.

Lemma above_full x k ups l es : above x k ups l -> fills x es ->
  exists all, lines_of es = rev all ++ [l] /\ ups = firstn k all.
Proof.
  intros [(u & all & -> & Hl & ->)|(z & ind & u & -> & Hl & Hk)] H.
  - apply fills_ev in H. subst. exists all. auto.
  - apply fills_split in H as (a & b & -> & Ha & Hb). inversion Hb as [|e x0 es0 H1|]; subst. apply fills_ev in H1. subst.
    destruct (lines_app a (ENewline ind :: u) []) as (l0 & ls & H1 & H2).
    exists (ups ++ rev (ls ++ [l0])). unfold lines_of. rewrite H2. cbn [lines_from]. rewrite Hl. split.
    + rewrite rev_app_distr, rev_involutive, <- !app_assoc. reflexivity.
    + rewrite firstn_app, Nat.sub_diag, firstn_all, firstn_O, app_nil_r. reflexivity.
Qed.

Lemma below_full x k r ds es : below x k r ds -> fills x es ->
  exists all, lines_from [] es = r :: all /\ ds = firstn k all.
Proof.
  intros [(d & all & -> & Hl & ->)|(d & ind & z & -> & Hl & Hk)] H.
  - apply fills_ev in H. subst. exists all. auto.
  - apply fills_split in H as (a & b & -> & Ha & Hb). apply fills_ev in Ha. subst a.
    inversion Hb as [|e x0 es0 H1|]; subst.
    destruct (lines_app d (ENewline ind :: es0) []) as (l0 & ls & H1' & H2).
    exists (ds ++ lines_from (rev ind) es0). rewrite H2. cbn [lines_from].
    change (l0 :: lines_from (rev ind) es0) with ([l0] ++ lines_from (rev ind) es0). rewrite app_assoc, <- H1', Hl.
    split; auto. rewrite firstn_app, Nat.sub_diag, firstn_all, firstn_O, app_nil_r. reflexivity.
Qed.

Lemma lines_join a b all l r all' : lines_of a = rev all ++ [l] -> lines_from [] b = r :: all' ->
  lines_of (a ++ b) = rev all ++ (l ++ r) :: all'.
Proof.
  intros Ha Hb. unfold lines_of in *. destruct (lines_app a b []) as (l0 & ls & H1 & H2). rewrite H2.
  rewrite H1 in Ha. apply app_inj_tail in Ha as [-> ->]. f_equal.
  destruct (lines_cur b l) as (r0 & ls0 & E1 & E2). rewrite E2. rewrite E1 in Hb. injection Hb as <- <-. reflexivity.
Qed.

Lemma leads_split ids q x path b c a : leads ids q x path b c a -> x = b ++ c ++ a.
Proof.
  induction 1 as [q l|q l j i m c r path b c' a Hj E H1 H2 H3 H4 Hl IH].
  - rewrite app_nil_r. reflexivity.
  - rewrite E, IH. repeat (rewrite <- ?app_assoc; cbn [app]). reflexivity.
Qed.

End PPeek10.
