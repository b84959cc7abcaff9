(** Concrete cases for C68. *)
From Verif Require Export Properties35 Properties34Ex.
From Coq Require Import String.

Set Implicit Arguments.

#[local] Existing Instance debug_env.

(** A document whose child 0 is displayed twice:
<<
<kiwi>; <kiwi>
>>
    with a mark after each "<". *)
Definition twice : sdoc :=
  Node 0 (Concat (Child 0) (Concat (lit "; ") (Child 0)))
    [Node 1 (Concat (lit "<") (Concat FocusMark (Concat (Child 0) (lit ">")))) [word 2 "kiwi"]].
Definition twice_tree := s_tree twice.
Definition laid (w : N) (d : sdoc) : list (@event spd) :=
  match layout w (doc_shape (s_tree d) None) with Some es => es | None => [] end.

Example twice_rep : rep twice_tree (twice : D). Proof. exact (s_rep twice). Qed.
Example twice_valid : valid_doc twice_tree. Proof. apply s_valid_doc. vm_compute. reflexivity. Qed.
Example twice_unique : unique_ids (id_at twice_tree).
Proof. apply ids_unique. vm_compute. repeat (constructor; [simpl; intuition discriminate|]). constructor. Qed.
Example twice_layout : layout 40 (doc_shape twice_tree None) = Some (laid 40 twice).
Proof. vm_compute. reflexivity. Qed.
Example twice_splittable : splittable twice_tree.
Proof. apply short_splittable. vm_compute. reflexivity. Qed.
Example twice_lines : map segs_to_string (lines_of (laid 40 twice)) = [codes "<kiwi>; <kiwi>"].
Proof. vm_compute. reflexivity. Qed.
Example twice_not_linear : ~ linear (laid 40 twice).
Proof. unfold linear. vm_compute. intros H. inversion H as [|? ? H1 _]. apply H1. simpl. auto. Qed.

(** Checking a first display. *)
Definition path_eqb (p q : list nat) : bool := if list_eq_dec Nat.eq_dec p q then true else false.
Definition no_enter (before b : list (@event spd)) (q : list nat) (i : nat) : bool :=
  forallb (fun n => match nth_error b n with
    | Some (EEnter _ k) => negb ((k =? i) && path_eqb (open_path (before ++ firstn n b)) q)
    | _ => true end) (seq 0 (List.length b)).
Definition no_exit (before b : list (@event spd)) (q : list nat) (i : nat) : bool :=
  forallb (fun n => match nth_error b n with
    | Some (EExit _ k) => negb ((k =? i) && path_eqb (open_path (before ++ firstn n b)) q)
    | _ => true end) (seq 0 (List.length b)).

Lemma split_nth {A} (x : list A) e y : nth_error (x ++ e :: y) (List.length x) = Some e /\ firstn (List.length x) (x ++ e :: y) = x.
Proof. split; [rewrite nth_error_app2 by lia; rewrite Nat.sub_diag; reflexivity|]. rewrite firstn_app, Nat.sub_diag, firstn_all. apply app_nil_r. Qed.

Lemma no_enter_ok before b q i : no_enter before b q i = true ->
  forall x j y, b = x ++ EEnter j i :: y -> open_path (before ++ x) <> q.
Proof.
  intros H x j y -> Ho. unfold no_enter in H. rewrite forallb_forall in H.
  assert (Hin : In (List.length x) (seq 0 (List.length (x ++ EEnter j i :: y)))) by (apply in_seq; rewrite app_length; simpl; lia).
  apply H in Hin. destruct (split_nth x (EEnter j i) y) as [-> E] in Hin. rewrite (proj2 (split_nth x _ y)), Nat.eqb_refl in Hin.
  unfold path_eqb in Hin. destruct (list_eq_dec _ _ _); [discriminate|contradiction].
Qed.
Lemma no_exit_ok before b q i : no_exit before b q i = true ->
  forall x j y, b = x ++ EExit j i :: y -> open_path (before ++ x) <> q.
Proof.
  intros H x j y -> Ho. unfold no_exit in H. rewrite forallb_forall in H.
  assert (Hin : In (List.length x) (seq 0 (List.length (x ++ EExit j i :: y)))) by (apply in_seq; rewrite app_length; simpl; lia).
  apply H in Hin. destruct (split_nth x (EExit j i) y) as [-> E] in Hin. rewrite (proj2 (split_nth x _ y)), Nat.eqb_refl in Hin.
  unfold path_eqb in Hin. destruct (list_eq_dec _ _ _); [discriminate|contradiction].
Qed.

(** Child [i] from event [n] of the display, for [m] events. *)
Lemma child_display (es : list (@event spd)) q before during after n m j i :
  first_display es q before during after ->
  during = firstn n during ++ EEnter j i :: firstn m (skipn (S n) during) ++ EExit j i :: skipn (S (S n) + m) during ->
  open_path (before ++ firstn n during) = q ->
  no_enter before (firstn n during) q i = true ->
  open_path (before ++ firstn n during ++ EEnter j i :: firstn m (skipn (S n) during)) = q ++ [i] ->
  no_exit (before ++ firstn n during ++ [EEnter j i]) (firstn m (skipn (S n) during)) (q ++ [i]) i = true ->
  first_display es (q ++ [i]) (before ++ firstn n during ++ [EEnter j i]) (firstn m (skipn (S n) during))
    (EExit j i :: skipn (S (S n) + m) during ++ after).
Proof.
  intros H E H1 H2 H3 H4. rewrite E in H. apply fd_child; auto.
  - apply no_enter_ok. exact H2.
  - intros x j' y Ex. pose proof (@no_exit_ok _ _ _ _ H4 x j' y Ex) as Hn. rewrite <- !app_assoc in Hn. exact Hn.
Qed.

(** Child 0 of the document, and its child: the left "<kiwi>" and "kiwi". *)
Example twice_root : first_display (laid 40 twice) [] [] (laid 40 twice) [].
Proof. constructor. Qed.

(** The left "<kiwi>"... *)
Definition es2 : list (@event spd) := laid 40 twice.
Definition left_before : list (@event spd) := Eval vm_compute in firstn 1 es2.
Definition left_during : list (@event spd) := Eval vm_compute in firstn 7 (skipn 1 es2).
Definition left_after : list (@event spd) := Eval vm_compute in skipn 8 es2.
Example left_first : first_display es2 [0] left_before left_during left_after.
Proof.
  refine (@child_display es2 [] [] es2 [] 0 7 0 0 twice_root _ _ _ _ _); vm_compute; reflexivity.
Qed.
(** ...and its "kiwi". *)
Definition kiwi_before : list (@event spd) := Eval vm_compute in firstn 4 es2.
Definition kiwi_during : list (@event spd) := Eval vm_compute in firstn 2 (skipn 4 es2).
Definition kiwi_after : list (@event spd) := Eval vm_compute in skipn 6 es2.
Example kiwi_first : first_display es2 [0; 0] kiwi_before kiwi_during kiwi_after.
Proof.
  refine (@child_display es2 [0] left_before left_during left_after 2 2 1 0 left_first _ _ _ _ _); vm_compute; reflexivity.
Qed.

Definition show_lines (ls : list (list (@segment spd))) := map segs_to_string ls.

Lemma last_line (ls ups : list (list (@segment spd))) x : ls = rev ups ++ [x] -> rev ls = x :: ups.
Proof. intros ->. rewrite rev_app_distr, rev_involutive. reflexivity. Qed.

Example C68_start_case : exists ups fl downs, printed (twice : D) 40 [0; 0] FStart None ups fl downs /\
  ups = [] /\ segs_to_string (left_segments fl) = codes "<" /\ segs_to_string (right_segments fl) = codes "kiwi>; <kiwi>" /\ downs = [].
Proof.
  destruct (C68_start twice_rep twice_valid twice_unique 40 None twice_layout kiwi_first) as (ups & fl & downs & H & E1 & E2).
  exists ups, fl, downs. split; [exact H|]. destruct fl as [fll flr]. apply last_line in E1. vm_compute in E1. injection E1 as <- <-.
  vm_compute in E2. injection E2 as <- <-. repeat split; reflexivity.
Qed.
Example C68_end_case : exists ups fl downs, printed (twice : D) 40 [0; 0] FEnd None ups fl downs /\
  ups = [] /\ segs_to_string (left_segments fl) = codes "<kiwi" /\ segs_to_string (right_segments fl) = codes ">; <kiwi>" /\ downs = [].
Proof.
  destruct (C68_end twice_rep twice_valid twice_unique 40 None twice_layout kiwi_first) as (ups & fl & downs & H & E1 & E2).
  exists ups, fl, downs. split; [exact H|]. destruct fl as [fll flr]. apply last_line in E1. vm_compute in E1. injection E1 as <- <-.
  vm_compute in E2. injection E2 as <- <-. repeat split; reflexivity.
Qed.
Example C68_mark_case : exists ups fl downs, printed (twice : D) 40 [0] FMark None ups fl downs /\
  ups = [] /\ segs_to_string (left_segments fl) = codes "<".
Proof.
  destruct (C68_mark twice_rep twice_valid twice_unique 40 None twice_layout left_first) as [(ups & fl & downs & mid & j & rest & H & E & [Ho Hn] & E1 & E2)|[_ Hno]].
  - exists ups, fl, downs. split; [exact H|].
    assert (Em : mid = firstn 1 left_during).
    { destruct mid as [|e0 [|e1 mid]]; [discriminate| |].
      - injection E as <- _ _. reflexivity.
      - exfalso. injection E as <- <- E. eapply (Hn [_]); reflexivity. }
    rewrite Em in E1. destruct fl as [fll flr]. apply last_line in E1. vm_compute in E1. injection E1 as <- <-.
    split; reflexivity.
  - exfalso. eapply (Hno [_]); reflexivity.
Qed.
Example C68_text_case : exists ups fl downs, printed (twice : D) 40 [0] (FText 3) None ups fl downs.
Proof.
  destruct (C68_text twice_rep twice_valid twice_unique 40 None twice_layout 3 twice_splittable left_first) as [(ups & fl & downs & mid & j & t & rest & la & lb & H & _)|[_ Hno]].
  - eauto.
  - exfalso. specialize (Hno 2 (Textual (codes "kiwi") 4 [100; 101; 102; 7] true)). simpl in Hno. discriminate Hno. auto 10.
Qed.
Example C68_rejected_case : ev (fun n => pretty_print n (twice : D) 40 [0; 3; 1] FEnd None) (Fail (FErr (InvalidPath 3))).
Proof.
  refine (C68_rejected twice_rep twice_valid twice_unique 40 None twice_layout (path1 := [0]) (i := 3) [1] FEnd _ left_first _); [discriminate|].
  intros (x & j & y & E & Ho). assert (H : no_enter left_before left_during [0] 3 = true) by (vm_compute; reflexivity).
  exact (@no_enter_ok _ _ _ _ H x j y E Ho).
Qed.
Example C68_child_first_case : exists before during after, first_display es2 [0; 0] before during after.
Proof.
  destruct (C68_child_first twice_rep twice_valid twice_unique 40 None twice_layout (i := 0) left_first) as (a & b & c & H & _).
  - exists (firstn 2 left_during), 1, (skipn 3 left_during). split; reflexivity.
  - eauto.
Qed.

(** A node displayed twice, in two ways: child 0 is "abc" if it fits, otherwise
    its own child.
<<
abc
longz
>>
    The node "z" is displayed, but not by the first display of its parent: its
    path is rejected.  So C06 does need that nodes are displayed once. *)
Definition two_ways : sdoc :=
  Node 0 (Concat (Child 0) (Concat Newline (Concat (lit "long") (Child 0))))
    [Node 1 (Choice (lit "abc") (Child 0)) [word 2 "z"]].
Example two_rep : rep (s_tree two_ways) (two_ways : D). Proof. exact (s_rep two_ways). Qed.
Example two_valid : valid_doc (s_tree two_ways). Proof. apply s_valid_doc. vm_compute. reflexivity. Qed.
Example two_unique : unique_ids (id_at (s_tree two_ways)).
Proof. apply ids_unique. vm_compute. repeat (constructor; [simpl; intuition discriminate|]). constructor. Qed.
Example two_layout : layout 5 (doc_shape (s_tree two_ways) None) = Some (laid 5 two_ways).
Proof. vm_compute. reflexivity. Qed.
Example two_lines : show_lines (lines_of (laid 5 two_ways)) = [codes "abc"; codes "longz"].
Proof. vm_compute. reflexivity. Qed.

Definition abc_during : list (@event spd) := Eval vm_compute in firstn 1 (skipn 1 (laid 5 two_ways)).
Example abc_first : first_display (laid 5 two_ways) [0] (firstn 1 (laid 5 two_ways)) abc_during (skipn 2 (laid 5 two_ways)).
Proof.
  refine (@child_display (laid 5 two_ways) [] [] (laid 5 two_ways) [] 0 1 0 0 (fd_root _) _ _ _ _ _); vm_compute; reflexivity.
Qed.
Example C06_needs_linear : displayed (laid 5 two_ways) [0; 0] /\
  ev (fun n => pretty_print n (two_ways : D) 5 [0; 0] FStart None) (Fail (FErr (InvalidPath 0))).
Proof.
  split; [apply displayed_yes; vm_compute; reflexivity|].
  refine (C68_rejected two_rep two_valid two_unique 5 None two_layout (path1 := [0]) (i := 0) [] FStart _ abc_first _); [discriminate|].
  intros (x & j & y & E & Ho).
  assert (H : no_enter (firstn 1 (laid 5 two_ways)) abc_during [0] 0 = true) by (vm_compute; reflexivity).
  exact (@no_enter_ok _ _ _ _ H x j y E Ho).
Qed.
