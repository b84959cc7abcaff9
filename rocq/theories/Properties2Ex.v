(** Concrete cases for the theorems of Properties1 and Properties2, and the
    refutation of C07. *)
From Verif Require Export Properties2.
From Coq Require Import String Ascii.

Set Implicit Arguments.

(** Strings as lists of character codes. *)
Fixpoint codes (s : string) : str :=
  match s with EmptyString => [] | String c s' => N_of_ascii c :: codes s' end.

Definition lit {L C} (s : string) : notation L C := Literal (codes s).

(** A list of words in brackets, on one line if it fits, otherwise one word per
    line, indented.  Every word and the list itself have a FocusMark. *)
Definition word_note : notation nat nat := Concat (Style 7 Text) FocusMark.
Definition list_note : notation nat nat :=
  Count (lit "[]")
        (Concat (lit "[") (Concat (Child 0) (lit "]")))
        (Concat (lit "[")
          (Concat FocusMark
            (Concat (Choice (Flat (Fold (Child 0) (Concat Left (Concat (Concat (lit ",") (Choice (lit " ") Newline)) Right))))
                      (Concat (Indent (codes "  ") (Some 9)
                          (Concat Newline (Fold (Child 0) (Concat Left (Concat (Concat (lit ",") Newline) Right)))))
                          Newline))
              (lit "]")))).

Definition word (i : nat) (s : string) : sdoc := Leaf i word_note (codes s).
Definition ex_doc : sdoc :=
  Node 0 list_note [word 1 "apple"; Node 2 list_note [word 3 "kiwi"; word 4 "fig"]; word 5 "pear"; Node 6 list_note []].

#[export] Existing Instance spd.
#[local] Instance debug_env : Env := senv true.

Definition ex_tree : rdoc := s_tree ex_doc.
Definition ex_layout (w : N) : list event :=
  match layout w (doc_shape ex_tree None) with Some es => es | None => [] end.

Fixpoint show (ls : list (list segment)) : list (list str) := map (map seg_str) ls.

Example ex_lines : map segs_to_string (lines_of (ex_layout 16)) =
  map codes ["["%string; "  apple,"%string; "  [kiwi, fig],"%string; "  pear,"%string; "  []"%string; "]"%string].
Proof. vm_compute. reflexivity. Qed.

Example ex_lines_wide : map segs_to_string (lines_of (ex_layout 80)) =
  map codes ["[apple, [kiwi, fig], pear, []]"%string].
Proof. vm_compute. reflexivity. Qed.

(** The hypotheses of the theorems hold of this document. *)
Example ex_rep : rep ex_tree (ex_doc : D). Proof. exact (s_rep ex_doc). Qed.
Example ex_valid : valid_doc ex_tree. Proof. apply s_valid_doc. vm_compute. reflexivity. Qed.
Example ex_finite : finite_doc (ex_doc : D). Proof. exact (rep_finite ex_rep). Qed.
Example ex_unique : unique_ids (id_at ex_tree).
Proof.
  apply ids_unique. vm_compute.
  repeat (constructor; [simpl; intuition discriminate|]). constructor.
Qed.
Example ex_has_layout w : w = 16%N \/ w = 80%N -> layout w (doc_shape ex_tree None) = Some (ex_layout w).
Proof. intros [->| ->]; vm_compute; reflexivity. Qed.
Example ex_linear w : w = 16%N \/ w = 80%N -> linear (ex_layout w).
Proof.
  intros [->| ->]; unfold linear; vm_compute;
  (repeat (constructor; [simpl; intuition discriminate|])); constructor.
Qed.

(** Short texts have additive widths. *)
Fixpoint short_texts (d : sdoc) : bool :=
  match d with
  | Leaf _ _ s => (N.of_nat (List.length s) <? U16)%N
  | Node _ _ ks => forallb short_texts ks
  end.

Lemma short_splittable d : short_texts d = true -> splittable (s_tree d).
Proof.
  assert (Hadd : forall s : str, (N.of_nat (List.length s) <? U16)%N = true -> additive s).
  { intros s H a b c ->. apply N.ltb_lt in H. rewrite !app_length in H. unfold str_width. simpl. rewrite app_length.
    rewrite !N.mod_small; lia. }
  intros H q i s. revert d H. induction q as [|n q IH]; intros d H Hq.
  - destruct d; [|discriminate]. injection Hq as <- <-. auto.
  - simpl in Hq. destruct d as [j nt s'|j nt ks]; simpl in Hq; [destruct n; discriminate|].
    rewrite nth_error_map in Hq. destruct (nth_error ks n) as [k|] eqn:E; [|discriminate]. simpl in Hq.
    eapply IH; [|exact Hq]. simpl in H. eapply forallb_forall in H; [exact H|]. eapply nth_error_In; eauto.
Qed.

Example ex_splittable : splittable ex_tree.
Proof. apply short_splittable. vm_compute. reflexivity. Qed.

(** Splitting a list at a position, for the examples. *)
Lemma split_here {A} n (l : list A) : l = firstn n l ++ skipn n l.
Proof. symmetry. apply firstn_skipn. Qed.

Lemma displayed_yes (es : list (@event spd)) (q : list nat) :
  existsb (fun n => if list_eq_dec Nat.eq_dec (open_path (firstn n es)) q then true else false) (seq 0 (S (List.length es))) = true ->
  displayed es q.
Proof.
  intros H. apply existsb_exists in H as (n & _ & H). exists (firstn n es), (skipn n es). split; [apply split_here|].
  destruct (list_eq_dec _ _ _); [auto|discriminate].
Qed.

(** C06 / C03 / C04: the word "fig" (path [1;1]) is displayed. *)
Example ex_displayed : displayed (ex_layout 16) [1; 1].
Proof. apply displayed_yes. vm_compute. reflexivity. Qed.

(** The theorem's conclusion, and what it says here. *)
Example C03_case : exists ups fl downs,
  printed (ex_doc : D) 16 [1; 1] FStart None ups fl downs /\
  exists before after, ex_layout 16 = before ++ after /\ at_start before [1; 1] /\
    lines_of before = rev ups ++ [left_segments fl] /\ lines_of after = right_segments fl :: downs.
Proof.
  destruct (C06_displayed_accepted ex_rep ex_valid ex_unique 16%N None (ex_has_layout (or_introl eq_refl)) (ex_linear (or_introl eq_refl)) ex_displayed (or_introl eq_refl)) as (ups & fl & downs & H).
  exists ups, fl, downs. split; auto.
  apply (C03_start_focus ex_rep ex_valid ex_unique (ex_has_layout (or_introl eq_refl)) (ex_linear (or_introl eq_refl)) H).
Qed.

(** The same, by running the model. *)
Example C03_run :
  match pretty_print 1000 (ex_doc : D) 16 [1; 1] FStart None with
  | Ok (up, fl, down) =>
      match collect 1000 (up_next 1000) up, collect 1000 (down_next 1000) down with
      | Ok ups, Ok downs =>
          map segs_to_string ups = map codes ["  apple,"%string; "["%string] /\
          segs_to_string (left_segments fl) = codes "  [kiwi, " /\
          segs_to_string (right_segments fl) = codes "fig]," /\
          map segs_to_string downs = map codes ["  pear,"%string; "  []"%string; "]"%string]
      | _, _ => False
      end
  | Fail _ => False
  end.
Proof. vm_compute. repeat split; reflexivity. Qed.

Example C04_run :
  match pretty_print 1000 (ex_doc : D) 16 [1] FEnd None with
  | Ok (_, fl, _) => segs_to_string (left_segments fl) = codes "  [kiwi, fig]" /\ segs_to_string (right_segments fl) = codes ","
  | Fail _ => False
  end.
Proof. vm_compute. split; reflexivity. Qed.

(** C05: the nested list displays its mark (after its opening bracket); the
    empty list (path [3]) is displayed, but no mark of it is. *)
Example C05_case : mark_displayed (ex_layout 16) [1].
Proof. exists (firstn 11 (ex_layout 16)), 2, (skipn 12 (ex_layout 16)). vm_compute. split; reflexivity. Qed.

Example C05_run :
  match pretty_print 1000 (ex_doc : D) 16 [1] FMark None with
  | Ok (_, fl, _) => segs_to_string (left_segments fl) = codes "  [" /\ segs_to_string (right_segments fl) = codes "kiwi, fig],"
  | Fail _ => False
  end.
Proof. vm_compute. split; reflexivity. Qed.

Lemma marks_dec (es : list (@event spd)) (q : list nat) :
  forallb (fun n => match nth_error es n with
                    | Some (EMark _) => negb (if list_eq_dec Nat.eq_dec (open_path (firstn n es)) q then true else false)
                    | _ => true end) (seq 0 (List.length es)) = true -> ~ mark_displayed es q.
Proof.
  intros H (a & j & b & E & Hq). subst es. rewrite forallb_forall in H.
  specialize (H (List.length a)). rewrite in_seq, app_length in H. simpl in H.
  rewrite nth_error_app2, Nat.sub_diag in H by lia. simpl in H. rewrite firstn_app, Nat.sub_diag, firstn_all, app_nil_r in H.
  rewrite Hq in H. destruct (list_eq_dec Nat.eq_dec q q); [|contradiction]. discriminate H. lia.
Qed.

Example C05_missing_case : displayed (ex_layout 16) [3] /\ ~ mark_displayed (ex_layout 16) [3].
Proof.
  split.
  - apply displayed_yes. vm_compute. reflexivity.
  - apply marks_dec. vm_compute. reflexivity.
Qed.

(** C06: the child 4 of the root does not exist; the path [1; 4] is rejected. *)
Lemma displayed_dec (es : list (@event spd)) (q : list nat) :
  forallb (fun n => negb (if list_eq_dec Nat.eq_dec (open_path (firstn n es)) q then true else false)) (seq 0 (S (List.length es))) = true ->
  ~ displayed es q.
Proof.
  intros H (a & b & E & Hq). subst es. rewrite forallb_forall in H.
  specialize (H (List.length a)). rewrite in_seq, app_length in H. simpl in H.
  rewrite firstn_app, Nat.sub_diag, firstn_all, app_nil_r in H.
  rewrite Hq in H. destruct (list_eq_dec Nat.eq_dec q q); [|contradiction]. discriminate H. lia.
Qed.

Example C06_case :
  ev (fun n => pretty_print n (ex_doc : D) 16 [1; 4; 0] FStart None) (Err (InvalidPath 4)).
Proof.
  refine (@C06_not_displayed_rejected _ _ _ ex_tree _ ex_rep ex_valid ex_unique 16%N None _ (ex_has_layout (or_introl eq_refl)) (ex_linear (or_introl eq_refl)) [1] 4 [0] FStart _ _ _).
  - discriminate.
  - apply displayed_yes. vm_compute. reflexivity.
  - apply displayed_dec. vm_compute. reflexivity.
Qed.

(** C02: the text "kiwi" is displayed. *)
Example C02_case : text_displayed (ex_layout 16) [1; 0].
Proof.
  destruct (find (fun n => match nth_error (ex_layout 16) n with
    | Some (EText _ t) => tx_from_text t && if list_eq_dec Nat.eq_dec (open_path (firstn n (ex_layout 16))) [1; 0] then true else false
    | _ => false end) (seq 0 100)) as [n|] eqn:E.
  - apply find_some in E as [_ E]. destruct (nth_error (ex_layout 16) n) as [[j t| | | | |]|] eqn:En; try discriminate.
    apply andb_true_iff in E as [E1 E2]. apply nth_error_split in En as (a & b & Ea & <-).
    exists a, j, t, b. split; auto. split; auto. rewrite Ea in E2.
    rewrite firstn_app, Nat.sub_diag, firstn_all, app_nil_r in E2. destruct (list_eq_dec _ _ _); [auto|discriminate].
  - exfalso. vm_compute in E. discriminate.
Qed.

Example C02_run :
  match pretty_print 1000 (ex_doc : D) 16 [1; 0] (FText 3) None with
  | Ok (_, fl, _) => segs_to_string (left_segments fl) = codes "  [kiw" /\ segs_to_string (right_segments fl) = codes "i, fig],"
  | Fail _ => False
  end.
Proof. vm_compute. split; reflexivity. Qed.

(** C10 / C01 / C09 / C24: this document prints. *)
Example C10_case : exists fl downs,
  printed (ex_doc : D) 16 [] FStart None [] fl downs /\
  Forall (fun l => exact_width l < U16)%N (all_lines [] fl downs).
Proof.
  destruct (C01_layout_is_printed ex_rep ex_valid 16%N None (ex_has_layout (or_introl eq_refl : 16%N = 16%N \/ _))) as (fl & downs & H & E).
  exists fl, downs. split; auto. rewrite <- E.
  assert (Hb : forallb (fun l => exact_width l <? U16)%N (lines_of (ex_layout 16)) = true) by (vm_compute; reflexivity).
  apply Forall_forall. intros l Hl. rewrite forallb_forall in Hb. apply N.ltb_lt. auto.
Qed.

(** ** C07 is false *)

(** The property: focusing in the text of a node that displays no text fails
    with MissingText.  In the code, [seek_text] (pretty_print.rs:465-511) takes
    the next Text it meets, whichever node it belongs to. *)
Definition C07_statement : Prop :=
  forall (pd : PrettyDoc) (env : Env) (ideq : IdEq pd) (r : rdoc) (doc : D) w st es path n,
    rep r doc -> valid_doc r -> unique_ids (id_at r) -> splittable r ->
    layout w (doc_shape r st) = Some es -> linear es ->
    displayed es path -> ~ text_displayed es path ->
    ev (fun k => pretty_print k doc w path (FText n) st) (Fail (FErr MissingText)).

(** The list [()] [word]: focusing "in the text" of the empty node 0 focuses in
    the word after it. *)
Definition bad_doc : sdoc :=
  Node 0 (Concat (Child 0) (Child 1)) [Node 1 (lit "()") []; Leaf 2 Text (codes "word")].

Definition bad_es : list event := match layout 10 (doc_shape (s_tree bad_doc) None) with Some es => es | None => [] end.

Theorem C07_refuted : ~ C07_statement.
Proof.
  intros H.
  assert (Hes : layout 10 (doc_shape (s_tree bad_doc) None) = Some bad_es) by (vm_compute; reflexivity).
  assert (Hlin : linear bad_es) by (unfold linear; vm_compute; (repeat (constructor; [simpl; intuition discriminate|])); constructor).
  assert (Huniq : unique_ids (id_at (s_tree bad_doc))).
  { apply ids_unique. vm_compute. repeat (constructor; [simpl; intuition discriminate|]). constructor. }
  assert (Hval : valid_doc (s_tree bad_doc)) by (apply s_valid_doc; vm_compute; reflexivity).
  assert (Hspl : splittable (s_tree bad_doc)) by (apply short_splittable; vm_compute; reflexivity).
  specialize (H spd debug_env spd_ideq (s_tree bad_doc) (bad_doc : D) 10%N None bad_es [0] 2 (s_rep bad_doc) Hval Huniq Hspl Hes Hlin).
  destruct H as [N H].
  - apply displayed_yes. vm_compute. reflexivity.
  - intros (a & j & t & b & E & Ht & Ho). vm_compute in E.
    destruct a as [|e1 [|e2 [|e3 [|e4 [|e5 [|e6 [|e7 a]]]]]]]; simpl in E; injection E; intros; subst; try discriminate.
  - destruct (@path_accepted spd debug_env spd_ideq (s_tree bad_doc) bad_doc (s_rep bad_doc) Hval Huniq 10%N None bad_es [0] (FText 2) Hes Hlin (fun _ => Hspl))
      as [(ups & fl & downs & pre & post & (up & down & [N' Hp] & _) & _)|[(E & _)|(_ & _ & a & mid & E & Hst & Hm)]].
    + apply displayed_yes. vm_compute. reflexivity.
    + specialize (H (N + N')). specialize (Hp (N + N')). rewrite H in Hp by lia. discriminate Hp. lia.
    + discriminate.
    + destruct Hst as [[E' _]|(q1 & j1 & m & a' & E' & Hq & ->)]; [discriminate|].
      vm_compute in E.
      destruct q1 as [|? [|? ?]]; try discriminate. injection E' as <-. injection Hq as <-.
      destruct a' as [|e1 [|e2 [|e3 [|e4 [|e5 [|e6 [|e7 a']]]]]]]; simpl in E; injection E; intros; subst; try discriminate.
Qed.
