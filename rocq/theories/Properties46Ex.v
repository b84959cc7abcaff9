(** Concrete cases for C78. *)
From Verif Require Export Properties46 Properties35Ex Properties4Ex.
From Coq Require Import String.

Set Implicit Arguments.

#[local] Existing Instance debug_env.

Definition shown (n : nat) (d : sdoc) (w : N) path ft : option (list str * str * str * list str) :=
  match @pretty_print spd _ n (d : D) w path ft None with
  | Ok (up, fl, down) =>
      match collect n (up_next n) up, collect n (down_next n) down with
      | Ok ups, Ok downs => Some (map segs_to_string ups, segs_to_string (left_segments fl), segs_to_string (right_segments fl), map segs_to_string downs)
      | _, _ => None
      end
  | _ => None
  end.

Example C78_shown : shown 1000 twice 40 [0] (FText 3) = Some ([], codes "<kiw", codes "i>; <kiwi>", []).
Proof. vm_compute. reflexivity. Qed.

Example C78_one_cut_case : exists ups fl downs fl0 downs0 before s after,
  printed (twice : D) 40 [0] (FText 3) None ups fl downs /\
  printed (twice : D) 40 [] FStart None [] fl0 downs0 /\
  all_lines [] fl0 downs0 = rev ups ++ (before ++ s :: after) :: downs /\
  left_segments fl = before ++ [Segment (firstn 3 (seg_str s)) (str_width (firstn 3 (seg_str s))) (seg_style s)] /\
  right_segments fl = Segment (skipn 3 (seg_str s)) (str_width (skipn 3 (seg_str s))) (seg_style s) :: after.
Proof.
  destruct C68_text_case as (ups & fl & downs & H).
  destruct (C78_one_cut twice_rep twice_valid twice_unique twice_splittable H) as (fl0 & downs0 & b & s & a & H').
  exists ups, fl, downs, fl0, downs0, b, s, a. split; [exact H|exact H'].
Qed.
Example C78_only_the_focus_fails_case : exists fl0 downs0, printed (twice : D) 40 [] FStart None [] fl0 downs0 /\
  print_fails (twice : D) 40 [0; 3; 1] FEnd None (FErr (InvalidPath 3)).
Proof.
  destruct (C01_layout_is_printed twice_rep twice_valid 40 None twice_layout) as (fl & downs & H & _).
  exists fl, downs. split; [exact H|]. left. exact C68_rejected_case.
Qed.

(** [splittable] is needed.  The widths of unicode-width (0.1.13 and later) are not
    additive: the sequence woman, zero-width joiner, laptop is displayed as one
    character of width 2, but woman (2) and joiner, laptop (2) take 4 columns.
    With the focus between them, the choice after the text takes its second option,
    though it takes its first one in the document printed from the start: the rest
    of the document moves when the focus does. *)
Definition coder : str := [128105; 8205; 128187]%N.
Definition char_cols (c : N) : N := if (c <? 128)%N then 1 else if (c =? 8205)%N then 0 else 2.
Definition emoji_env : Env := {|
  usize_width := fun s => if list_eq_dec N.eq_dec s coder then 2%N else fold_right N.add 0%N (map char_cols s);
  char_full_width := fun c => (char_cols c =? 2)%N; ovf := true |}.
Definition emoji_doc : sdoc :=
  Leaf 0 (Concat Text (Choice (lit "abc") (Concat Newline (lit "abc")))) coder.

Lemma emoji_fuel w path ft (K : nat) ups fl downs up down :
  (forall m, @pretty_print spd emoji_env (K + m) (emoji_doc : D) w path ft None = Ok (up, fl, down)) ->
  (forall m, collect (K + m) (@up_next spd emoji_env (K + m)) up = Ok ups) ->
  (forall m, collect (K + m) (@down_next spd emoji_env (K + m)) down = Ok downs) ->
  @printed spd emoji_env (emoji_doc : D) w path ft None ups fl downs.
Proof.
  intros H1 H2 H3. exists up, down. repeat split; exists K; intros m Hm; replace m with (K + (m - K)) by lia; auto.
Qed.

Definition one_cut_statement : Prop :=
  forall (pd : PrettyDoc) (env : Env) (ideq : IdEq pd) (r : rdoc) (doc : D) w st path n ups fl downs,
    rep r doc -> valid_doc r -> unique_ids (id_at r) ->
    printed doc w path (FText n) st ups fl downs ->
    exists fl0 downs0, printed doc w [] FStart st [] fl0 downs0 /\
      map segs_to_string (all_lines [] fl0 downs0) = map segs_to_string (all_lines ups fl downs).

Theorem C78_sequences_refuted : ~ one_cut_statement.
Proof.
  intros H.
  assert (Huniq : unique_ids (id_at (s_tree emoji_doc))).
  { apply ids_unique. vm_compute. repeat (constructor; [simpl; intuition discriminate|]). constructor. }
  assert (Hval : valid_doc (s_tree emoji_doc)) by (apply s_valid_doc; vm_compute; reflexivity).
  assert (Ht : exists ups fl downs, @printed spd emoji_env (emoji_doc : D) 5 [] (FText 1) None ups fl downs /\
    map segs_to_string (all_lines ups fl downs) = [coder; codes "abc"]).
  { eexists _, _, _. split; [eapply (@emoji_fuel 5 [] (FText 1) 100); intros m; reflexivity|reflexivity]. }
  assert (Hs : exists ups fl downs, @printed spd emoji_env (emoji_doc : D) 5 [] FStart None ups fl downs /\
    map segs_to_string (all_lines ups fl downs) = [coder ++ codes "abc"]).
  { eexists _, _, _. split; [eapply (@emoji_fuel 5 [] FStart 100); intros m; reflexivity|reflexivity]. }
  destruct Ht as (ups & fl & downs & Hp & E), Hs as (ups' & fl' & downs' & Hp' & E').
  destruct (H spd emoji_env spd_ideq (s_tree emoji_doc) emoji_doc 5%N None [] 1 ups fl downs (s_rep emoji_doc) Hval Huniq Hp) as (fl0 & downs0 & Hp0 & E0).
  rewrite E in E0. destruct (printed_det Hp' Hp0) as (-> & -> & ->).
  rewrite E0 in E'. vm_compute in E'. discriminate E'.
Qed.

Example C78_cut_in_a_text_case : exists ups fl downs, printed (twice : D) 40 [0] (FText 3) None ups fl downs /\
  exists fs i s o before after,
    reach twice_tree fs (RText i s) o Text /\
    left_segments fl = before ++ [Segment (firstn 3 s) (str_width (firstn 3 s)) (style_from (root_style twice_tree None) fs)] /\
    right_segments fl = Segment (skipn 3 s) (str_width (skipn 3 s)) (style_from (root_style twice_tree None) fs) :: after.
Proof.
  destruct C68_text_case as (ups & fl & downs & H). exists ups, fl, downs. split; [exact H|].
  exact (C78_cut_in_a_text twice_rep twice_valid twice_unique twice_splittable H).
Qed.
Example C78_same_text_case : exists ups fl downs, printed (twice : D) 40 [0] (FText 3) None ups fl downs /\
  map segs_to_string (all_lines ups fl downs) = [codes "<kiwi>; <kiwi>"] /\
  forall l s, In l (all_lines ups fl downs) -> In s l -> seg_width s = (usize_width (seg_str s) mod 65536)%N.
Proof.
  destruct C68_text_case as (ups & fl & downs & H). exists ups, fl, downs. split; [exact H|]. split.
  - destruct (C01_layout_is_printed twice_rep twice_valid 40 None twice_layout) as (fl0 & downs0 & H0 & E).
    rewrite (C78_same_text twice_rep twice_valid twice_unique twice_splittable H H0), <- E. exact twice_lines.
  - exact (C25_text_focus_widths twice_rep twice_valid twice_unique twice_splittable H).
Qed.

(** No panic and no TextAfterEndOfLine in [word], whatever the focus. *)
Definition kiwi : sdoc := Leaf 0 (Concat Text (Concat EndOfLine Newline)) (codes "kiwi").
Definition no_checks : Env := senv false.
Example kiwi_valid : valid_doc (s_tree kiwi). Proof. apply s_valid_doc. vm_compute. reflexivity. Qed.
Example kiwi_unique : unique_ids (id_at (s_tree kiwi)).
Proof. apply ids_unique. vm_compute. repeat (constructor; [simpl; intuition discriminate|]). constructor. Qed.
Example kiwi_splittable : @splittable spd no_checks (s_tree kiwi).
Proof.
  intros q i s H. destruct q as [|k q]; [|destruct k; discriminate]. injection H as _ <-. intros a b c E.
  assert (L : List.length a + List.length b + List.length c = 4) by (rewrite <- Nat.add_assoc, <- !app_length, <- E; reflexivity).
  unfold str_width. cbn. rewrite app_length, Nnat.Nat2N.inj_add.
  rewrite !N.mod_small; unfold U16; lia.
Qed.

Example C22_any_focus_case path ft : ~ @print_fails spd no_checks (kiwi : D) 10 path ft None (FErr TextAfterEndOfLine).
Proof.
  refine (@C22_any_focus spd spd_ideq _ _ (s_tree kiwi) kiwi (s_rep kiwi) kiwi_valid kiwi_unique kiwi_splittable 10%N None path ft eq_refl _).
  apply doc_matched_ok. vm_compute. reflexivity.
Qed.
Example C10_any_focus_no_panic_case path ft pan : ~ @print_fails spd (senv true) (kiwi : D) 10 path ft None (FPanic pan).
Proof.
  assert (H : exists fl downs, @printed spd no_checks (kiwi : D) 10 [] FStart None [] fl downs /\ all_lines [] fl downs = lines_of (match @layout spd no_checks 10 (doc_shape (s_tree kiwi) None) with Some es => es | None => [] end)).
  { destruct (@C01_layout_is_printed spd no_checks spd_ideq (s_tree kiwi) kiwi (s_rep kiwi) kiwi_valid 10%N None _ eq_refl) as (fl & downs & H & E). exists fl, downs. split; [exact H|symmetry; exact E]. }
  destruct H as (fl & downs & H & E).
  refine (@C10_any_focus_no_panic spd spd_ideq _ _ (s_tree kiwi) kiwi (s_rep kiwi) kiwi_valid kiwi_unique kiwi_splittable 10%N None fl downs H _ path ft pan).
  rewrite E. vm_compute. repeat constructor.
Qed.
