(** Only the widths of texts matter for the layout (C74).

    [doc_like RS RI RT r r'] (SpecLike): [r] and [r'] are the same documents except
    that where [r] has a style [s], [r'] has a style [s'] with [RS s s'], where [r] has
    an id [i], [r'] has an id [i'] with [RI i i'], and where [r] has a text (of a node, a
    literal, or an indentation) [t], [r'] has a text [t'] with [RT t t']. *)
From Verif Require Export Properties16.

Set Implicit Arguments.

Lemma skip_again A (l : list A) : forall a b, skipn a (skipn b l) = skipn (a + b) l.
Proof.
  induction l as [|x l IH]; intros a b; [rewrite !skipn_nil; reflexivity|]. destruct b as [|b]; [rewrite Nat.add_0_r; reflexivity|].
  rewrite Nat.add_succ_r. cbn [skipn]. apply IH.
Qed.

Section Cells.
Context {env : Env}.

Lemma cells_width s s' : same_cells s s' -> str_width s' = str_width s.
Proof.
  intros [L H]. specialize (H 0 (length s)). cbn [skipn] in H. rewrite firstn_all in H. rewrite <- L, firstn_all in H. exact H.
Qed.

Lemma cells_split s s' n : same_cells s s' -> same_cells (firstn n s) (firstn n s') /\ same_cells (skipn n s) (skipn n s').
Proof.
  intros [L H]. split; split.
  - rewrite !firstn_length, L. reflexivity.
  - intros a b. rewrite !skipn_firstn_comm, !firstn_firstn. apply H.
  - rewrite !skipn_length, L. reflexivity.
  - intros a b. rewrite !skip_again. apply H.
Qed.

Lemma cells_refl s : same_cells s s.
Proof. split; auto. Qed.
End Cells.

Section Retyped.
Context {pd : PrettyDoc} {env : Env} {ideq : IdEq pd}.
Variables (RS : Sty -> Sty -> Prop) (RI : Id -> Id -> Prop).
Hypothesis RS_combine : forall a a' b b', RS a a' -> RS b b' -> RS (style_combine a b) (style_combine a' b').
Variables (r r' : rdoc) (doc doc' : D).
Hypothesis Hrep : rep r doc.
Hypothesis Hrep' : rep r' doc'.
Hypothesis Hv : valid_doc r.
Hypothesis Hv' : valid_doc r'.
Hypothesis Hlike : doc_like RS RI same_cells r r'.
Variables (w : N) (st st' : option Sty).
Hypothesis Hst : opt_like RS st st'.

(** C74.  If the one is printed then so is the other: as many lines, with as many
    pieces in each line, which take up the same space. *)
Theorem C74_same_lines fl downs :
  printed doc w [] FStart st [] fl downs ->
  exists fl' downs', printed doc' w [] FStart st' [] fl' downs' /\
    lines_like RS same_cells (all_lines [] fl downs) (all_lines [] fl' downs').
Proof. exact (@like_same_lines _ _ _ RS RI same_cells cells_width RS_combine r r' doc doc' Hrep Hrep' Hv Hv' Hlike w st st' fl downs Hst). Qed.

(** C74.  The one cannot be printed exactly when the other cannot. *)
Theorem C74_same_success :
  (exists fl downs, printed doc w [] FStart st [] fl downs) <-> (exists fl downs, printed doc' w [] FStart st' [] fl downs).
Proof. exact (@like_same_success _ _ _ RS RI same_cells cells_width RS_combine r r' doc doc' Hrep Hrep' Hv Hv' Hlike w st st' Hst). Qed.

(** C74.  A focus at a node, or in its text, is in the same place. *)
Theorem C74_same_focus path ft es ups fl downs :
  unique_ids (id_at r) -> unique_ids (id_at r') -> (is_text_target ft = true -> splittable r) ->
  layout w (doc_shape r st) = Some es -> linear es ->
  printed doc w path ft st ups fl downs ->
  exists ups' fl' downs', printed doc' w path ft st' ups' fl' downs' /\
    lines_like RS same_cells ups ups' /\ line_like RS same_cells (left_segments fl) (left_segments fl') /\
    line_like RS same_cells (right_segments fl) (right_segments fl') /\ lines_like RS same_cells downs downs'.
Proof.
  intros Hu Hu' Hsp Hes Hlin Hp. destruct (is_text_target ft) eqn:Hft.
  - destruct ft as [| | |n]; try discriminate.
    exact (@like_same_text_focus _ _ _ RS RI same_cells cells_width RS_combine r r' doc doc' Hrep Hrep' Hv Hv' Hlike (fun s s' k H => cells_split k H)
      w path n st st' es ups fl downs Hu Hu' (Hsp eq_refl) Hes Hlin Hst Hp).
  - exact (@like_same_focus _ _ _ RS RI same_cells cells_width RS_combine r r' doc doc' Hrep Hrep' Hv Hv' Hlike
      w path ft st st' es ups fl downs Hu Hu' Hes Hlin Hst Hft Hp).
Qed.
End Retyped.

(** ** Renaming characters *)
Section Renamed.
Context {pd : PrettyDoc} {env : Env} {ideq : IdEq pd}.
Variable f : char -> char.
Hypothesis Hf : forall s, str_width (map f s) = str_width s.
Notation renamed := (fun s s' : str => s' = map f s).
Variables (r r' : rdoc) (doc doc' : D).
Hypothesis Hrep : rep r doc.
Hypothesis Hrep' : rep r' doc'.
Hypothesis Hv : valid_doc r.
Hypothesis Hv' : valid_doc r'.
Hypothesis Hlike : doc_like eq eq renamed r r'.
Variables (w : N) (st : option Sty).

Lemma renamed_width s s' : renamed s s' -> str_width s' = str_width s.
Proof. intros ->. apply Hf. Qed.
Lemma renamed_split s s' n : renamed s s' -> renamed (firstn n s) (firstn n s') /\ renamed (skipn n s) (skipn n s').
Proof. intros ->. rewrite firstn_map, skipn_map. auto. Qed.
Lemma same_style (a a' b b' : Sty) : a = a' -> b = b' -> style_combine a b = style_combine a' b'.
Proof. intros -> ->. reflexivity. Qed.
Lemma same_opt : opt_like eq st st.
Proof. destruct st; cbn; auto. Qed.

Definition rename_seg (s : segment) : segment := Segment (map f (seg_str s)) (seg_width s) (seg_style s).
Lemma line_renamed l l' : line_like eq renamed l l' -> l' = map rename_seg l.
Proof.
  induction 1 as [|s s' l l' (H1 & H2 & H3) _ IH]; [reflexivity|]. cbn [map]. rewrite IH. f_equal.
  destruct s, s'; cbn in *. unfold rename_seg. cbn. congruence.
Qed.
Lemma lines_renamed ls ls' : lines_like eq renamed ls ls' -> ls' = map (map rename_seg) ls.
Proof. induction 1 as [|l l' ls ls' H _ IH]; [reflexivity|]. cbn [map]. rewrite IH, (line_renamed H). reflexivity. Qed.

(** C74.  Replacing characters everywhere by others of the same width replaces
    them in the output, and changes nothing else. *)
Theorem C74_renamed fl downs :
  printed doc w [] FStart st [] fl downs ->
  exists fl' downs', printed doc' w [] FStart st [] fl' downs' /\
    all_lines [] fl' downs' = map (map rename_seg) (all_lines [] fl downs).
Proof.
  intros Hp. destruct (@like_same_lines _ _ _ eq eq renamed renamed_width same_style r r' doc doc' Hrep Hrep' Hv Hv' Hlike w st st fl downs same_opt Hp)
    as (fl' & downs' & H & E). exists fl', downs'. split; [exact H|]. apply lines_renamed. exact E.
Qed.

Theorem C74_renamed_focus path ft es ups fl downs :
  unique_ids (id_at r) -> unique_ids (id_at r') -> (is_text_target ft = true -> splittable r) ->
  layout w (doc_shape r st) = Some es -> linear es ->
  printed doc w path ft st ups fl downs ->
  printed doc' w path ft st (map (map rename_seg) ups)
    (FocusedLine (map rename_seg (left_segments fl)) (map rename_seg (right_segments fl))) (map (map rename_seg) downs).
Proof.
  intros Hu Hu' Hsp Hes Hlin Hp.
  assert (G : exists ups' fl' downs', printed doc' w path ft st ups' fl' downs' /\
    lines_like eq renamed ups ups' /\ line_like eq renamed (left_segments fl) (left_segments fl') /\
    line_like eq renamed (right_segments fl) (right_segments fl') /\ lines_like eq renamed downs downs').
  { destruct (is_text_target ft) eqn:Hft.
    - destruct ft as [| | |n]; try discriminate.
      exact (@like_same_text_focus _ _ _ eq eq renamed renamed_width same_style r r' doc doc' Hrep Hrep' Hv Hv' Hlike (fun s s' k H => renamed_split k H)
        w path n st st es ups fl downs Hu Hu' (Hsp eq_refl) Hes Hlin same_opt Hp).
    - exact (@like_same_focus _ _ _ eq eq renamed renamed_width same_style r r' doc doc' Hrep Hrep' Hv Hv' Hlike
        w path ft st st es ups fl downs Hu Hu' Hes Hlin same_opt Hft Hp). }
  destruct G as (ups' & fl' & downs' & H & E1 & E2 & E3 & E4).
  apply lines_renamed in E1, E4. apply line_renamed in E2, E3. destruct fl'; cbn in *. subst. exact H.
Qed.
End Renamed.

(** ** Editing one text *)
Section Edit.
Context {pd : PrettyDoc} {env : Env} {ideq : IdEq pd}.
Variables (r : rdoc) (doc doc' : D) (q : list nat) (i : info) (s s' : str).
Hypothesis Hq : node_at r q = Some (RText i s).
Hypothesis Hrep : rep r doc.
Hypothesis Hrep' : rep (put_text q s' r) doc'.
Hypothesis Hv : valid_doc r.
Hypothesis Hcells : same_cells s s'.

(** The same piece, or the same piece of [s'] instead of [s]. *)
Definition edited (t t' : str) : Prop :=
  t' = t \/ exists n m, t = firstn m (skipn n s) /\ t' = firstn m (skipn n s').

Lemma edited_width t t' : edited t t' -> str_width t' = str_width t.
Proof. intros [-> |(n & m & -> & ->)]; [reflexivity|]. apply Hcells. Qed.

Lemma edited_split t t' k : edited t t' -> edited (firstn k t) (firstn k t') /\ edited (skipn k t) (skipn k t').
Proof.
  intros [-> |(n & m & -> & ->)]; [split; left; reflexivity|]. split; right.
  - exists n, (Nat.min k m). rewrite !firstn_firstn. auto.
  - exists (k + n), (m - k). rewrite !skipn_firstn_comm, !skip_again. auto.
Qed.

Lemma note_edited (j : @info pd) n : note_like eq edited j j n n.
Proof. induction n; constructor; auto; try (left; reflexivity). destruct label; cbn; auto. Qed.
Lemma info_edited (j : @info pd) : info_like eq eq edited j j.
Proof. repeat split; auto. apply note_edited. Qed.
Lemma doc_edited x : doc_like eq eq edited x x.
Proof.
  induction x as [j t|j ks IH] using rdoc_ind'; constructor; try apply info_edited; [left; reflexivity|].
  induction ks as [|k ks IHk]; constructor; auto with datatypes.
Qed.

Lemma put_edited p : forall x j, node_at x p = Some (RText j s) -> doc_like eq eq edited x (put_text p s' x).
Proof.
  induction p as [|n p IH]; intros x j E.
  - cbn in E. injection E as ->. cbn. constructor; [apply info_edited|]. right. exists 0, (length s). cbn [skipn].
    destruct Hcells as [L _]. rewrite firstn_all, <- L, firstn_all. auto.
  - destruct x as [j1 t|j1 ks]; cbn [node_at r_kids] in E; [destruct n; discriminate|]. cbn [put_text].
    destruct (nth_error ks n) as [k|] eqn:Ek; [|discriminate]. constructor; [apply info_edited|].
    assert (Eks : ks = firstn n ks ++ [k] ++ skipn (S n) ks).
    { apply nth_error_split in Ek as (a & b & -> & <-). rewrite firstn_app, Nat.sub_diag, firstn_all. cbn [firstn]. rewrite app_nil_r. f_equal.
      cbn [app]. f_equal. rewrite skipn_app, skipn_all2 by lia. replace (S (length a) - length a) with 1 by lia. reflexivity. }
    rewrite Eks at 1. apply Forall2_app; [|apply Forall2_app].
    + clear. induction (firstn n ks); constructor; auto. apply doc_edited.
    + constructor; [|constructor]. eapply IH. exact E.
    + clear. induction (skipn (S n) ks); constructor; auto. apply doc_edited.
Qed.

Lemma put_valid p : forall x, valid_doc x -> valid_doc (put_text p s' x).
Proof.
  induction p as [|n p IH]; intros x H; destruct H as [j t H|j ks H Hk]; cbn [put_text]; try (constructor; auto; fail).
  constructor; auto. intros k Hin. apply in_app_or in Hin as [Hin|Hin]; [apply Hk; rewrite <- (firstn_skipn n ks); apply in_or_app; auto|].
  apply in_app_or in Hin as [Hin|Hin].
  - destruct (nth_error ks n) as [k0|] eqn:Ek; [|contradiction]. destruct Hin as [<-|[]]. apply IH, Hk. eapply nth_error_In; eauto.
  - apply Hk. rewrite <- (firstn_skipn (S n) ks). apply in_or_app; auto.
Qed.

Lemma put_ids p : forall x y, id_at (put_text p s' x) y = id_at x y.
Proof.
  unfold id_at. induction p as [|n p IH]; intros x y; destruct x as [j t|j ks]; cbn [put_text]; try reflexivity.
  - destruct y as [|[|m] y]; reflexivity.
  - destruct y as [|m y]; [reflexivity|]. cbn [node_at r_kids].
    destruct (nth_error ks n) as [k|] eqn:Ek.
    + assert (Hn : n < length ks) by (apply nth_error_Some; congruence).
      destruct (Nat.lt_trichotomy m n) as [Hm|[->|Hm]].
      * rewrite nth_error_app1 by (rewrite firstn_length; lia). rewrite <- (firstn_skipn n ks) at 2. rewrite nth_error_app1 by (rewrite firstn_length; lia). reflexivity.
      * rewrite nth_error_app2 by (rewrite firstn_length; lia). rewrite firstn_length, Nat.min_l, Nat.sub_diag by lia. cbn [nth_error app]. rewrite Ek. apply IH.
      * rewrite nth_error_app2 by (rewrite firstn_length; lia). rewrite firstn_length, Nat.min_l by lia.
        destruct (m - n) as [|d] eqn:Ed; [lia|]. cbn [nth_error app]. rewrite <- (firstn_skipn (S n) ks) at 2.
        rewrite nth_error_app2 by (rewrite firstn_length; lia). rewrite firstn_length, Nat.min_l by lia. replace (m - S n) with d by lia. reflexivity.
    + apply nth_error_None in Ek. rewrite firstn_all2, skipn_all2 by lia. cbn [app]. rewrite app_nil_r. reflexivity.
Qed.

Lemma put_unique p x : unique_ids (id_at x) -> unique_ids (id_at (put_text p s' x)).
Proof. intros H a b j Ha Hb. rewrite put_ids in Ha, Hb. eapply H; eauto. Qed.

(** C74.  Replacing the text of one node by one that takes up the same space leaves
    everything where it is: only pieces of that text change. *)
Theorem C74_edit_text w st fl downs :
  printed doc w [] FStart st [] fl downs ->
  exists fl' downs', printed doc' w [] FStart st [] fl' downs' /\
    lines_like eq edited (all_lines [] fl downs) (all_lines [] fl' downs').
Proof.
  intros Hp.
  exact (@like_same_lines _ _ _ eq eq edited edited_width same_style r (put_text q s' r) doc doc' Hrep Hrep' Hv (put_valid q Hv) (put_edited q r Hq) w st st fl downs (same_opt st) Hp).
Qed.

Theorem C74_edit_text_focus w st path ft es ups fl downs :
  unique_ids (id_at r) -> (is_text_target ft = true -> splittable r) ->
  layout w (doc_shape r st) = Some es -> linear es ->
  printed doc w path ft st ups fl downs ->
  exists ups' fl' downs', printed doc' w path ft st ups' fl' downs' /\
    lines_like eq edited ups ups' /\ line_like eq edited (left_segments fl) (left_segments fl') /\
    line_like eq edited (right_segments fl) (right_segments fl') /\ lines_like eq edited downs downs'.
Proof.
  intros Hu Hsp Hes Hlin Hp. pose proof (put_unique q Hu) as Hu'. destruct (is_text_target ft) eqn:Hft.
  - destruct ft as [| | |n]; try discriminate.
    exact (@like_same_text_focus _ _ _ eq eq edited edited_width same_style r (put_text q s' r) doc doc' Hrep Hrep' Hv (put_valid q Hv) (put_edited q r Hq) (fun s s' k H => edited_split k H)
      w path n st st es ups fl downs Hu Hu' (Hsp eq_refl) Hes Hlin (same_opt st) Hp).
  - exact (@like_same_focus _ _ _ eq eq edited edited_width same_style r (put_text q s' r) doc doc' Hrep Hrep' Hv (put_valid q Hv) (put_edited q r Hq)
      w path ft st st es ups fl downs Hu Hu' Hes Hlin (same_opt st) Hft Hp).
Qed.
End Edit.
