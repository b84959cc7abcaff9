(** Documents in which every node can be focused (C52).  Vocabulary: SpecOnce. *)
From Verif Require Export POnce Properties13 Examples.
From Coq Require Import String.
From Coq Require Import List.
Import ListNotations.

Set Implicit Arguments.

Section Every.
Context {pd : PrettyDoc} {env : Env} {ideq : IdEq pd}.
Variables (r : rdoc) (doc : D).
Hypothesis Hrep : rep r doc.
Hypothesis Hv : valid_doc r.
Hypothesis Hu : unique_ids (id_at r).
Hypothesis Hone : all_once r.

Section Width.
Variables (w : N) (st : option Sty) (es : list event).
Hypothesis Hes : layout w (doc_shape r st) = Some es.

Lemma layout_visits : Permutation (visits [] es) (expected r []).
Proof.
  unfold layout, doc_shape in Hes. destruct (rend _ _ _ _ _) as [[es' p']|] eqn:E; [|discriminate]. injection Hes as <-.
  apply (once_visits Hone _ _ _ _ _ E []).
Qed.

(** Everything is displayed, exactly once. *)
Lemma once_linear : linear es.
Proof.
  apply (linear_entered Hu). { apply (layout_good Hv _ _ Hes). }
  rewrite visits_entered.
  assert (Hp : NoDup (visits [] es)) by (eapply Permutation_NoDup; [symmetry; apply layout_visits|apply expected_nodup]).
  apply nodup_map_inj; [|apply NoDup_filter; exact Hp].
  intros [a p] [b q] Ha Hb H. apply filter_In in Ha as [_ Ha]. apply filter_In in Hb as [_ Hb]. simpl in *. subst. auto.
Qed.

Lemma once_displayed path x : node_at r path = Some x -> displayed es path.
Proof.
  intros Hx. destruct path as [|n q].
  - exists [], es. auto.
  - destruct (@expected_all _ r _ [] _ Hx) as [H _]. specialize (H ltac:(discriminate)). rewrite app_nil_r in H.
    eapply Permutation_in in H; [|symmetry; apply layout_visits].
    apply in_visits in H as [(_ & a & j & m & b & -> & H)|(H & _)]; [|discriminate].
    exists (a ++ [EEnter j m]), b. rewrite <- app_assoc. split; auto. unfold open_path. rewrite open_from_app. cbn [open_from].
    rewrite H, rev_involutive. reflexivity.
Qed.

Lemma once_text path i s : node_at r path = Some (RText i s) -> text_displayed es path.
Proof.
  intros Hx. destruct (@expected_all _ r _ [] _ Hx) as [_ H]. rewrite app_nil_r in H.
  eapply Permutation_in in H; [|symmetry; apply layout_visits].
  apply in_visits in H as [(H & _)|(_ & a & j & t & b & -> & Ht & H)]; [discriminate|].
  exists a, j, t, b. split; auto. split; auto. unfold open_path. rewrite H, rev_involutive. reflexivity.
Qed.

Lemma displayed_node path : displayed es path -> exists x, node_at r path = Some x.
Proof.
  intros (a & b & E & Hp). unfold open_path in Hp.
  destruct (open_entered a []) as [(pre & H)|H].
  - symmetry in H. apply app_eq_nil in H as [_ H]. rewrite H in Hp. simpl in Hp. subst path. exists r. reflexivity.
  - assert (Hi : In (open_from [] a) (entered [] es)) by (rewrite E, entered_app; apply in_app_iff; auto).
    rewrite visits_entered in Hi. apply in_map_iff in Hi as ([c p] & Hc & Hi). apply filter_In in Hi as [Hi _]. simpl in Hc. subst p.
    eapply Permutation_in in Hi; [|apply layout_visits].
    destruct (expected_only _ _ _ _ Hi) as (q & x & Hq & Hx & _). exists x. rewrite app_nil_r in Hq. rewrite Hq, rev_involutive in Hp. congruence.
Qed.
End Width.

(** C52.  If every notation shows each of its node's children (its text, for a
    text node) exactly once whichever options are taken, then whenever the
    document can be printed at all, at whatever width, every node can be
    focused, at its start and at its end, and the lines are the same. *)
Theorem C52_every_node w st fl0 downs0 path x ft :
  printed doc w [] FStart st [] fl0 downs0 ->
  node_at r path = Some x -> ft = FStart \/ ft = FEnd ->
  exists ups fl downs, printed doc w path ft st ups fl downs /\ all_lines ups fl downs = all_lines [] fl0 downs0.
Proof.
  intros Hp Hx Hft. destruct (C01_printed_has_layout Hrep Hv (eq_refl : is_text_target FStart = false) Hp) as (es & Hes & E).
  destruct (C06_displayed_accepted Hrep Hv Hu w st Hes (once_linear w st Hes) (once_displayed w st Hes path Hx) Hft) as (ups & fl & downs & H).
  exists ups, fl, downs. split; auto.
  assert (Hf : is_text_target ft = false) by (destruct Hft; subst; reflexivity).
  destruct (C01_printed_has_layout Hrep Hv Hf H) as (es' & Hes' & E'). congruence.
Qed.

(** C52.  Conversely, only nodes can be. *)
Theorem C52_only_nodes w st fl0 downs0 path ft ups fl downs :
  printed doc w [] FStart st [] fl0 downs0 ->
  ft = FStart \/ ft = FEnd -> printed doc w path ft st ups fl downs -> exists x, node_at r path = Some x.
Proof.
  intros Hp Hft H. destruct (C01_printed_has_layout Hrep Hv (eq_refl : is_text_target FStart = false) Hp) as (es & Hes & E).
  assert (Hd : displayed es path) by (apply (C06_accepted_iff_displayed Hrep Hv Hu w st Hes (once_linear w st Hes) path Hft); eauto).
  eapply displayed_node; eauto.
Qed.

(** C52.  And in a text node, the focus can be put between any two characters of
    its text. *)
Theorem C52_every_text w st fl0 downs0 path i s n :
  printed doc w [] FStart st [] fl0 downs0 -> splittable r ->
  node_at r path = Some (RText i s) ->
  exists ups fl downs, printed doc w path (FText n) st ups fl downs /\
    map segs_to_string (all_lines ups fl downs) = map segs_to_string (all_lines [] fl0 downs0) /\
    exists lbefore lafter sty,
      left_segments fl = lbefore ++ [Segment (firstn n s) (str_width (firstn n s)) sty] /\
      right_segments fl = Segment (skipn n s) (str_width (skipn n s)) sty :: lafter.
Proof.
  intros Hp Hs Hx. destruct (C01_printed_has_layout Hrep Hv (eq_refl : is_text_target FStart = false) Hp) as (es & Hes & E).
  destruct (C02_text_focus Hrep Hv Hu w st Hes (once_linear w st Hes) n Hs Hx (once_text w st Hes path Hx))
    as (ups & fl & downs & H1 & H2 & before & j & t & after & lb & la & _ & _ & _ & _ & _ & H3 & H4).
  exists ups, fl, downs. rewrite E. split; auto. split; auto. exists lb, la, (tx_style t). auto.
Qed.

End Every.

(** ** JSON *)
Section JsonOnce.
Notation jpd := (@tree_doc basic_tree_style).
Notation jnote := (@note jpd).

Definition gives (m : nat) (n : jnote) (lr : option (list (list sight) * nat)) (v : list sight) : Prop :=
  forall x, In x (note_views false m n lr) -> x = v.

Lemma gives_add m a b lr u v : gives m a lr u -> gives m b lr v -> gives m (Concat a b) lr (u ++ v).
Proof.
  intros Ha Hb x Hx. cbn [note_views] in Hx. apply in_flat_map in Hx as (l & H1 & H2). apply in_map_iff in H2 as (l2 & <- & H2).
  rewrite (Ha _ H1), (Hb _ H2). reflexivity.
Qed.
Lemma gives_or m a b lr v : gives m a lr v -> gives m b lr v -> gives m (Choice a b) lr v.
Proof. intros Ha Hb x Hx. cbn [note_views] in Hx. apply in_app_iff in Hx as [Hx|Hx]; auto. Qed.
Lemma gives_check m c p a b lr v : gives m a lr v -> gives m b lr v -> gives m (Check c p a b) lr v.
Proof. intros Ha Hb x Hx. cbn [note_views] in Hx. apply in_app_iff in Hx as [Hx|Hx]; auto. Qed.
Lemma gives_nil m n lr : note_views false m n lr = [[]] -> gives m n lr [].
Proof. intros E x Hx. rewrite E in Hx. destruct Hx as [<-|[]]. reflexivity. Qed.
Lemma gives_one m n lr v : note_views false m n lr = [v] -> gives m n lr v.
Proof. intros E x Hx. rewrite E in Hx. destruct Hx as [<-|[]]. reflexivity. Qed.

Lemma gives_fold (m : nat) (first join : jnote) :
  (forall acc i v, (forall x, In x acc -> x = v) -> gives (S m) join (Some (acc, i)) (v ++ [Sub i])) ->
  gives (S m) first None [Sub 0] ->
  gives (S m) (Fold first join) None (map Sub (seq 0 (S m))).
Proof.
  intros Hj Hf x. cbn [note_views].
  assert (H : forall k i acc, (forall x, In x acc -> x = map Sub (seq 0 i)) ->
    In x (fold_left (fun acc i => note_views false (S m) join (Some (acc, i))) (seq i k) acc) -> x = map Sub (seq 0 (i + k))).
  { induction k as [|k IH]; intros i acc Hacc Hx; cbn [seq fold_left] in Hx.
    - rewrite Nat.add_0_r. auto.
    - rewrite Nat.add_succ_r. apply (IH (S i) _) in Hx; [exact Hx|].
      intros y Hy. rewrite (Hj _ _ _ Hacc _ Hy), seq_S, map_app. reflexivity. }
  intros Hx. apply (H m 1 _) in Hx; [exact Hx|]. exact Hf.
Qed.

Lemma gives_join m (n : jnote) : gives (S m) (Fold (Child 0) n) None (map Sub (seq 0 (S m))) ->
  gives (S m) (Count FocusMark (Child 0) (Fold (Child 0) n)) None (map Sub (seq 0 (S m))).
Proof. intros H x Hx. cbn [note_views] in Hx. destruct m as [|m]; [|apply H; exact Hx]. destruct Hx as [<-|[]]. reflexivity. Qed.

Lemma once_block (op cl : str * str) m :
  gives m (Count (n_add (n_add (Style (fst op) (Literal (snd op))) FocusMark) (Style (fst cl) (Literal (snd cl))))
    (n_or (n_add (n_add (Style (fst op) (Literal (snd op))) single_seq) (Style (fst cl) (Literal (snd cl))))
      (n_xor (n_add (Style (fst op) (Literal (snd op))) (n_shr 4 (Fold (Child 0) (n_xor (n_add Left separator) Right)))) (Style (fst cl) (Literal (snd cl)))))
    (n_or (n_add (n_add (Style (fst op) (Literal (snd op))) single_seq) (Style (fst cl) (Literal (snd cl))))
      (n_xor (n_add (Style (fst op) (Literal (snd op))) (n_shr 4 (Fold (Child 0) (n_xor (n_add Left separator) Right)))) (Style (fst cl) (Literal (snd cl))))))
    None (map Sub (seq 0 m)).
Proof.
  assert (Hn : forall m, gives (S m)
    (n_or (n_add (n_add (Style (fst op) (Literal (snd op))) single_seq) (Style (fst cl) (Literal (snd cl))))
      (n_xor (n_add (Style (fst op) (Literal (snd op))) (n_shr 4 (Fold (Child 0) (n_xor (n_add Left separator) Right)))) (Style (fst cl) (Literal (snd cl)))))
    None (map Sub (seq 0 (S m)))).
  { clear m. intros m. apply gives_or.
    - rewrite <- (app_nil_r (map Sub _)). apply gives_add; [|apply gives_nil; reflexivity].
      change (map Sub (seq 0 (S m))) with ([] ++ map Sub (seq 0 (S m))). apply gives_add; [apply gives_nil; reflexivity|].
      apply gives_fold; [|apply gives_one; reflexivity]. intros acc i v Hv. apply gives_add; [|apply gives_one; reflexivity].
      rewrite <- (app_nil_r v). apply gives_add; [exact Hv|apply gives_nil; reflexivity].
    - rewrite <- (app_nil_r (map Sub _)). apply gives_add; [|apply gives_nil; reflexivity].
      rewrite <- (app_nil_r (map Sub _)). apply gives_add; [|apply gives_nil; reflexivity].
      change (map Sub (seq 0 (S m))) with ([] ++ map Sub (seq 0 (S m))). apply gives_add; [apply gives_nil; reflexivity|].
      intros x Hx. cbn [n_shr note_views] in Hx. revert x Hx.
      change (gives (S m) (Concat Newline (Fold (Child 0) (n_xor (n_add Left separator) Right))) None (map Sub (seq 0 (S m)))).
      change (map Sub (seq 0 (S m))) with ([] ++ map Sub (seq 0 (S m))). apply gives_add; [apply gives_nil; reflexivity|].
      apply gives_fold; [|apply gives_one; reflexivity]. intros acc i v Hv. apply gives_add; [|apply gives_one; reflexivity].
      rewrite <- (app_nil_r v). apply gives_add; [|apply gives_nil; reflexivity].
      rewrite <- (app_nil_r v). apply gives_add; [exact Hv|]. apply gives_check; apply gives_nil; reflexivity. }
  destruct m as [|[|m]].
  - intros x Hx. destruct Hx as [<-|[]]. reflexivity.
  - intros x Hx. apply (Hn 0). exact Hx.
  - intros x Hx. apply (Hn (S m)). exact Hx.
Qed.

Lemma once_comment m : gives m JSON_COMMENT None (map Sub (seq 0 m)).
Proof.
  intros x Hx. unfold JSON_COMMENT in Hx. cbn [note_views] in Hx. revert x Hx.
  change (gives m (n_add (n_add (jlit "// ") (Indent (chars "// ") None comment_body)) EndOfLine) None (map Sub (seq 0 m))).
  rewrite <- (app_nil_r (map Sub _)). apply gives_add; [|apply gives_nil; reflexivity].
  change (map Sub (seq 0 m)) with ([] ++ map Sub (seq 0 m)). apply gives_add; [apply gives_nil; reflexivity|].
  intros x Hx. cbn [note_views] in Hx. revert x Hx. change (gives m comment_body None (map Sub (seq 0 m))).
  destruct m as [|m]; [intros x Hx; destruct Hx as [<-|[]]; reflexivity|]. apply gives_join.
  apply gives_fold; [|apply gives_one; reflexivity]. intros acc i v Hv. apply gives_add; [|apply gives_one; reflexivity].
  rewrite <- (app_nil_r v). apply gives_add; [exact Hv|]. apply gives_or; apply gives_nil; reflexivity.
Qed.

Lemma once_roots m : gives m JSON_ROOTS None (map Sub (seq 0 m)).
Proof.
  destruct m as [|m]; [intros x Hx; destruct Hx as [<-|[]]; reflexivity|]. apply gives_join.
  apply gives_fold; [|apply gives_one; reflexivity]. intros acc i v Hv. apply gives_add; [|apply gives_one; reflexivity].
  rewrite <- (app_nil_r v). apply gives_add; [exact Hv|apply gives_nil; reflexivity].
Qed.

Lemma once_branch (f : tree_fields (ts := basic_tree_style)) ks n : plainf n f ->
  gives (List.length ks) n None (map Sub (seq 0 (List.length ks))) -> shows_once (@tree_rdoc basic_tree_style (TreeKids f ks)).
Proof.
  intros (Hn & _) H l Hl. cbn [tree_rdoc r_info r_kids tree_info i_note t_fields everything] in *. rewrite Hn in Hl. rewrite map_length in *.
  rewrite (H _ Hl). reflexivity.
Qed.

Lemma once_leaf (f : tree_fields (ts := basic_tree_style)) s n : plainf n f -> @note_views jpd true 0 n None = [[Own]] ->
  all_once (@tree_rdoc basic_tree_style (TreeText f s)).
Proof.
  intros (Hn & _) H [|i q] x Hx; [|destruct i; discriminate Hx]. injection Hx as <-. intros l Hl.
  cbn [tree_rdoc r_info r_kids tree_info i_note t_fields everything] in *. rewrite Hn in Hl. cbn [List.length] in Hl. rewrite H in Hl.
  destruct Hl as [<-|[]]. reflexivity.
Qed.

Lemma once_kids (f : tree_fields (ts := basic_tree_style)) ks : shows_once (@tree_rdoc basic_tree_style (TreeKids f ks)) ->
  (forall k, In k ks -> all_once (tree_rdoc k)) -> all_once (@tree_rdoc basic_tree_style (TreeKids f ks)).
Proof.
  intros H Hk [|i q] x Hx; [injection Hx as <-; exact H|]. cbn [node_at tree_rdoc r_kids] in Hx. rewrite nth_error_map in Hx.
  destruct (nth_error ks i) as [k|] eqn:E; [|discriminate]. apply (Hk k (nth_error_In _ _ E) q). exact Hx.
Qed.

Lemma json_once is_white j : forall t, jtree is_white j t -> all_once (tree_rdoc t).
Proof.
  assert (HK : forall l ks, (forall x, In x l -> forall t, jtree is_white x t -> all_once (tree_rdoc t)) -> Forall2 (jtree is_white) l ks ->
    forall k, In k ks -> all_once (tree_rdoc k)).
  { intros l ks IH F. induction F as [|x t l ks Hx F IHF]; intros k Hk; [destruct Hk|]. destruct Hk as [<-|Hk]; [apply (IH x); [left; reflexivity|exact Hx]|].
    apply IHF; auto. intros y Hy. apply IH. right. exact Hy. }
  induction j as [|b|s|s|l IH|l IH|key x IH|s|l IH] using json_ind'; intros t H.
  - inversion H as [f Hf| | | | | | | |]; subst. apply once_kids; [|intros k []]. apply (once_branch _ Hf). apply gives_nil. reflexivity.
  - inversion H as [|? f Hf| | | | | | |]; subst. apply once_kids; [|intros k []]. apply (once_branch _ Hf). apply gives_nil. destruct b; reflexivity.
  - inversion H as [| |? f Hf| | | | | |]; subst. apply (once_leaf _ Hf). reflexivity.
  - inversion H as [| | |? f Hf| | | | |]; subst. apply (once_leaf _ Hf). reflexivity.
  - inversion H as [| | | |? f ks Hf F _| | | |]; subst. apply once_kids; [|apply (HK l ks IH F)]. apply (once_branch _ Hf).
    apply (@once_block (chars "open", chars "[") (chars "close", chars "]")).
  - inversion H as [| | | | |? f ks Hf F _| | |]; subst. apply once_kids; [|apply (HK l ks IH F)]. apply (once_branch _ Hf).
    apply (@once_block (chars "open", chars "{") (chars "close", chars "}")).
  - inversion H as [| | | | | |? ? f kk k Hf Hkk Hk| |]; subst. apply once_kids.
    + apply (once_branch _ Hf). apply gives_one. reflexivity.
    + intros y [<-|[<-|[]]]; [|apply IH; exact Hk]. inversion Hkk as [| |? fk Hfk| | | | | |]; subst. apply (once_leaf _ Hfk). reflexivity.
  - inversion H as [| | | | | | |? f ks Hf F|]; subst. apply once_kids; [apply (once_branch _ Hf); apply once_comment|].
    intros k Hk. clear - F Hk. induction F as [|x t l ks (f & -> & Hf) F IHF]; [destruct Hk|]. destruct Hk as [<-|Hk]; auto.
    apply (once_leaf _ Hf). reflexivity.
  - inversion H as [| | | | | | | |? f ks Hf F]; subst. apply once_kids; [apply (once_branch _ Hf); apply once_roots|]. apply (HK l ks IH F).
Qed.

Section Json.
Variables (uw : str -> N) (cf : char -> bool).
Notation release := (Build_Env uw cf false).

Variables (checks : bool) (is_white : char -> bool).
Variables (j : json) (t : json_tree).
Hypothesis Hmade : made checks is_white j t.
Hypothesis Hdoc : is_document j.
Hypothesis Hids : NoDup (tree_ids t).

Lemma json_unique : unique_ids (id_at (@tree_rdoc basic_tree_style t)).
Proof.
  apply ids_unique.
  assert (E : ids (tree_rdoc t) = tree_ids t).
  { clear. induction t as [f s|f ks IH] using tree_ind'; [reflexivity|]. cbn [tree_rdoc ids tree_ids r_info tree_info i_id]. f_equal.
    induction ks as [|k ks IHk]; [reflexivity|]. cbn [map flat_map]. rewrite IH by (left; reflexivity). f_equal. apply IHk. intros x Hx. apply IH. right. exact Hx. }
  rewrite E. exact Hids.
Qed.

(** C52.  JSON documents (that are syntactically sensible, [is_document]) are
    such documents: every value, key, pair, comment and word can be focused, at
    every width and with every root style; and nothing else can. *)
Theorem C52_json w st path ft : ft = FStart \/ ft = FEnd ->
  ((exists ups fl downs, @printed jpd release t w path ft st ups fl downs) <->
   exists x, node_at (tree_rdoc t) path = Some x).
Proof.
  intros Hft. destruct (@json_layout uw cf checks is_white j t Hmade Hdoc w st) as (es & Hes & _). destruct (made_jtree Hmade) as [Hj _].
  pose proof (C46_tree_is_well_behaved t) as Hrep. pose proof (@jtree_valid release is_white j t Hj) as Hv.
  destruct (@C01_layout_is_printed jpd release _ _ _ Hrep Hv w st es Hes) as (fl0 & downs0 & Hp & _).
  pose proof (json_once Hj) as Ho. split.
  - intros (ups & fl & downs & H). eapply C52_only_nodes; eauto. apply json_unique.
  - intros (x & Hx). destruct (@C52_every_node jpd release _ _ _ Hrep Hv json_unique Ho w st fl0 downs0 path x ft Hp Hx Hft) as (ups & fl & downs & H & _). eauto.
Qed.

(** C52.  And the focus can be anywhere in every text. *)
Theorem C52_json_text w st path i s n :
  @splittable jpd release (tree_rdoc t) -> node_at (tree_rdoc t) path = Some (RText i s) ->
  exists ups fl downs, @printed jpd release t w path (FText n) st ups fl downs /\
    exists lbefore lafter sty,
      left_segments fl = lbefore ++ [Segment (firstn n s) (@str_width release (firstn n s)) sty] /\
      right_segments fl = Segment (skipn n s) (@str_width release (skipn n s)) sty :: lafter.
Proof.
  intros Hs Hx. destruct (@json_layout uw cf checks is_white j t Hmade Hdoc w st) as (es & Hes & _). destruct (made_jtree Hmade) as [Hj _].
  pose proof (C46_tree_is_well_behaved t) as Hrep. pose proof (@jtree_valid release is_white j t Hj) as Hv.
  destruct (@C01_layout_is_printed jpd release _ _ _ Hrep Hv w st es Hes) as (fl0 & downs0 & Hp & _).
  destruct (@C52_every_text jpd release _ _ _ Hrep Hv json_unique (json_once Hj) w st fl0 downs0 path i s n Hp Hs Hx) as (ups & fl & downs & H & _ & H').
  exists ups, fl, downs. auto.
Qed.
End Json.
End JsonOnce.
