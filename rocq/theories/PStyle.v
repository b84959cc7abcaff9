(** Documents that are alike have layouts that are alike. *)
From Verif Require Export PRel PLab PFocus2 Properties2.

Set Implicit Arguments.

Section Style.
Context {pd : PrettyDoc} {env : Env}.
Variable RS : Sty -> Sty -> Prop.
Variable RI : Id -> Id -> Prop.
Variable RT : str -> str -> Prop.
Notation seg_like := (seg_like RS RT).
Notation line_like := (line_like RS RT).

Definition tx_like (t t' : textual) : Prop :=
  RT (tx_str t) (tx_str t') /\ tx_width t' = tx_width t /\ tx_from_text t' = tx_from_text t /\ RS (tx_style t) (tx_style t').

Inductive shape_like : shape -> shape -> Prop :=
| hl_fail f : shape_like (SFail f) (SFail f)
| hl_empty : shape_like SEmpty SEmpty
| hl_eol : shape_like SEol SEol
| hl_mark : shape_like SMark SMark
| hl_newline i i' : Forall2 seg_like i i' -> shape_like (SNewline i) (SNewline i')
| hl_text t t' : tx_like t t' -> shape_like (SText t) (SText t')
| hl_concat a a' b b' : shape_like a a' -> shape_like b b' -> shape_like (SConcat a b) (SConcat a' b')
| hl_choice a a' b b' : shape_like a a' -> shape_like b b' -> shape_like (SChoice a b) (SChoice a' b')
| hl_child n j j' s s' : RI j j' -> shape_like s s' -> shape_like (SChild n (Ok j) s) (SChild n (Ok j') s').

Inductive event_like : event -> event -> Prop :=
| el_text j j' t t' : RI j j' -> tx_like t t' -> event_like (EText j t) (EText j' t')
| el_eol : event_like EEol EEol
| el_newline i i' : Forall2 seg_like i i' -> event_like (ENewline i) (ENewline i')
| el_mark j j' : RI j j' -> event_like (EMark j) (EMark j')
| el_enter j j' n : RI j j' -> event_like (EEnter j n) (EEnter j' n)
| el_exit j j' n : RI j j' -> event_like (EExit j n) (EExit j' n).

Lemma like_fails s s' : shape_like s s' -> head_fails s' = head_fails s.
Proof. destruct 1; reflexivity. Qed.

Lemma like_fits s s' : shape_like s s' -> forall k r e, fits_s s' k r e = fits_s s k r e.
Proof.
  induction 1 as [f| | | |i i' Hi|t t' Ht|a a' b b' Ha IHa Hb IHb|a a' b b' Ha IHa Hb IHb|n j j' s s' Hj Hs IH]; intros k r e; simpl; auto.
  - destruct Ht as (_ & -> & _). reflexivity.
  - rewrite (like_fails Hb). destruct (head_fails b); auto. rewrite IHa. apply fits_s_ext. intros. apply IHb.
Qed.

Lemma like_widths i i' : Forall2 seg_like i i' -> map seg_width i' = map seg_width i.
Proof. induction 1 as [|s s' l l' Hs _ IH]; simpl; auto. destruct Hs as (_ & -> & _). congruence. Qed.

Definition out_like (o o' : option (list event * pos)) : Prop :=
  match o, o' with
  | None, None => True
  | Some (es, p), Some (es', p') => Forall2 event_like es es' /\ p' = p
  | _, _ => False
  end.

Lemma like_rend w s s' : shape_like s s' -> forall j j' k p, RI j j' ->
  out_like (rend w s j k p) (rend w s' j' k p).
Proof.
  induction 1 as [f| | | |i i' Hi|t t' Ht|a a' b b' Ha IHa Hb IHb|a a' b b' Ha IHa Hb IHb|n i i' s s' Hi Hs IH]; intros j j' k p Hj; simpl; auto.
  - split; auto. repeat constructor.
  - split; auto. repeat constructor; auto.
  - unfold indent_pos. rewrite !map_rev, (like_widths Hi).
    destruct (osum16 (rev (map seg_width i))); simpl; auto. split; auto. repeat constructor; auto.
  - unfold text_pos. destruct p as [len eol]. destruct Ht as (H1 & H2 & H3 & H4). rewrite H2.
    destruct eol; simpl; auto. destruct (oadd16 len (tx_width t)); simpl; auto. split; auto. repeat constructor; auto.
  - rewrite (rend_ext w a' j' (fits_s b' k) (fits_s b k) p) by (intros; apply like_fits; auto).
    pose proof (IHa j j' (fits_s b k) p Hj) as H1.
    destruct (rend w a j (fits_s b k) p) as [[e1 p1]|], (rend w a' j' (fits_s b k) p) as [[e1' p1']|]; try contradiction; simpl; auto.
    destruct H1 as [H1 ->]. pose proof (IHb _ _ k p1 Hj) as H2.
    destruct (rend w b j k p1) as [[e2 p2]|], (rend w b' j' k p1) as [[e2' p2']|]; try contradiction; simpl; auto.
    destruct H2 as [H2 ->]. split; auto. apply Forall2_app; auto.
  - rewrite (like_fails Ha). destruct (head_fails a); simpl; auto.
    replace (picks_first w a' k p) with (picks_first w a k p).
    + destruct (picks_first w a k p) as [[]|]; simpl; auto.
    + unfold picks_first. destruct p as [len eol]. rewrite (like_fits Ha). reflexivity.
  - pose proof (IH _ _ k p Hi) as H1.
    destruct (rend w s i k p) as [[e1 p1]|], (rend w s' i' k p) as [[e1' p1']|]; try contradiction; simpl; auto.
    destruct H1 as [H1 ->]. split; auto. constructor; [constructor; auto|]. apply Forall2_app; auto.
    constructor; auto. constructor; auto.
Qed.

Lemma forall2_rev A B (P : A -> B -> Prop) l l' : Forall2 P l l' -> Forall2 P (rev l) (rev l').
Proof. induction 1; simpl; auto. apply Forall2_app; auto. Qed.

Lemma like_lines es es' : Forall2 event_like es es' -> forall cur cur', Forall2 seg_like cur cur' ->
  Forall2 line_like (lines_from cur es) (lines_from cur' es').
Proof.
  induction 1 as [|e e' es es' He Hes IH]; intros cur cur' Hc; simpl.
  - repeat constructor; auto.
  - destruct He as [j j' t t' Hj Ht| |i i' Hi|j j' Hj|j j' n Hj|j j' n Hj]; auto.
    + apply IH. apply Forall2_app; auto. constructor; auto. destruct Ht as (H1 & H2 & H3 & H4). repeat split; auto.
    + constructor; auto. apply IH. apply forall2_rev; auto.
Qed.

Lemma like_open es es' : Forall2 event_like es es' -> forall stk, open_from stk es' = open_from stk es.
Proof. induction 1 as [|e e' es es' He Hes IH]; intros stk; simpl; auto. destruct He; auto. Qed.

Lemma like_open_path es es' : Forall2 event_like es es' -> open_path es' = open_path es.
Proof. intros H. unfold open_path. rewrite (like_open H). reflexivity. Qed.

(** ** The documents *)
Hypothesis RT_width : forall s s', RT s s' -> str_width s' = str_width s.
Hypothesis RS_combine : forall a a' b b', RS a a' -> RS b b' -> RS (style_combine a b) (style_combine a' b').

Definition ctx_like (c c' : ctx) : Prop :=
  x_flat c' = x_flat c /\ Forall2 seg_like (x_ind c) (x_ind c') /\ RS (x_sty c) (x_sty c').

Lemma like_elab r r' : doc_like RS RI RT r r' -> forall c c', ctx_like c c' -> shape_like (elab r c) (elab r' c').
Proof.
  apply elab_rel with (RC := ctx_like); try (intros; constructor; auto; fail).
  - intros c c' H. apply H.
  - intros c c' (H1 & H2 & H3). repeat split; simpl; auto.
  - intros s s' c c' Hs (H1 & H2 & H3). repeat split; simpl; auto.
  - intros p p' s s' c c' Hp Hs (H1 & H2 & H3). repeat split; simpl; auto. constructor; auto. repeat split; simpl; auto.
    destruct s, s'; try contradiction; auto.
  - intros c c' (H1 & H2 & H3). constructor. auto.
  - intros c c' s s' f (H1 & H2 & H3) Hs. constructor. repeat split; simpl; auto.
Qed.

Lemma like_info r r' : doc_like RS RI RT r r' -> info_like RS RI RT (r_info r) (r_info r').
Proof. destruct 1; simpl; auto. Qed.

Lemma like_layout w r r' st st' : doc_like RS RI RT r r' -> opt_like RS st st' ->
  match layout w (doc_shape r st), layout w (doc_shape r' st') with
  | None, None => True
  | Some es, Some es' => Forall2 event_like es es'
  | _, _ => False
  end.
Proof.
  intros Hr Hs. unfold layout, doc_shape. destruct (like_info Hr) as (H1 & H2 & H3 & H4).
  assert (Hc : ctx_like (root_ctx r st) (root_ctx r' st')).
  { repeat split; simpl; auto. destruct st, st'; try contradiction; auto. }
  pose proof (like_rend w (like_elab Hr Hc) look_end pos0 H1) as H.
  destruct (rend w (elab r _) _ _ _) as [[es p]|], (rend w (elab r' _) _ _ _) as [[es' p']|]; try contradiction; simpl; auto.
  apply H.
Qed.

(** ** One point of the layout *)
Section Point.
Variable idat : list nat -> option Id.
Hypothesis uniq : unique_ids idat.

Lemma split_eq A (a b a' b' : list A) : a ++ b = a' ++ b' -> length a = length a' -> a = a' /\ b = b'.
Proof.
  revert a'; induction a as [|x a IH]; intros [|y a']; simpl; intros E L; try discriminate; auto.
  injection E as -> E. injection L as L. destruct (IH _ E L) as [-> ->]. auto.
Qed.

Lemma order A (a b a' b' : list A) : a ++ b = a' ++ b' -> length a < length a' -> exists x y, a' = a ++ x :: y /\ b = x :: y ++ b'.
Proof.
  intros E L. apply app_eq_app in E as (l & [[E1 E2]|[E1 E2]]).
  - subst a. rewrite app_length in L. lia.
  - subst. destruct l as [|x l]; [rewrite app_nil_r in L; lia|]. exists x, l. auto.
Qed.

Lemma start_before es a b a' b' q : good idat [] es -> linear es ->
  es = a ++ b -> es = a' ++ b' -> at_start a q -> at_start a' q -> length a < length a' -> False.
Proof.
  intros G L E E' H H' Hlt. subst es. destruct (@order _ a b a' b' E' Hlt) as (x & y & -> & _).
  destruct H as [[-> ->]|(u & j & n & -> & Hq)].
  - destruct H' as [[_ H]|(u' & j' & n' & _ & H)]; [discriminate|]. destruct (open_path u'); discriminate.
  - destruct H' as [[-> H]|(u' & j' & n' & Hu & Hq')].
    { destruct (open_path u); discriminate. }
    rewrite <- Hq in Hq'. apply app_inj_tail in Hq' as [Hq' ->].
    destruct (exists_last (l := x :: y)) as (z & e & Ez); [discriminate|]. rewrite Ez in Hu, E'.
    rewrite app_assoc in Hu. apply app_inj_tail in Hu as [Hu ->].
    rewrite E' in G, L.
    assert (j' = j).
    { pose proof (proj1 (good_app idat [] _ _) G) as [G1 _].
      rewrite <- !app_assoc in G1. apply good_app in G1 as [_ G1]. simpl in G1. destruct G1 as [G1 _].
      pose proof (proj1 (good_app idat [] _ _) G) as [G2 _]. rewrite app_assoc, Hu in G2.
      apply good_app in G2 as [_ G2]. simpl in G2. destruct G2 as [G2 _].
      unfold open_path in Hq'. congruence. }
    subst j'. rewrite <- app_assoc in L. apply (@linear_disjoint _ _ _ j n L).
    + apply in_or_app. right. left. auto.
    + apply in_or_app. left. apply in_or_app. right. left. auto.
Qed.

Lemma start_unique es a b a' b' q : good idat [] es -> linear es ->
  es = a ++ b -> es = a' ++ b' -> at_start a q -> at_start a' q -> length a = length a'.
Proof.
  intros G L E E' H H'. destruct (lt_eq_lt_dec (length a) (length a')) as [[Hl|Hl]|Hl]; auto; exfalso.
  - eapply (@start_before es a b a' b' q); eauto.
  - eapply (@start_before es a' b' a b q); eauto.
Qed.

Lemma end_before es a b a' b' q : good idat [] es -> linear es -> open_from [] es = [] ->
  es = a ++ b -> es = a' ++ b' -> at_end a b q -> at_end a' b' q -> length a < length a' -> False.
Proof.
  intros G L O E E' H H' Hlt. subst es. destruct (@order _ a b a' b' E' Hlt) as (x & y & -> & E2).
  destruct H as [[-> ->]|(u & j & n & Eb & Hq)]; [discriminate|].
  assert (Hx : x = EExit j n) by congruence. subst x.
  rewrite Eb in G. apply good_app in G as [G1 G2]. simpl in G2. destruct G2 as (stk & E3 & Hj & G3).
  assert (Hq2 : q = rev stk ++ [n]) by (rewrite <- Hq; unfold open_path; rewrite E3; reflexivity).
  destruct H' as [[-> _]|(u' & j' & n' & Hb' & Hq')].
  { destruct (rev stk); discriminate. }
  assert (Eo : open_from stk y = n :: stk).
  { unfold open_path in Hq'. rewrite open_from_app, E3 in Hq'. simpl in Hq'. rewrite Hq2 in Hq'.
    apply (f_equal (@rev _)) in Hq'. rewrite rev_involutive, rev_app_distr in Hq'. simpl in Hq'. rewrite rev_involutive in Hq'. auto. }
  assert (E4 : u = y ++ b') by (rewrite E2 in Eb; congruence).
  rewrite E4 in G3. apply good_app in G3 as [G3 _].
  destruct (@opened _ idat (length y) y stk n stk (le_n _) G3 Eo) as [(c & j2 & d & -> & H1 & H2)|[k H1]].
  - destruct (@opened _ idat (length a) a [] n stk (le_n _) G1 E3) as [(c' & j3 & d' & -> & H3 & H4)|[k H3]].
    + assert (j3 = j2) by congruence. subst j3. rewrite E2 in L. apply (@linear_disjoint _ _ _ j2 n L).
      * apply in_or_app. right. left. auto.
      * right. apply in_or_app. left. apply in_or_app. right. left. auto.
    + destruct k; discriminate.
  - apply (f_equal (@length _)) in H1. rewrite app_length in H1. simpl in H1. lia.
Qed.

Lemma end_unique es a b a' b' q : good idat [] es -> linear es -> open_from [] es = [] ->
  es = a ++ b -> es = a' ++ b' -> at_end a b q -> at_end a' b' q -> length a = length a'.
Proof.
  intros G L O E E' H H'. destruct (lt_eq_lt_dec (length a) (length a')) as [[Hl|Hl]|Hl]; auto; exfalso.
  - eapply (@end_before es a b a' b' q); eauto.
  - eapply (@end_before es a' b' a b q); eauto.
Qed.
End Point.

Lemma mark_before es a b a' b' q :
  es = a ++ b -> es = a' ++ b' -> at_mark a q -> at_mark a' q -> length a < length a' -> False.
Proof.
  intros E E' (u & j & -> & Hq & _) (u' & j' & -> & _ & Hno) Hlt. rewrite E in E'.
  destruct (@order _ _ _ _ _ E' Hlt) as (x & y & Eu & _).
  destruct (exists_last (l := x :: y)) as (z & e & Ez); [discriminate|]. rewrite Ez, app_assoc in Eu. apply app_inj_tail in Eu as [-> _].
  apply (Hno u j z); auto. rewrite <- app_assoc. reflexivity.
Qed.

Lemma mark_unique es a b a' b' q :
  es = a ++ b -> es = a' ++ b' -> at_mark a q -> at_mark a' q -> length a = length a'.
Proof.
  intros E E' H H'. destruct (lt_eq_lt_dec (length a) (length a')) as [[Hl|Hl]|Hl]; auto; exfalso.
  - eapply (@mark_before es a b a' b' q); eauto.
  - eapply (@mark_before es a' b' a b q); eauto.
Qed.

(** ** Points of two layouts that are alike *)
Lemma like_app l l1 l2 : Forall2 event_like (l1 ++ l2) l -> exists l1' l2', l = l1' ++ l2' /\ Forall2 event_like l1 l1' /\ Forall2 event_like l2 l2'.
Proof.
  intros H. apply Forall2_app_inv_l in H as (a & b & H1 & H2 & ->). eauto.
Qed.

Lemma like_start a a' q : Forall2 event_like a a' -> at_start a q -> at_start a' q.
Proof.
  intros Ha [[-> ->]|(u & j & n & -> & Hq)].
  - inversion Ha. left. auto.
  - apply like_app in Ha as (u' & e' & -> & H1 & H2). inversion H2 as [|x y lx ly He Hl]; subst. inversion Hl; subst. inversion He; subst.
    right. exists u', j', n. split; auto. rewrite (like_open_path H1). auto.
Qed.

Lemma like_end a a' b b' q : Forall2 event_like a a' -> Forall2 event_like b b' -> at_end a b q -> at_end a' b' q.
Proof.
  intros Ha Hb [[-> ->]|(u & j & n & -> & Hq)].
  - inversion Hb. left. auto.
  - inversion Hb as [|x y lx ly He Hl]; subst. inversion He; subst.
    right. exists ly, j', n. split; auto. rewrite (like_open_path Ha). auto.
Qed.

Lemma like_mark a a' q : Forall2 event_like a a' -> at_mark a q -> at_mark a' q.
Proof.
  intros Ha (u & j & -> & Hq & Hno).
  apply like_app in Ha as (u' & e' & -> & H1 & H2). inversion H2 as [|x y lx ly He Hl]; subst. inversion Hl; subst. inversion He; subst.
  exists u', j'. split; auto. rewrite (like_open_path H1). split; auto.
  intros x j1 y E. subst u'. apply Forall2_app_inv_r in H1 as (x0 & y0 & H3 & H4 & ->).
  inversion H4 as [|e1 e2 l1 l2 He1 Hl1]; subst. inversion He1; subst. rewrite (like_open_path H3). eapply Hno. reflexivity.
Qed.

Lemma like_displayed es es' q : Forall2 event_like es es' -> displayed es q -> displayed es' q.
Proof.
  intros H (a & b & -> & <-). apply like_app in H as (a' & b' & -> & H1 & H2).
  exists a', b'. split; auto. apply like_open_path. auto.
Qed.

Lemma like_mark_displayed es es' q : Forall2 event_like es es' -> mark_displayed es q -> mark_displayed es' q.
Proof.
  intros H (a & j & b & -> & <-). apply like_app in H as (a' & b' & -> & H1 & H2).
  inversion H2 as [|x y lx ly He Hl]; subst. inversion He; subst.
  exists a', j', ly. split; auto. apply like_open_path. auto.
Qed.

End Style.
