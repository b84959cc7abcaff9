(** Layouts of documents made of parts. *)
From Verif Require Export SpecNest PRel PLine Properties2.

Set Implicit Arguments.

Section Nest.
Context {pd : PrettyDoc} {env : Env}.

(** ** The notation of the root only matters as such *)
Lemma note_like_refl (i i' : @info pd) n : (forall l, i_lookup i' l = i_lookup i l) -> note_like eq eq i i' n n.
Proof.
  intros H. induction n; try (constructor; auto; fail).
  constructor; auto. destruct label; simpl; auto.
Qed.

Lemma note_same r r' kids n c :
  (match r, r' with RText _ s, RText _ s' => s = s' | RBranch _ _, RBranch _ _ => True | _, _ => False end) ->
  (forall c, i_cond (r_info r') c = i_cond (r_info r) c) -> (forall l, i_lookup (r_info r') l = i_lookup (r_info r) l) ->
  elab_note r kids n None c = elab_note r' kids n None c.
Proof.
  intros H1 H2 H3.
  apply note_rel with (RS := eq) (RI := eq) (RT := eq) (R := eq) (RC := eq); auto; try congruence; try (intros; subst; auto; fail).
  - intros p p' s s' c0 c' <- H ->. destruct s, s'; try contradiction; congruence.
  - destruct r, r'; auto.
  - induction kids as [|k ks IH]; constructor; auto. split; [|intros; subst; auto].
    repeat split; auto. apply note_like_refl. auto.
  - apply note_like_refl. auto.
  - exact I.
Qed.

Lemma with_elab r n c : elab (with_note r n) c = elab_note r (kids_of r) n None c.
Proof.
  rewrite elab_eq. destruct r as [i s|i ks]; simpl; symmetry; apply note_same; simpl; auto.
Qed.

Lemma with_root r n st : root_ctx (with_note r n) st = root_ctx r st.
Proof. destruct r; reflexivity. Qed.
Lemma with_id r n : i_id (r_info (with_note r n)) = i_id (r_info r).
Proof. destruct r; reflexivity. Qed.

Lemma with_layout w r n st :
  layout w (doc_shape (with_note r n) st) =
  option_map fst (rend w (elab_note r (kids_of r) n None (root_ctx r st)) (i_id (r_info r)) look_end pos0).
Proof. unfold layout, doc_shape. rewrite with_elab, with_root, with_id. reflexivity. Qed.

(** ** Above and below *)
Lemma rend_above w a b j k p :
  rend w (SConcat (SConcat a (SNewline [])) b) j k p =
  obind (rend w a j look_end p) (fun '(e1, _) => obind (rend w b j k pos0) (fun '(e2, p2) => Some (e1 ++ ENewline [] :: e2, p2))).
Proof.
  cbn [rend]. rewrite (rend_ext w a j (fits_s (SNewline []) (fits_s b k)) look_end p) by reflexivity.
  destruct (rend w a j look_end p) as [[e1 p1]|]; [|reflexivity].
  change (indent_pos []) with (Some pos0). cbn [obind].
  destruct (rend w b j k pos0) as [[e2 p2]|]; [|reflexivity]. cbn [obind]. rewrite <- app_assoc. reflexivity.
Qed.

Lemma lines_newline (a b : list event) ind cur : lines_from cur (a ++ ENewline ind :: b) = lines_from cur a ++ lines_from (rev ind) b.
Proof.
  revert cur; induction a as [|e a IH]; intros cur; simpl; auto. destruct e; auto. simpl. rewrite IH. reflexivity.
Qed.

Lemma lines_above (a b : list event) : lines_of (a ++ ENewline [] :: b) = lines_of a ++ lines_of b.
Proof. apply lines_newline. Qed.

(** ** Indentation *)
Variable sg : segment.
Notation pw := (seg_width sg).

Fixpoint shift (s : shape) : shape :=
  match s with
  | SNewline ind => SNewline (ind ++ [sg])
  | SConcat a b => SConcat (shift a) (shift b)
  | SChoice a b => SChoice (shift a) (shift b)
  | SChild n i s' => SChild n i (shift s')
  | _ => s
  end.

Definition shift_ev (e : event) : event := match e with ENewline ind => ENewline (ind ++ [sg]) | _ => e end.

Lemma shift_fails s : head_fails (shift s) = head_fails s.
Proof. destruct s; reflexivity. Qed.

Lemma shift_fits s : forall k r e, fits_s (shift s) k r e = fits_s s k r e.
Proof.
  induction s as [f| | |ind|t|a IHa b IHb|a IHa b IHb|n i s IH|]; intros k r e; simpl; auto.
  rewrite shift_fails. destruct (head_fails b); auto. rewrite IHa. apply fits_s_ext. auto.
Qed.

Definition over (p : pos) : pos := ((pw + fst p)%N, snd p).

Lemma shift_picks w a k p : (pw <= w)%N -> picks_first w (shift a) k (over p) = picks_first (w - pw) a k p.
Proof.
  intros Hw. destruct p as [len eol]. unfold picks_first, over. cbn [fst snd].
  replace (pw + len <=? w)%N with (len <=? w - pw)%N.
  - rewrite shift_fits. replace (w - (pw + len))%N with (w - pw - len)%N by lia. reflexivity.
  - destruct (N.leb_spec len (w - pw)), (N.leb_spec (pw + len) w); auto; lia.
Qed.

Lemma lines_shift es : forall cur, lines_from (sg :: cur) (map shift_ev es) = map (cons sg) (lines_from cur es).
Proof.
  induction es as [|e es IH]; intros cur; simpl; auto. destruct e; simpl; auto.
  rewrite rev_app_distr. simpl. rewrite IH. reflexivity.
Qed.

Lemma narrow_indent ind : narrow (rev (ind ++ [sg])) ->
  indent_pos (ind ++ [sg]) = Some (over (sumw (rev ind), false)) /\ indent_pos ind = Some (sumw (rev ind), false).
Proof.
  unfold narrow. intros H. unfold indent_pos, osum16, sum16. rewrite rev_app_distr in *. cbn [rev app] in *.
  unfold sumw in *. simpl in H.
  rewrite !sum16_exact; cbn [map fold_right]; rewrite ?N.add_0_l; [|lia|exact H]. split; reflexivity.
Qed.

Lemma shift_rend w s : (pw <= w)%N -> forall j k p es p' cur,
  rend (w - pw) s j k p = Some (es, p') -> Forall narrow (lines_from cur (map shift_ev es)) -> sumw cur = (pw + fst p)%N ->
  rend w (shift s) j k (over p) = Some (map shift_ev es, over p') /\
  exists ls l, lines_from cur (map shift_ev es) = ls ++ [l] /\ sumw l = (pw + fst p')%N.
Proof.
  intros Hw. induction s as [f| | |ind|t|a IHa b IHb|a IHa b IHb|n i s IH|]; intros j k p es p' cur; cbn [rend shift]; intros H Hn Hc.
  - discriminate.
  - injection H as <- <-. split; auto. exists [], cur. auto.
  - injection H as <- <-. split; auto. exists [], cur. auto.
  - apply obind_some in H as [x [Hx [= <- <-]]]. simpl in Hn. inversion Hn as [|? ? H1 H2]; subst.
    inversion H2 as [|? ? H3 _]; subst. destruct (narrow_indent _ H3) as [E1 E2]. rewrite E1. rewrite E2 in Hx. injection Hx as <-.
    split; [reflexivity|]. simpl. exists [cur], (rev (ind ++ [sg])). split; auto.
    rewrite rev_app_distr. reflexivity.
  - apply obind_some in H as [x [Hx [= <- <-]]]. simpl in Hn. inversion Hn as [|? ? H1 _]; subst.
    unfold narrow in H1. rewrite sumw_app in H1. unfold sumw in H1 at 2. simpl in H1. rewrite N.add_0_r in H1.
    destruct p as [len eol]. unfold over, text_pos in *. cbn [fst snd] in *. destruct eol; [discriminate|].
    unfold oadd16, add16 in *. rewrite Hc in H1.
    replace (len + tx_width t <? U16)%N with true in * by (symmetry; apply N.ltb_lt; lia).
    replace (pw + len + tx_width t <? U16)%N with true in * by (symmetry; apply N.ltb_lt; lia).
    cbn [to_option obind] in *. injection Hx as <-. cbn [fst snd]. rewrite <- N.add_assoc. split; [reflexivity|].
    exists [], (cur ++ [text_seg t]). split; auto. rewrite sumw_app. unfold sumw at 2. simpl. lia.
  - apply obind_some in H as [[e1 p1] [H1 H]]. apply obind_some in H as [[e2 p2] [H2 [= <- <-]]].
    rewrite map_app in *. destruct (narrow_app _ _ _ Hn) as (ls & l & A1 & N1 & N2 & A2).
    destruct (IHa _ _ _ _ _ cur H1 N1 Hc) as (E1 & ls' & l' & A3 & B3). rewrite A1 in A3. apply app_inj_tail in A3 as [<- <-].
    destruct (IHb _ _ _ _ _ l H2 N2 B3) as (E2 & ls2 & l2 & A4 & B4).
    rewrite (rend_ext w (shift a) j (fits_s (shift b) k) (fits_s b k)) by (intros; apply shift_fits).
    rewrite E1. cbn [obind]. rewrite E2. split; [reflexivity|].
    exists (ls ++ ls2), l2. rewrite A2, A4, app_assoc. auto.
  - rewrite shift_fails. destruct (head_fails a); [discriminate|]. rewrite shift_picks by exact Hw.
    apply obind_some in H as [f [Hf H]]. rewrite Hf. cbn [obind]. destruct f; eauto.
  - destruct i as [j'|]; [|discriminate]. apply obind_some in H as [[e1 p1] [H1 [= <- <-]]].
    simpl in Hn. rewrite map_app in *. simpl in Hn. rewrite lines_exit in Hn.
    destruct (IH _ _ _ _ _ cur H1 Hn Hc) as (E & L). rewrite E. cbn [obind]. split.
    + simpl. rewrite map_app. reflexivity.
    + simpl. rewrite map_app. simpl. rewrite lines_exit. exact L.
  - injection H as <- <-. split; auto. exists [], cur. auto.
Qed.

Lemma unshift_rend w s : (pw <= w)%N -> forall j k p es p' cur,
  rend w (shift s) j k (over p) = Some (es, p') -> Forall narrow (lines_from cur es) -> sumw cur = (pw + fst p)%N ->
  exists es0 p0, es = map shift_ev es0 /\ p' = over p0 /\ rend (w - pw) s j k p = Some (es0, p0) /\
  exists ls l, lines_from cur es = ls ++ [l] /\ sumw l = (pw + fst p0)%N.
Proof.
  intros Hw. induction s as [f| | |ind|t|a IHa b IHb|a IHa b IHb|n i s IH|]; intros j k p es p' cur; cbn [rend shift]; intros H Hn Hc.
  - discriminate.
  - injection H as <- <-. exists [], p. split; auto. split; auto. split; auto. exists [], cur. auto.
  - injection H as <- <-. exists [EEol], (fst p, true). split; auto. split; auto. split; auto. exists [], cur. auto.
  - apply obind_some in H as [x [Hx [= <- <-]]]. simpl in Hn. inversion Hn as [|? ? H1 H2]; subst.
    inversion H2 as [|? ? H3 _]; subst. destruct (narrow_indent _ H3) as [E1 E2]. rewrite E1 in Hx. rewrite E2. injection Hx as <-.
    eexists [ENewline ind], _. split; [reflexivity|]. split; [reflexivity|]. split; [reflexivity|].
    simpl. exists [cur], (rev (ind ++ [sg])). split; auto. rewrite rev_app_distr. reflexivity.
  - apply obind_some in H as [x [Hx [= <- <-]]]. simpl in Hn. inversion Hn as [|? ? H1 _]; subst.
    unfold narrow in H1. rewrite sumw_app in H1. unfold sumw in H1 at 2. simpl in H1. rewrite N.add_0_r in H1.
    destruct p as [len eol]. unfold over, text_pos in *. cbn [fst snd] in *. destruct eol; [discriminate|].
    unfold oadd16, add16 in *. rewrite Hc in H1.
    replace (len + tx_width t <? U16)%N with true in * by (symmetry; apply N.ltb_lt; lia).
    replace (pw + len + tx_width t <? U16)%N with true in * by (symmetry; apply N.ltb_lt; lia).
    cbn [to_option obind] in *. injection Hx as <-. exists [EText j t], ((len + tx_width t)%N, false).
    cbn [fst snd]. rewrite <- N.add_assoc. split; [reflexivity|]. split; [reflexivity|]. split; [reflexivity|].
    exists [], (cur ++ [text_seg t]). split; auto. rewrite sumw_app. unfold sumw at 2. simpl. lia.
  - apply obind_some in H as [[e1 p1] [H1 H]]. apply obind_some in H as [[e2 p2] [H2 [= <- <-]]].
    destruct (narrow_app _ _ _ Hn) as (ls & l & A1 & N1 & N2 & A2).
    rewrite (rend_ext w (shift a) j (fits_s (shift b) k) (fits_s b k)) in H1 by (intros; apply shift_fits).
    destruct (IHa _ _ _ _ _ cur H1 N1 Hc) as (e1' & p1' & -> & -> & E1 & ls' & l' & A3 & B3). rewrite A1 in A3. apply app_inj_tail in A3 as [<- <-].
    destruct (IHb _ _ _ _ _ l H2 N2 B3) as (e2' & p2' & -> & -> & E2 & ls2 & l2 & A4 & B4).
    rewrite E1. cbn [obind]. rewrite E2. exists (e1' ++ e2'), p2'. rewrite map_app. split; auto. split; auto. split; auto.
    exists (ls ++ ls2), l2. rewrite A2, A4, app_assoc. auto.
  - rewrite shift_fails in H. destruct (head_fails a); [discriminate|]. rewrite shift_picks in H by exact Hw.
    apply obind_some in H as [f [Hf H]]. rewrite Hf. cbn [obind]. destruct f; eauto.
  - destruct i as [j'|]; [|discriminate]. apply obind_some in H as [[e1 p1] [H1 [= <- <-]]].
    simpl in Hn. rewrite lines_exit in Hn.
    destruct (IH _ _ _ _ _ cur H1 Hn Hc) as (e1' & p1' & -> & -> & E & L). rewrite E. cbn [obind].
    exists (EEnter j n :: e1' ++ [EExit j n]), p1'. simpl. rewrite map_app. split; auto. split; auto. split; auto.
    simpl. rewrite lines_exit. exact L.
  - injection H as <- <-. exists [EMark j], p. split; auto. split; auto. split; auto. exists [], cur. auto.
Qed.

Definition ctx_over (c c' : ctx) : Prop :=
  x_flat c' = x_flat c /\ x_ind c' = x_ind c ++ [sg] /\ x_sty c' = x_sty c.

Lemma over_flat c c' : ctx_over c c' -> ctx_over (in_flat c) (in_flat c').
Proof. intros (H1 & H2 & H3). repeat split; simpl; auto. Qed.
Lemma over_style s s' c c' : s = s' -> ctx_over c c' -> ctx_over (in_style s c) (in_style s' c').
Proof. intros -> (H1 & H2 & H3). repeat split; simpl; auto. rewrite H3. auto. Qed.
Lemma over_indent p p' (s s' : option Sty) c c' : p = p' -> match s, s' with None, None => True | Some s, Some s' => s = s' | _, _ => False end ->
  ctx_over c c' -> ctx_over (in_indent p s c) (in_indent p' s' c').
Proof.
  intros <- Hs (H1 & H2 & H3). repeat split; simpl; auto. rewrite H2, H3. f_equal. f_equal.
  destruct s, s'; try contradiction; subst; auto.
Qed.

Lemma info_like_refl (i : @info pd) : info_like eq eq eq i i.
Proof. repeat split; auto. apply note_like_refl. auto. Qed.

Lemma doc_like_refl r : doc_like eq eq eq r r.
Proof.
  induction r as [i s|i ks IH] using rdoc_ind'; constructor; try apply info_like_refl; [reflexivity|].
  induction ks as [|k ks IHk]; constructor; auto with datatypes.
Qed.

Lemma shift_elab r c c' : ctx_over c c' -> elab r c' = shift (elab r c).
Proof.
  apply elab_rel with (RS := eq) (RI := eq) (RT := eq) (R := fun s s' => s' = shift s) (RC := ctx_over);
    auto using over_flat, over_style, over_indent, doc_like_refl; try (intros; subst; reflexivity).
  - intros x x' H. apply H.
  - intros x x' (_ & H & _). simpl. rewrite H. reflexivity.
  - intros x x' s s' f (_ & _ & H) <-. simpl. rewrite H. reflexivity.
Qed.

Lemma shift_note r n c c' : ctx_over c c' -> elab_note r (kids_of r) n None c' = shift (elab_note r (kids_of r) n None c).
Proof.
  intros Hc. rewrite <- !with_elab. apply shift_elab. exact Hc.
Qed.

End Nest.
