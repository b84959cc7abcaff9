(** A document some of whose nodes are closed, with the closed nodes shut: nodes
    are tagged by what is known about them, and those that are tagged as closed
    refuse to be displayed. *)
From Verif Require Export PPeek8 PSim PSimCost PShut PMono.

Set Implicit Arguments.

Section PTag.
Context {pd : PrettyDoc} {env : Env}.

Definition hush {A} (x : mres Er A) : mres unit A :=
  match x with MOk a => MOk a | MErr _ => MErr tt | MPanic => MPanic end.
Definition htag (o : @odoc pd) (x : mres Er D) : mres unit (odoc * D) :=
  match x with MOk a => MOk (o, a) | MErr _ => MErr tt | MPanic => MPanic end.

Definition kid_tag (o : odoc) (i : nat) : odoc := nth i (o_kids o) (OClosed (o_info o)).

Definition tag_pd : PrettyDoc := {|
  D := odoc * D; Id := Id; Sty := Sty; Lbl := Lbl; Cnd := Cnd; Er := unit;
  id_eqb := id_eqb; style_combine := style_combine;
  m_id := fun x => hush (m_id (snd x));
  m_notation := fun x => if o_open (fst x) then hush (m_notation (snd x)) else
    match m_notation (snd x) with MOk _ => MOk Text | MErr _ => MErr tt | MPanic => MPanic end;
  m_condition := fun x c => hush (m_condition (snd x) c);
  m_lookup_style := fun x l => hush (m_lookup_style (snd x) l);
  m_node_style := fun x => hush (m_node_style (snd x));
  m_num_children := fun x => if o_open (fst x) then hush (m_num_children (snd x)) else MErr tt;
  m_unwrap_text := fun x => hush (m_unwrap_text (snd x));
  m_unwrap_child := fun x i => htag (kid_tag (fst x) i) (m_unwrap_child (snd x) i);
  m_unwrap_last_child := fun x => htag (kid_tag (fst x) (pred (length (o_kids (fst x))))) (m_unwrap_last_child (snd x));
  m_unwrap_prev_sibling := fun x p i => htag (kid_tag (fst p) i) (m_unwrap_prev_sibling (snd x) (snd p) i) |}.

Notation pd0 := tag_pd.

Definition untag : likeness pd0 pd :=
  @Likeness pd0 pd (fun x d => snd x = d) eq eq eq eq (fun _ _ => False) (fun _ => True).

Definition shut (x : @D pd0) : Prop := o_open (fst x) = false.

Lemma like_hush {A B} (Q : A -> B -> Prop) (x : mres Er B) (y : mres unit A) :
  match x with MOk b => exists a, y = MOk a /\ Q a b | MErr _ => y = MErr tt | MPanic => y = MPanic end ->
  answers_like untag Q y x.
Proof. destruct x; simpl; [intros (a0 & -> & H); simpl; eauto|intros ->; simpl; auto|intros ->; reflexivity]. Qed.

Lemma hush_like {A} (x : mres Er A) : answers_like untag eq (hush x) x.
Proof. apply like_hush. destruct x; simpl; eauto. Qed.

Lemma htag_like o (x : mres Er D) : answers_like untag (lk_doc untag) (htag o x) x.
Proof. apply like_hush. destruct x; simpl; eauto. Qed.

Lemma note_same (n : @note pd) : note_like untag n n.
Proof. induction n; simpl; auto. destruct label; auto. Qed.

Lemma tag_lockstep : lockstep untag shut.
Proof.
  split; try (intros [o d] d2 E; cbn in E; subst d2); simpl.
  - intros i' i j' j -> ->. reflexivity.
  - intros s' s t' t -> ->. reflexivity.
  - apply hush_like.
  - unfold shut. simpl. destruct (o_open o).
    + apply like_hush. destruct (m_notation d); simpl; auto. eexists. split; [reflexivity|]. left. apply note_same.
    + apply like_hush. destruct (m_notation d); simpl; auto. eexists. split; [reflexivity|]. right. auto.
  - intros [o d] d2 c' c E ->. cbn in E. subst d2. apply hush_like.
  - intros [o d] d2 c' c E ->. cbn in E. subst d2. apply hush_like.
  - apply hush_like.
  - destruct (o_open o); [apply hush_like|]. simpl. auto.
  - apply hush_like.
  - intros [o d] d2 i E. cbn in E. subst d2. apply htag_like.
  - apply htag_like.
  - intros [o d] d2 [op p] p2 i E E2. cbn in E, E2. subst d2 p2. apply htag_like.
  - intros [o d] H. unfold shut in H. simpl in H. exists tt. simpl. rewrite H. auto.
Qed.

(** ** Translations *)
Definition tr_info (i : @info pd) : @info pd0 := @Info pd0 (i_id i) (i_note i) (i_style i) (i_lookup i) (i_cond i).
Fixpoint tr_r (r : @rdoc pd) : @rdoc pd0 :=
  match r with RText i s => RText (tr_info i) s | RBranch i ks => RBranch (tr_info i) (map tr_r ks) end.
Fixpoint tr_o (r : @odoc pd) : @odoc pd0 :=
  match r with
  | OText i s => OText (tr_info i) s
  | OBranch i ks => OBranch (tr_info i) (map tr_o ks)
  | OClosed i => OClosed (tr_info i)
  end.
Definition tr_seg (s : @segment pd) : @segment pd0 := @Segment pd0 (seg_str s) (seg_width s) (seg_style s).
Definition tr_tx (t : @textual pd) : @textual pd0 := @Textual pd0 (tx_str t) (tx_width t) (tx_style t) (tx_from_text t).
Definition tr_ctx (c : @ctx pd) : @ctx pd0 := @Ctx pd0 (x_flat c) (map tr_seg (x_ind c)) (x_sty c).
Definition tr_err (e : perr (@Er pd)) : perr unit :=
  match e with
  | InvalidPath i => InvalidPath i
  | TextNotationOnTextlessDoc => TextNotationOnTextlessDoc
  | ChildIndexOutOfBounds i l => ChildIndexOutOfBounds i l
  | ChildNotationOnChildlessDoc => ChildNotationOnChildlessDoc
  | CheckPosChildIndexOutOfBounds i l => CheckPosChildIndexOutOfBounds i l
  | CheckPosChildOnChildlessDoc => CheckPosChildOnChildlessDoc
  | CountNotationOnChildlessDoc => CountNotationOnChildlessDoc
  | NumChildrenChanged => NumChildrenChanged
  | TextAfterEndOfLine => TextAfterEndOfLine
  | MissingFocusMark => MissingFocusMark
  | MissingText => MissingText
  | PrettyDocErr _ => PrettyDocErr tt
  end.
Definition tr_fail (f : failure (perr (@Er pd))) : failure (perr unit) :=
  match f with FErr e => FErr (tr_err e) | FPanic p => FPanic p | FFuel => FFuel end.
Definition tr_res {A} (x : @pres pd A) : @pres pd0 A := match x with Ok a => Ok a | Fail f => Fail (tr_fail f) end.
Fixpoint tr_s (s : @shape pd) : @shape pd0 :=
  match s with
  | SFail f => @SFail pd0 (tr_fail f)
  | SEmpty => SEmpty
  | SEol => SEol
  | SNewline ind => @SNewline pd0 (map tr_seg ind)
  | SText t => @SText pd0 (tr_tx t)
  | SConcat a b => SConcat (tr_s a) (tr_s b)
  | SChoice a b => SChoice (tr_s a) (tr_s b)
  | SChild n i s => @SChild pd0 n (tr_res i) (tr_s s)
  | SMark => SMark
  end.
Definition tr_ev (e : @event pd) : @event pd0 :=
  match e with
  | EText j t => @EText pd0 j (tr_tx t)
  | EEol => EEol
  | ENewline ind => @ENewline pd0 (map tr_seg ind)
  | EMark j => @EMark pd0 j
  | EEnter j n => @EEnter pd0 j n
  | EExit j n => @EExit pd0 j n
  end.
Definition tr_gap (g : @gap pd) : @gap pd0 :=
  match g with GapChild j n => @GapChild pd0 j n | GapChoice j => @GapChoice pd0 j | GapOther => GapOther end.
Definition tr_pev (e : @pev pd) : @pev pd0 :=
  match e with Ev e => @Ev pd0 (tr_ev e) | Gap g => @Gap pd0 (tr_gap g) end.

Lemma tr_r_info r : r_info (tr_r r) = tr_info (r_info r).
Proof. destruct r; reflexivity. Qed.
Lemma tr_o_info r : o_info (tr_o r) = tr_info (o_info r).
Proof. destruct r; reflexivity. Qed.
Lemma tr_o_kids r : o_kids (tr_o r) = map tr_o (o_kids r).
Proof. destruct r; reflexivity. Qed.
Lemma tr_o_open r : o_open (tr_o r) = o_open r.
Proof. destruct r; reflexivity. Qed.

Lemma tr_forget o : forget (tr_o o) = tr_r (forget o).
Proof.
  induction o as [i s|i ks IH|i] using odoc_ind'; simpl; auto. f_equal. rewrite !map_map. apply map_ext_in. auto.
Qed.

Lemma tr_valid o : ovalid o -> ovalid (tr_o o).
Proof.
  induction 1 as [i s H|i ks H Hk IH|i]; simpl; constructor; auto.
  intros k Hk'. apply in_map_iff in Hk' as (k0 & <- & Hin). auto.
Qed.

Lemma tr_onode o q : onode_at (tr_o o) q = option_map tr_o (onode_at o q).
Proof.
  revert o. induction q as [|n q IH]; intros o; simpl; auto.
  rewrite tr_o_kids, nth_error_map. destruct (nth_error (o_kids o) n); simpl; auto.
Qed.

Lemma tr_oid o q : @oid_at pd0 (tr_o o) q = oid_at o q.
Proof.
  unfold oid_at. rewrite tr_onode. destruct (onode_at o q) as [x|]; simpl; auto.
  rewrite tr_o_open, tr_o_info. reflexivity.
Qed.

Lemma tr_unique o : ounique o -> ounique (tr_o o).
Proof. intros H q q' j. rewrite !tr_oid. apply H. Qed.

(** ** The notation tree *)
Definition kid_like (k0 : @kid pd0) (k : @kid pd) : Prop :=
  k_doc k0 = tr_r (k_doc k) /\ forall c, k_tree k0 (tr_ctx c) = tr_s (k_tree k c).

Lemma child_like n k0 k c : kid_like k0 k -> child n k0 (tr_ctx c) = tr_s (child n k c).
Proof.
  intros [H1 H2]. unfold child. simpl. rewrite H1, tr_r_info. f_equal.
  exact (H2 (in_style (i_style (r_info (k_doc k))) c)).
Qed.

Definition fe_like (e0 : option (@foldenv pd0)) (e : option (@foldenv pd)) : Prop :=
  match e0, e with
  | None, None => True
  | Some e0, Some e => (forall c, fe_left e0 (tr_ctx c) = tr_s (fe_left e c)) /\ fe_ldoc e0 = tr_r (fe_ldoc e) /\
      fe_index e0 = fe_index e /\ kid_like (fe_right e0) (fe_right e)
  | _, _ => False
  end.

Lemma fold_like join0 join : (forall e0 e c, fe_like (Some e0) (Some e) -> join0 e0 (tr_ctx c) = tr_s (join e c)) ->
  forall ks0 ks, Forall2 kid_like ks0 ks -> forall i p0 p acc0 acc, kid_like p0 p ->
  (forall c, acc0 (tr_ctx c) = tr_s (acc c)) ->
  forall c, fold_kids join0 i p0 ks0 acc0 (tr_ctx c) = tr_s (fold_kids join i p ks acc c).
Proof.
  intros Hj ks0 ks F. induction F as [|k0 k ks0 ks Hk F IH]; intros i p0 p acc0 acc Hp Ha c; simpl; auto.
  apply IH; auto. intros c'. apply Hj. simpl. split; [auto|]. split; [apply Hp|]. auto.
Qed.

Lemma Forall2_nth {A B} (P : A -> B -> Prop) l0 l : Forall2 P l0 l -> forall n,
  match nth_error l0 n, nth_error l n with Some a, Some b => P a b | None, None => True | _, _ => False end.
Proof. induction 1; intros [|n]; simpl; auto. apply IHForall2. Qed.

Lemma elab_note_like self kids0 kids n : Forall2 kid_like kids0 kids ->
  forall fe0 fe c, fe_like fe0 fe ->
  @elab_note pd0 env (tr_r self) kids0 n fe0 (tr_ctx c) = tr_s (elab_note self kids n fe c).
Proof.
  intros Hk. pose proof (Forall2_length Hk) as Hlen.
  assert (Hb : forall s e, match tr_r self with RBranch _ _ => tr_s s | RText _ _ => @SFail pd0 (FErr (tr_err e)) end =
    tr_s (match self with RBranch _ _ => s | RText _ _ => SFail (FErr e) end)) by (destruct self; reflexivity).
  assert (Hi : r_info (tr_r self) = tr_info (r_info self)) by apply tr_r_info.
  induction n as [| | |s| |n IH|pre l n IH|a IHa b IHb|a IHa b IHb|cd ps a IHa b IHb|i|l n IH| |z IHz o IHo m IHm|f IHf jn IHj| |];
    intros fe0 fe c Hf; cbn [elab_note]; auto.
  - destruct self; reflexivity.
  - exact (IH fe0 fe (in_flat c) Hf).
  - rewrite Hi. destruct l as [l|]; cbn [option_map].
    + exact (IH fe0 fe (in_indent pre (Some (i_lookup (r_info self) l)) c) Hf).
    + exact (IH fe0 fe (in_indent pre None c) Hf).
  - simpl. rewrite (IHa _ _ _ Hf), (IHb _ _ _ Hf). reflexivity.
  - change (x_flat (tr_ctx c)) with (x_flat c). rewrite (IHa _ _ _ Hf), (IHb _ _ _ Hf). destruct (x_flat c); reflexivity.
  - rewrite (IHa _ _ _ Hf), (IHb _ _ _ Hf).
    assert (Hgo : forall x, (if i_cond (r_info (tr_r x)) cd then tr_s (elab_note self kids a fe c) else tr_s (elab_note self kids b fe c)) =
      tr_s (if i_cond (r_info x) cd then elab_note self kids a fe c else elab_note self kids b fe c)).
    { intros x. rewrite tr_r_info. simpl. destruct (i_cond (r_info x) cd); reflexivity. }
    destruct ps as [|k| |].
    + apply Hgo.
    + rewrite <- Hb. rewrite Hlen. destruct (kid_number k (length kids)) as [m|]; [|destruct self; reflexivity].
      pose proof (Forall2_nth Hk m) as Hm. destruct (nth_error kids0 m) as [k0|], (nth_error kids m) as [k1|]; try contradiction; [|destruct self; reflexivity].
      destruct Hm as [Hm _]. rewrite Hm. rewrite Hgo. destruct self; reflexivity.
    + destruct fe0 as [e0|], fe as [e|]; try contradiction; auto. destruct Hf as (_ & -> & _). apply Hgo.
    + destruct fe0 as [e0|], fe as [e|]; try contradiction; auto. destruct Hf as (_ & _ & _ & -> & _). apply Hgo.
  - rewrite <- Hb. rewrite Hlen. destruct (kid_number i (length kids)) as [m|]; [|destruct self; reflexivity].
    pose proof (Forall2_nth Hk m) as Hm. destruct (nth_error kids0 m) as [k0|], (nth_error kids m) as [k1|]; try contradiction; [|destruct self; reflexivity].
    rewrite (child_like m c Hm). destruct self; reflexivity.
  - rewrite Hi. exact (IH fe0 fe (in_style (i_lookup (r_info self) l) c) Hf).
  - rewrite <- Hb. rewrite (IHz _ _ _ Hf), (IHo _ _ _ Hf), (IHm _ _ _ Hf).
    clear - Hk. destruct Hk as [|k0 k ks0 ks H1 [|k0' k' ks0' ks' H2 H3]]; destruct self; reflexivity.
  - rewrite <- Hb.
    assert (E : match kids0 with [] => SEmpty | k :: ks =>
        fold_kids (fun e c => @elab_note pd0 env (tr_r self) kids0 jn (Some e) c) 0 k ks
          (fun c => elab_note (tr_r self) kids0 f None c) (tr_ctx c) end =
      tr_s (match kids with [] => SEmpty | k :: ks =>
        fold_kids (fun e c => elab_note self kids jn (Some e) c) 0 k ks (fun c => elab_note self kids f None c) c end)).
    { destruct Hk as [|k0 k ks0 ks H1 H2]; [reflexivity|]. apply fold_like; auto. intros c'. apply IHf. exact I. }
    rewrite E. destruct self; reflexivity.
  - destruct fe0 as [e0|], fe as [e|]; try contradiction; auto. apply Hf.
  - destruct fe0 as [e0|], fe as [e|]; try contradiction; auto. destruct Hf as (_ & _ & -> & H). apply child_like; auto.
Qed.

Lemma tr_elab o : forall c, @oelab pd0 env (tr_o o) (tr_ctx c) = tr_s (oelab o c).
Proof.
  induction o as [i s|i ks IH|i] using odoc_ind'; intros c; auto.
  - apply (@elab_note_like (RText i s) [] [] (i_note i)); [constructor|exact I].
  - cbn [oelab tr_o]. change (OBranch (tr_info i) (map tr_o ks)) with (tr_o (OBranch i ks)). rewrite tr_forget.
    apply (@elab_note_like (forget (OBranch i ks))); [|exact I].
    clear c. rewrite map_map. induction ks as [|k ks IHk]; simpl; constructor.
    + split; simpl; [apply tr_forget|]. apply IH. left. reflexivity.
    + apply IHk. intros k' Hk'. apply IH. right. exact Hk'.
Qed.

Lemma tr_parts s : @parts pd0 (tr_s s) = parts s.
Proof. induction s; simpl; auto. Qed.

(** ** The partial layout *)
Lemma tr_widths ind : map (@seg_width pd0) (map tr_seg ind) = map (@seg_width pd) ind.
Proof. rewrite map_map. reflexivity. Qed.

Lemma tr_indent_pos ind : @indent_pos pd0 env (map tr_seg ind) = indent_pos ind.
Proof. unfold indent_pos. rewrite <- map_rev, tr_widths. reflexivity. Qed.

Lemma tr_head s : head_fails (tr_s s) = head_fails s.
Proof. destruct s; reflexivity. Qed.

Lemma tr_opens s : @opens pd0 env (tr_s s) = opens s.
Proof. induction s; simpl; auto; [rewrite tr_indent_pos; reflexivity|rewrite IHs1, IHs2; reflexivity]. Qed.

Lemma tr_fits s : forall k0 k : look, (forall r e, k0 r e = k r e) -> forall r e, @fits_s pd0 (tr_s s) k0 r e = fits_s s k r e.
Proof.
  induction s as [f| | |ind|t|a IHa b IHb|a IHa b IHb|n j s IH|]; intros k0 k Hk r e; simpl; auto.
  - destruct e; auto. destruct (tx_width t <=? r)%N; auto.
  - rewrite tr_head. destruct (head_fails b); auto.
Qed.

Lemma tr_peek w s : forall j k0 k p, (forall r e, k0 r e = k r e) ->
  @peek pd0 env w (tr_s s) j k0 p = (map tr_pev (fst (peek w s j k p)), snd (peek w s j k p)).
Proof.
  induction s as [f| | |ind|t|a IHa b IHb|a IHa b IHb|n i s IH|]; intros j k0 k p Hk; cbn [peek tr_s]; auto.
  - rewrite tr_indent_pos. destruct (indent_pos ind); reflexivity.
  - destruct p as [q|]; simpl; auto.
    change (@text_pos pd0 env q (tr_tx t)) with (text_pos q t). destruct (text_pos q t); reflexivity.
  - rewrite (IHa j _ (fits_s b k)) by (intros; apply tr_fits; auto). cbn [fst snd].
    rewrite (IHb j _ k) by auto. cbn [fst snd]. rewrite map_app. reflexivity.
  - destruct p as [q|]; [|reflexivity]. rewrite tr_head. destruct (head_fails a); [reflexivity|].
    assert (E : @picks_first pd0 w (tr_s a) k0 q = picks_first w a k q).
    { unfold picks_first. destruct q as [len e]. destruct (len <=? w)%N; auto. apply tr_fits. auto. }
    rewrite E, !tr_opens. destruct (picks_first w a k q) as [[|]|]; [|  |reflexivity].
    + destruct (opens a); [|reflexivity]. apply IHa; auto.
    + destruct (opens b); [|reflexivity]. apply IHb; auto.
  - destruct p as [q|]; [|reflexivity]. destruct i as [j'|f]; simpl; [|reflexivity].
    rewrite tr_opens. destruct (opens s); [|reflexivity]. rewrite (IH j' _ k) by auto. cbn [fst snd map].
    rewrite map_app. reflexivity.
Qed.

Lemma tr_open_layout w o st : @open_layout pd0 env w (tr_o o) st = map tr_pev (open_layout w o st).
Proof.
  unfold open_layout, peek_doc.
  assert (E : @root_ctx pd0 (forget (tr_o o)) st = tr_ctx (root_ctx (forget o) st)).
  { unfold root_ctx, tr_ctx. rewrite tr_forget, tr_r_info. simpl. reflexivity. }
  rewrite E, tr_elab, tr_opens, tr_o_info. destruct (opens (oelab o (root_ctx (forget o) st))); [|reflexivity].
  rewrite (@tr_peek w _ (i_id (o_info o)) look_end look_end) by auto. reflexivity.
Qed.

Lemma tr_enter e (j : @Id pd) i : tr_pev e = @Ev pd0 (@EEnter pd0 j i) -> e = @Ev pd (@EEnter pd j i).
Proof. destruct e as [[]|[]]; simpl; try discriminate. intros [= -> ->]. reflexivity. Qed.
Lemma tr_exit e (j : @Id pd) i : tr_pev e = @Ev pd0 (@EExit pd0 j i) -> e = @Ev pd (@EExit pd j i).
Proof. destruct e as [[]|[]]; simpl; try discriminate. intros [= -> ->]. reflexivity. Qed.
Lemma tr_gchild e (j : @Id pd) i : tr_pev e = @Gap pd0 (@GapChild pd0 j i) -> e = @Gap pd (@GapChild pd j i).
Proof. destruct e as [[]|[]]; simpl; try discriminate. intros [= -> ->]. reflexivity. Qed.
Lemma tr_gchoice e (j : @Id pd) : tr_pev e = @Gap pd0 (@GapChoice pd0 j) -> e = @Gap pd (@GapChoice pd j).
Proof. destruct e as [[]|[]]; simpl; try discriminate. intros [= ->]. reflexivity. Qed.

Lemma tr_leads ids ids0 q l path b c a : (forall q, ids0 q = ids q) -> @leads pd ids q l path b c a ->
  @leads pd0 ids0 q (map tr_pev l) path (map tr_pev b) (map tr_pev c) (map tr_pev a).
Proof.
  intros Hids. induction 1 as [q l|q l j i m c r path b c' a Hj Hl H1 H2 H3 H4 Hlead IH]; [constructor|].
  rewrite !map_app. cbn [map]. subst l. rewrite map_app. cbn [map]. rewrite map_app. cbn [map].
  eapply leads_down; [rewrite Hids; exact Hj|reflexivity| | | | |exact IH].
  - intros Hin. apply in_map_iff in Hin as (e & E & Hin). apply tr_enter in E. subst e. auto.
  - intros Hin. apply in_map_iff in Hin as (e & E & Hin). apply tr_gchild in E. subst e. auto.
  - intros Hin. apply in_map_iff in Hin as (e & E & Hin). apply tr_gchoice in E. subst e. auto.
  - intros Hin. apply in_map_iff in Hin as (e & E & Hin). apply tr_exit in E. subst e. auto.
Qed.

Notation tr_line := (map tr_seg).
Lemma tr_lines es : forall cur, @lines_from pd0 (tr_line cur) (map tr_ev es) = map tr_line (lines_from cur es).
Proof.
  induction es as [|e es IH]; intros cur; [reflexivity|]. destruct e; cbn [map tr_ev lines_from]; auto.
  - rewrite <- IH. rewrite map_app. reflexivity.
  - rewrite <- map_rev, IH. reflexivity.
Qed.

Lemma tr_evs u : map tr_pev (map Ev u) = map (@Ev pd0) (map tr_ev u).
Proof. rewrite !map_map. reflexivity. Qed.

Lemma tr_above x k ups l : @above pd x k ups l -> @above pd0 (map tr_pev x) k (map tr_line ups) (tr_line l).
Proof.
  intros [(u & all & -> & H1 & ->)|(z & ind & u & -> & H1 & H2)].
  - left. exists (map tr_ev u), (map tr_line all). rewrite tr_evs. split; auto. split; [|symmetry; apply firstn_map].
    unfold lines_of in *. change (@nil (@segment pd0)) with (tr_line []). rewrite tr_lines, H1, map_app, map_rev. reflexivity.
  - right. exists (map tr_pev z), (tr_line ind), (map tr_ev u). rewrite map_app. cbn [map]. rewrite tr_evs. split; auto.
    rewrite <- map_rev, tr_lines, H1, map_app, map_rev, map_length. auto.
Qed.

Lemma tr_below x k r downs : @below pd x k r downs -> @below pd0 (map tr_pev x) k (tr_line r) (map tr_line downs).
Proof.
  intros [(u & all & -> & H1 & ->)|(u & ind & z & -> & H1 & H2)].
  - left. exists (map tr_ev u), (map tr_line all). rewrite tr_evs. split; auto. split; [|symmetry; apply firstn_map].
    change (@nil (@segment pd0)) with (tr_line []). rewrite tr_lines, H1. reflexivity.
  - right. exists (map tr_ev u), (tr_line ind), (map tr_pev z). rewrite map_app. cbn [map]. rewrite tr_evs. split; auto.
    change (@nil (@segment pd0)) with (tr_line []). rewrite tr_lines, H1, map_length. auto.
Qed.

(** ** The tagged document *)
Lemma tag_handle i ks d : m_num_children d = MOk (Some (length ks)) ->
  forall n (x : @D pd0), @child_handle pd0 (OBranch i ks, d) n x ->
  n < length ks /\ child_handle d n (snd x) /\ fst x = kid_tag (OBranch i ks) n.
Proof.
  intros Hn n x H. induction H as [m n x Hm Hlt Hx|m x Hm Hx|n y x Hy IH Hx].
  - simpl in Hm, Hx. rewrite Hn in Hm. injection Hm as <-.
    destruct (m_unwrap_child d n) as [x0| |] eqn:E; try discriminate. injection Hx as <-. simpl. split; [auto|]. split; [|reflexivity].
    eapply ch_child; eauto.
  - simpl in Hm, Hx. rewrite Hn in Hm. injection Hm as Hm. rewrite Hm in Hx.
    destruct (m_unwrap_last_child d) as [x0| |] eqn:E; try discriminate. injection Hx as <-. simpl. split; [lia|]. split; [|reflexivity].
    apply ch_last; auto. rewrite Hn, Hm. reflexivity.
  - destruct IH as (H1 & H2 & H3). simpl in Hx. split; [lia|].
    destruct (m_unwrap_prev_sibling (snd y) d n) as [x0| |] eqn:E; try discriminate. injection Hx as <-. simpl. split; [|reflexivity].
    eapply ch_prev; eauto.
Qed.

Lemma tag_info o d : o_open o = true -> rep_info (o_info o) d -> @rep_info pd0 (tr_info (o_info o)) (o, d).
Proof.
  intros Ho H. destruct (rep_info_eqs H) as (H1 & H2 & H3 & H4 & H5).
  split; simpl; rewrite ?Ho, ?H1, ?H2, ?H3; auto; intros; rewrite ?H4, ?H5; reflexivity.
Qed.

Lemma tag_orep o : forall d, orep o d -> @orep pd0 (tr_o o) (o, d).
Proof.
  induction o as [i s|i ks IH|i] using odoc_ind'; intros d H; inversion H as [i0 s0 d0 Hi Hn Ht|i0 ks0 d0 Hi Hn Hc Hl Hp Hk|i0 d0 nt sty H1 H2 H3]; subst; simpl.
  - constructor; [apply (@tag_info (OText i s)); auto|simpl; rewrite Hn; reflexivity|simpl; rewrite Ht; reflexivity].
  - constructor.
    + apply (@tag_info (OBranch i ks)); auto.
    + simpl. rewrite Hn, map_length. reflexivity.
    + rewrite map_length. intros n Hlt. destruct (Hc n Hlt) as (x & Hx). simpl. rewrite Hx. simpl. eauto.
    + intros Hne. destruct Hl as (x & Hx); [destruct ks; [contradiction|discriminate]|]. simpl. rewrite Hx. simpl. eauto.
    + rewrite map_length. intros n y Hlt Hy. destruct (@tag_handle i ks _ Hn _ _ Hy) as (_ & Hy' & _).
      destruct (Hp n (snd y) Hlt Hy') as (x & Hx). simpl. rewrite Hx. simpl. eauto.
    + intros n x k Hx Hnth. destruct (@tag_handle i ks _ Hn _ _ Hx) as (Hlt & Hx' & Etag).
      rewrite nth_error_map in Hnth. destruct (nth_error ks n) as [k0|] eqn:E0; [|discriminate]. injection Hnth as <-.
      destruct x as [ox x]. simpl in Etag, Hx'. unfold kid_tag in Etag. simpl in Etag.
      rewrite (nth_error_nth ks n _ E0) in Etag. subst ox. apply IH; [eapply nth_error_In; eauto|]. eapply Hk; eauto.
  - econstructor; simpl; [rewrite H1; reflexivity|rewrite H2; reflexivity|]. intros c. rewrite H3. reflexivity.
Qed.

Definition shutrep (o0 : @odoc pd0) (x : @D pd0) : Prop := o0 = tr_o (fst x) /\ orep (fst x) (snd x).

Lemma tag_shut_orep o0 x : shutrep o0 x -> orep o0 x.
Proof. destruct x as [o d]. intros [-> H]. apply tag_orep. exact H. Qed.

Lemma tag_shut_kid o0 d n x k : shutrep o0 d -> child_handle d n x -> nth_error (o_kids o0) n = Some k -> shutrep k x.
Proof.
  destruct d as [o d]. intros [-> H] Hx Hk. cbn [fst snd] in *. rewrite tr_o_kids, nth_error_map in Hk.
  destruct o as [i s|i ks|i]; cbn [o_kids] in Hk; try (destruct n; discriminate).
  inversion H as [|i0 ks0 d0 Hi Hn Hc Hl Hp Hkk|]; subst.
  destruct (@tag_handle i ks _ Hn _ _ Hx) as (Hlt & Hx' & Etag).
  destruct (nth_error ks n) as [k0|] eqn:E0; [|discriminate]. injection Hk as <-.
  unfold kid_tag in Etag. simpl in Etag. rewrite (nth_error_nth ks n _ E0) in Etag.
  split; rewrite Etag; auto. eapply Hkk; eauto.
Qed.

Lemma tag_eval_shut i x nt flat ind sty j : shutrep (OClosed i) x -> m_notation x = MOk nt ->
  exists f, eval (Delayed nt x flat ind sty j) = Fail f.
Proof.
  destruct x as [o d]. intros [Eo H] Hn. cbn [fst snd] in *. destruct o as [| |i0]; try discriminate.
  inversion H as [| |i1 d0 nt0 sty0 H1 H2 H3]; subst. simpl in Hn. rewrite H1 in Hn. injection Hn as <-.
  rewrite eval_eqn. simpl. eauto.
Qed.

Context {ideq : IdEq pd}.

Lemma tag_ideq : IdEq pd0.
Proof. exact ideq. Qed.

Theorem peephole_cost o d w st path ft ku kd ups downs l r b c a :
  orep o d -> ovalid o -> ounique o -> ft = FStart \/ ft = FEnd ->
  leads (oid_at o) [] (open_layout w o st) path b c a ->
  above (pre_of ft b c) ku ups l -> below (post_of ft c a) kd r downs ->
  o_open o = true ->
  forall n, window_cost n d w path ft st ku kd <= 36 * (parts (oelab o (root_ctx (forget o) st)) + 2) ^ 2.
Proof.
  intros Hrep Hv Hu Hft Hl Ha Hb Ho n.
  assert (Hw : ev (fun n => @window pd0 env n (o, d) w path ft st ku kd)
    (Ok (map (map tr_seg) ups, @FocusedLine pd0 (map tr_seg l) (map tr_seg r), map (map tr_seg) downs))).
  { eapply (@open_window pd0 env tag_ideq (tr_o o)) with (b := map tr_pev b) (c := map tr_pev c) (a := map tr_pev a).
    - apply tag_orep. exact Hrep.
    - apply tr_valid. exact Hv.
    - apply tr_unique. exact Hu.
    - exact Hft.
    - rewrite tr_open_layout. eapply tr_leads; [apply tr_oid|exact Hl].
    - replace (pre_of ft (map tr_pev b) (map tr_pev c)) with (map tr_pev (pre_of ft b c)); [apply tr_above; exact Ha|].
      destruct Hft as [->| ->]; simpl; [reflexivity|apply map_app].
    - replace (post_of ft (map tr_pev c) (map tr_pev a)) with (map tr_pev (post_of ft c a)); [apply tr_below; exact Hb|].
      destruct Hft as [->| ->]; simpl; [apply map_app|reflexivity]. }
  assert (Hc : @window_cost pd0 env n (o, d) w path ft st ku kd = window_cost n d w path ft st ku kd).
  { destruct (window_cost_sim tag_lockstep) with (n := n) (d' := (o, d)) (d := d) (w := w) (path := path) (ft := ft) (st' := st) (st := st) (ku := ku) (kd := kd) as [(e & He & _)|E]; auto.
    - reflexivity.
    - intros s1 s2 ->. reflexivity.
    - exfalso. destruct (@window_result pd0 env _ _ _ _ _ _ _ _ Hw n) as [E|E]; rewrite E in He; discriminate. }
  rewrite <- Hc.
  eapply Nat.le_trans; [apply (@shut_window pd0 env shutrep tag_shut_orep tag_shut_kid tag_eval_shut (tr_o o))|].
  - apply tr_valid. exact Hv.
  - split; [reflexivity|exact Hrep].
  - rewrite tr_o_open. exact Ho.
  - assert (E : @root_ctx pd0 (forget (tr_o o)) st = tr_ctx (root_ctx (forget o) st)).
    { unfold root_ctx, tr_ctx. rewrite tr_forget, tr_r_info. simpl. reflexivity. }
    rewrite E, tr_elab, tr_parts. apply Nat.le_refl.
Qed.

End PTag.
