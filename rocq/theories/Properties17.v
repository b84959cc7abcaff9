(** Documents made of parts (C50, C51).

    [with_note r n] is the node [r] with the notation [n]; [prints d w st ls]:
    printing all of [d] at width [w] with root style [st] gives the lines [ls]. *)
From Verif Require Export PNest.

Set Implicit Arguments.

Section Parts.
Context {pd : PrettyDoc} {env : Env} {ideq : IdEq pd}.

(** What is printed is the layout. *)
Lemma prints_layout r d w st ls : rep r d -> valid_doc r ->
  (prints d w st ls <-> exists es, layout w (doc_shape r st) = Some es /\ ls = lines_of es).
Proof.
  intros Hrep Hv. split.
  - intros (fl & downs & Hp & ->). destruct (C01_printed_has_layout Hrep Hv (eq_refl : is_text_target FStart = false) Hp) as (es & Hes & E). eauto.
  - intros (es & Hes & ->). destruct (C01_layout_is_printed Hrep Hv w st Hes) as (fl & downs & Hp & E). exists fl, downs. auto.
Qed.

(** Printing is a function. *)
Theorem C50_prints_one d w st ls ls' : prints d w st ls -> prints d w st ls' -> ls = ls'.
Proof.
  intros (fl & downs & Hp & ->) (fl' & downs' & Hp' & ->). destruct (printed_det Hp Hp') as (_ & -> & ->). reflexivity.
Qed.

(** ** C50: above each other *)

(** C50.  [x ^ y]: the lines of [x], then the lines of [y], each laid out as if it
    were alone; it can be printed exactly when both can be. *)
Theorem C50_above r x y d dx dy w st ls :
  rep (with_note r (n_xor x y)) d -> rep (with_note r x) dx -> rep (with_note r y) dy ->
  valid_doc (with_note r (n_xor x y)) -> valid_doc (with_note r x) -> valid_doc (with_note r y) ->
  (prints d w st ls <-> exists lx ly, prints dx w st lx /\ prints dy w st ly /\ ls = lx ++ ly).
Proof.
  intros R Rx Ry V Vx Vy. rewrite (prints_layout w st ls R V), with_layout.
  cbn [n_xor elab_note]. change (x_ind (root_ctx r st)) with (@nil segment). rewrite rend_above.
  set (sx := elab_note r (kids_of r) x None (root_ctx r st)). set (sy := elab_note r (kids_of r) y None (root_ctx r st)).
  split.
  - intros (es & H & ->). destruct (rend w sx _ look_end pos0) as [[e1 p1]|] eqn:E1; [|discriminate].
    destruct (rend w sy _ look_end pos0) as [[e2 p2]|] eqn:E2; [|discriminate]. simpl in H. injection H as <-.
    exists (lines_of e1), (lines_of e2). split; [|split].
    + apply (prints_layout w st _ Rx Vx). exists e1. rewrite with_layout. fold sx. rewrite E1. auto.
    + apply (prints_layout w st _ Ry Vy). exists e2. rewrite with_layout. fold sy. rewrite E2. auto.
    + apply lines_above.
  - intros (lx & ly & Hx & Hy & ->).
    apply (prints_layout w st _ Rx Vx) in Hx as (e1 & H1 & ->). apply (prints_layout w st _ Ry Vy) in Hy as (e2 & H2 & ->).
    rewrite with_layout in H1, H2. fold sx in H1. fold sy in H2.
    destruct (rend w sx _ look_end pos0) as [[e1' p1]|] eqn:E1; [|discriminate]. injection H1 as ->.
    destruct (rend w sy _ look_end pos0) as [[e2' p2]|] eqn:E2; [|discriminate]. injection H2 as ->.
    exists (e1 ++ ENewline [] :: e2). split; [reflexivity|]. rewrite lines_above. reflexivity.
Qed.

(** C50.  A child is displayed as if it were printed alone, with the style of its
    parent as the root style. *)
Theorem C50_child_alone r ks i m k d dk w st ls :
  r_kids r = ks -> kid_number i (length ks) = Some m -> nth_error ks m = Some k ->
  rep (with_note r (Child i)) d -> rep k dk -> valid_doc (with_note r (Child i)) -> valid_doc k ->
  (prints d w st ls <-> prints dk w (Some (root_style r st)) ls).
Proof.
  intros Hks Hm Hk R Rk V Vk.
  rewrite (prints_layout w st ls R V), (prints_layout w _ ls Rk Vk), with_layout.
  destruct r as [i0 s|i0 ks0]; simpl in Hks; subst ks; [destruct m; discriminate|].
  cbn [elab_note]. unfold kids_of. rewrite map_length. simpl r_kids. rewrite Hm, nth_error_map, Hk. cbn [option_map].
  unfold child. cbn [k_doc k_tree].
  change (in_style (i_style (r_info k)) (root_ctx (RBranch i0 ks0) st)) with (root_ctx k (Some (root_style (RBranch i0 ks0) st))).
  unfold layout, doc_shape. cbn [rend].
  destruct (rend w (elab k _) _ look_end pos0) as [[es p]|]; simpl.
  - split; intros (es' & [= <-] & ->); eexists; (split; [reflexivity|]); unfold lines_of; simpl; rewrite lines_exit; reflexivity.
  - split; intros (es' & E & _); discriminate.
Qed.

(** The left fold that puts the children above each other. *)
Definition column : note := Fold (Child 0) (n_xor Left Right).

Section Column.
Variables (w : N) (i0 : info) (ks0 : list rdoc) (st : option Sty).
Let j := i_id i0.
Let c := root_ctx (RBranch i0 ks0) st.
Let sty := root_style (RBranch i0 ks0) st.

Lemma child_layout n k :
  rend w (child n (Kid k (elab k)) c) j look_end pos0 =
  obind (rend w (elab k (root_ctx k (Some sty))) (i_id (r_info k)) look_end pos0) (fun '(es, p') => Some (EEnter j n :: es ++ [EExit j n], p')).
Proof. reflexivity. Qed.

Lemma child_lines n k e p : rend w (child n (Kid k (elab k)) c) j look_end pos0 = Some (e, p) ->
  exists es, layout w (doc_shape k (Some sty)) = Some es /\ lines_of e = lines_of es.
Proof.
  rewrite child_layout. unfold layout, doc_shape. destruct (rend w (elab k _) _ _ _) as [[es p']|]; [|discriminate].
  intros [= <- <-]. exists es. split; auto. unfold lines_of. simpl. apply lines_exit.
Qed.

Lemma lines_child n k es : layout w (doc_shape k (Some sty)) = Some es ->
  exists e p, rend w (child n (Kid k (elab k)) c) j look_end pos0 = Some (e, p) /\ lines_of e = lines_of es.
Proof.
  rewrite child_layout. unfold layout, doc_shape. destruct (rend w (elab k _) _ _ _) as [[es' p']|]; [|discriminate].
  intros [= <-]. simpl. eexists _, _. split; [reflexivity|]. unfold lines_of. simpl. apply lines_exit.
Qed.

Variable kids : list kid.
Notation join := (fun e c => elab_note (RBranch i0 ks0) kids (n_xor Left Right) (Some e) c).

Lemma column_lines ks : forall i prev acc outs ls,
  Forall2 (fun k o => exists es, layout w (doc_shape k (Some sty)) = Some es /\ o = lines_of es) ks outs ->
  (exists e p, rend w (acc c) j look_end pos0 = Some (e, p) /\ ls = lines_of e) ->
  exists e p, rend w (fold_kids join i prev (map (fun k => Kid k (elab k)) ks) acc c) j look_end pos0 = Some (e, p) /\
    lines_of e = ls ++ concat outs.
Proof.
  induction ks as [|k ks IH]; intros i prev acc outs ls F (e & p & He & ->); inversion F as [|? o ? outs' (es & Hes & ->) F']; subst.
  - exists e, p. simpl. rewrite app_nil_r. auto.
  - simpl map. cbn [fold_kids].
    edestruct (IH (S i) (Kid k (elab k)) (fun c => elab_note (RBranch i0 ks0) kids (n_xor Left Right) (Some (FoldEnv acc (k_doc prev) (S i) (Kid k (elab k)))) c)
      outs' (lines_of e ++ lines_of es) F') as (e' & p' & H1 & H2).
    + cbn [n_xor elab_note fe_left fe_index fe_right]. change (x_ind c) with (@nil segment). rewrite rend_above, He. cbn [obind].
      destruct (@lines_child (S i) k es Hes) as (e2 & p2 & E2 & L2). rewrite E2. cbn [obind].
      eexists _, _. split; [reflexivity|]. rewrite lines_above, L2. reflexivity.
    + exists e', p'. split; [exact H1|]. rewrite H2. simpl. rewrite app_assoc. reflexivity.
Qed.

Lemma lines_column ks : forall i prev acc e p,
  rend w (fold_kids join i prev (map (fun k => Kid k (elab k)) ks) acc c) j look_end pos0 = Some (e, p) ->
  exists e0 p0 outs, rend w (acc c) j look_end pos0 = Some (e0, p0) /\
    Forall2 (fun k o => exists es, layout w (doc_shape k (Some sty)) = Some es /\ o = lines_of es) ks outs /\
    lines_of e = lines_of e0 ++ concat outs.
Proof.
  induction ks as [|k ks IH]; intros i prev acc e p H.
  - exists e, p, []. simpl. rewrite app_nil_r. auto.
  - simpl map in H. cbn [fold_kids] in H. apply IH in H as (e1 & p1 & outs & H1 & F & L).
    cbn [n_xor elab_note fe_left fe_index fe_right] in H1. change (x_ind c) with (@nil segment) in H1. rewrite rend_above in H1.
    apply obind_some in H1 as [[e0 p0] [H0 H1]]. apply obind_some in H1 as [[e2 p2] [H2 [= <- <-]]].
    destruct (@child_lines _ _ _ _ H2) as (es & Hes & L2).
    exists e0, p0, (lines_of es :: outs). split; auto. split; [constructor; eauto|].
    rewrite L, lines_above, L2. simpl. rewrite app_assoc. reflexivity.
Qed.
End Column.

(** C50.  A column of children: the lines of each child in order, each child laid
    out as if it were printed alone. *)
Theorem C50_column i ks d dks w st ls :
  ks <> [] -> rep (RBranch i ks) d -> valid_doc (RBranch i ks) -> i_note i = column ->
  Forall2 rep ks dks ->
  (prints d w st ls <->
   exists outs, Forall2 (fun dk o => prints dk w (Some (root_style (RBranch i ks) st)) o) dks outs /\ ls = concat outs).
Proof.
  intros Hne R V Hn Hd. rewrite (prints_layout w st ls R V).
  assert (Vk : forall k, In k ks -> valid_doc k) by (inversion V; auto).
  assert (E : layout w (doc_shape (RBranch i ks) st) = option_map fst (rend w (elab_note (RBranch i ks) (kids_of (RBranch i ks)) column None (root_ctx (RBranch i ks) st)) (i_id i) look_end pos0)).
  { unfold layout, doc_shape. rewrite elab_eq. simpl r_info. rewrite Hn. reflexivity. }
  rewrite E. clear E.
  set (sty := root_style (RBranch i ks) st).
  assert (Ex : forall outs, Forall2 (fun dk o => prints dk w (Some sty) o) dks outs <->
    Forall2 (fun k o => exists es, layout w (doc_shape k (Some sty)) = Some es /\ o = lines_of es) ks outs).
  { clear -Hd Vk ideq. induction Hd as [|k dk ks dks Hk Hd IH]; intros outs.
    - split; intros H; inversion H; constructor.
    - split; intros H; inversion H as [|? o ? outs' H1 H2]; subst; constructor.
      + apply (prints_layout w _ o Hk); auto with datatypes.
      + apply IH; auto with datatypes.
      + apply (prints_layout w _ o Hk); auto with datatypes.
      + apply IH; auto with datatypes. }
  destruct ks as [|k ks]; [congruence|]. unfold column. unfold kids_of. simpl r_kids. cbn [elab_note map].
  assert (Hz : kid_number 0 (length (Kid k (elab k) :: map (fun k => Kid k (elab k)) ks)) = Some 0).
  { unfold kid_number. simpl. destruct (Z.ltb_spec 0 (Z.of_nat (S (length (map (fun k => Kid k (elab k)) ks))))); [reflexivity|lia]. }
  split.
  - intros (es & H & ->). destruct (rend _ _ _ _ _) as [[e p]|] eqn:Er; [|discriminate]. injection H as <-.
    destruct (@lines_column w i (k :: ks) st _ ks _ _ _ _ _ Er) as (e0 & p0 & outs & H0 & F & L).
    rewrite Hz in H0. cbn [nth_error] in H0. apply child_lines in H0 as (es & Hes & L0).
    exists (lines_of es :: outs). split; [apply Ex; constructor; eauto|]. rewrite L, L0. reflexivity.
  - intros (outs & F & ->). apply Ex in F. inversion F as [|? o ? outs' (es & Hes & ->) F']; subst.
    edestruct (@column_lines w i (k :: ks) st (Kid k (elab k) :: map (fun k => Kid k (elab k)) ks) ks 0 (Kid k (elab k))
      (fun c => elab_note (RBranch i (k :: ks)) (Kid k (elab k) :: map (fun k => Kid k (elab k)) ks) (Child 0) None c) outs' (lines_of es) F') as (e & p & H1 & H2).
    + cbn [elab_note]. rewrite Hz. cbn [nth_error]. destruct (@lines_child w i (k :: ks) st 0 k es Hes) as (e & p & H1 & H2). eauto.
    + cbn [elab_note] in H1. eexists. split; [erewrite H1; reflexivity|]. simpl. rewrite H2. reflexivity.
Qed.

(** ** C51: indented blocks *)
Section Block.
Variables (r : rdoc) (a x : note) (prefix : str) (label : option Lbl) (d da dx : D) (w : N) (st : option Sty).
(** [a], then [x] on new lines indented by [prefix]; [4 >> x] is a prefix of 4
    spaces without a label. *)
Let block : note := n_add a (Indent prefix label (n_add Newline x)).
Hypothesis R : rep (with_note r block) d.
Hypothesis Ra : rep (with_note r a) da.
Hypothesis Rx : rep (with_note r x) dx.
Hypothesis V : valid_doc (with_note r block).
Hypothesis Va : valid_doc (with_note r a).
Hypothesis Vx : valid_doc (with_note r x).
Hypothesis Hw : (str_width prefix <= w)%N.
Let sg := prefix_seg r st prefix label.

Let sa := elab_note r (kids_of r) a None (root_ctx r st).
Let sx := elab_note r (kids_of r) x None (root_ctx r st).

Lemma block_shape : elab_note r (kids_of r) block None (root_ctx r st) = SConcat sa (SConcat (SNewline [sg]) (shift sg sx)).
Proof.
  unfold block. cbn [n_add elab_note]. fold sa. f_equal.
  replace (in_indent prefix (option_map (i_lookup (r_info r)) label) (root_ctx r st)) with (Ctx false [sg] (x_sty (root_ctx r st)))
    by (unfold sg, prefix_seg, in_indent; destruct label; reflexivity).
  f_equal. unfold sx. apply shift_note. repeat split.
Qed.

Lemma rend_block j : rend w (SConcat sa (SConcat (SNewline [sg]) (shift sg sx))) j look_end pos0 =
  obind (rend w sa j look_end pos0) (fun '(e1, _) =>
  obind (indent_pos [sg]) (fun q => obind (rend w (shift sg sx) j look_end q) (fun '(e2, p2) => Some (e1 ++ ENewline [sg] :: e2, p2)))).
Proof.
  cbn [rend].
  assert (E : head_fails (shift sg sx) = true -> rend w (shift sg sx) j look_end (match indent_pos [sg] with Some q => q | None => pos0 end) = None).
  { destruct (shift sg sx); try discriminate. reflexivity. }
  destruct (head_fails (shift sg sx)) eqn:Hf.
  - specialize (E eq_refl).
    destruct (rend w sa j (fits_s (SConcat (SNewline [sg]) (shift sg sx)) look_end) pos0) as [[e1 p1]|], (rend w sa j look_end pos0) as [[e1' p1']|]; auto;
    cbn [obind]; destruct (indent_pos [sg]) as [q|]; auto; cbn [obind]; rewrite E; reflexivity.
  - rewrite (rend_ext w sa j (fits_s (SConcat (SNewline [sg]) (shift sg sx)) look_end) look_end pos0) by (intros; cbn [fits_s]; rewrite Hf; reflexivity).
    destruct (rend w sa j look_end pos0) as [[e1 p1]|]; [|reflexivity]. cbn [obind].
    destruct (indent_pos [sg]) as [q|]; [|reflexivity]. cbn [obind].
    destruct (rend w (shift sg sx) j look_end q) as [[e2 p2]|]; reflexivity.
Qed.

(** C51.  If the parts can be printed, [a] at the same width and [x] in what the
    prefix leaves of it, then so can the block (as long as no line is wider than
    a u16 can hold). *)
Theorem C51_block_of_parts la lx :
  prints da w st la -> prints dx (w - str_width prefix) st lx ->
  narrow_lines (map (cons sg) lx) ->
  prints d w st (la ++ map (cons sg) lx).
Proof.
  intros Ha Hx Hn. apply (prints_layout w st _ Ra Va) in Ha as (e1 & H1 & ->).
  apply (prints_layout _ st _ Rx Vx) in Hx as (e2 & H2 & ->).
  rewrite with_layout in H1, H2. fold sa in H1. fold sx in H2.
  destruct (rend w sa _ look_end pos0) as [[e1' p1]|] eqn:E1; [|discriminate]. injection H1 as ->.
  destruct (rend _ sx _ look_end pos0) as [[e2' p2]|] eqn:E2; [|discriminate]. injection H2 as ->.
  assert (Hn2 : Forall narrow (lines_from [sg] (map (shift_ev sg) e2))) by (rewrite lines_shift; exact Hn).
  destruct (@shift_rend _ _ sg w sx Hw (i_id (r_info r)) look_end pos0 e2 p2 [sg] E2 Hn2) as [E3 _].
  { unfold sumw. simpl. lia. }
  assert (Hi : indent_pos [sg] = Some (over sg pos0)).
  { assert (Hs : narrow (rev ([] ++ [sg]))).
    { destruct (lines_first_ge (map (shift_ev sg) e2) [sg]) as (l' & ls' & F1 & F2). rewrite F1 in Hn2. inversion Hn2 as [|? ? N1 _]; subst.
      unfold narrow in *. simpl. lia. }
    apply narrow_indent in Hs as [Hs _]. exact Hs. }
  apply (prints_layout w st _ R V). exists (e1 ++ ENewline [sg] :: map (shift_ev sg) e2). split.
  - rewrite with_layout, block_shape, rend_block, E1. cbn [obind]. rewrite Hi. cbn [obind]. rewrite E3. reflexivity.
  - unfold lines_of. rewrite lines_newline. simpl rev. rewrite lines_shift. reflexivity.
Qed.

(** C51.  If the block can be printed then so can its parts, and this is how it
    looks. *)
Theorem C51_parts_of_block ls :
  prints d w st ls -> narrow_lines ls ->
  exists la lx, prints da w st la /\ prints dx (w - str_width prefix) st lx /\ ls = la ++ map (cons sg) lx.
Proof.
  intros H Hn. apply (prints_layout w st _ R V) in H as (es & H & ->).
  rewrite with_layout, block_shape, rend_block in H.
  destruct (rend w sa _ look_end pos0) as [[e1 p1]|] eqn:E1; [|discriminate]. cbn [obind] in H.
  destruct (indent_pos [sg]) as [q|] eqn:Hi; [|discriminate]. cbn [obind] in H.
  destruct (rend w (shift sg sx) _ look_end q) as [[e2 p2]|] eqn:E2; [|discriminate]. injection H as <-.
  assert (Hl : lines_of (e1 ++ ENewline [sg] :: e2) = lines_of e1 ++ lines_from [sg] e2) by (unfold lines_of; rewrite lines_newline; reflexivity).
  rewrite Hl in *. apply Forall_app in Hn as [N1 N2].
  assert (Hs : narrow (rev ([] ++ [sg]))).
  { destruct (lines_first_ge e2 [sg]) as (l' & ls' & F1 & F2). rewrite F1 in N2. inversion N2 as [|? ? M1 _]; subst.
    unfold narrow, exact_width in *. unfold sumw in *. simpl in *. lia. }
  apply narrow_indent in Hs as [Hs _]. simpl app in Hs. rewrite Hs in Hi. injection Hi as <-.
  change (rev []) with (@nil segment) in E2.
  destruct (@unshift_rend _ _ sg w sx Hw (i_id (r_info r)) look_end pos0 e2 p2 [sg] E2 N2) as (e3 & p3 & -> & -> & E3 & _).
  { unfold sumw. simpl. lia. }
  exists (lines_of e1), (lines_of e3). split; [|split].
  - apply (prints_layout w st _ Ra Va). exists e1. rewrite with_layout. fold sa. rewrite E1. auto.
  - apply (prints_layout _ st _ Rx Vx). exists e3. rewrite with_layout. fold sx.
    change (str_width prefix) with (seg_width sg). rewrite E3. auto.
  - rewrite lines_shift. reflexivity.
Qed.
End Block.

(** C51, for the operator: [k >> x] goes to a new line and indents by [k] spaces
    what follows. *)
Corollary C51_shift_operator r a x k d da dx w st la lx :
  rep (with_note r (n_add a (n_shr k x))) d -> rep (with_note r a) da -> rep (with_note r x) dx ->
  valid_doc (with_note r (n_add a (n_shr k x))) -> valid_doc (with_note r a) -> valid_doc (with_note r x) ->
  let spaces := repeat 32%N k in
  let indented := map (cons (Segment spaces (str_width spaces) (root_style r st))) lx in
  (str_width spaces <= w)%N ->
  prints da w st la -> prints dx (w - str_width spaces) st lx -> narrow_lines indented ->
  prints d w st (la ++ indented).
Proof. intros R Ra Rx V Va Vx spaces indented Hw. apply (@C51_block_of_parts r a x spaces None d da dx w st R Ra Rx V Va Vx Hw). Qed.

End Parts.
