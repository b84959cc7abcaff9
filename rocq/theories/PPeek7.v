(** [eval] unfolds a document with closed nodes to its notation tree with holes. *)
From Verif Require Export PElab SpecOpen PPeek2.

Set Implicit Arguments.

Section PPeek7.
Context {pd : PrettyDoc} {env : Env}.

Fixpoint odoc_ind' (P : odoc -> Prop) (HT : forall i s, P (OText i s))
    (HB : forall i ks, (forall k, In k ks -> P k) -> P (OBranch i ks)) (HC : forall i, P (OClosed i)) (r : odoc) : P r :=
  match r with
  | OText i s => HT i s
  | OClosed i => HC i
  | OBranch i ks =>
      HB i ks ((fix go (ks : list odoc) : forall k, In k ks -> P k :=
        match ks with
        | [] => fun k H => False_ind _ H
        | k0 :: ks' => fun k H =>
            match H with
            | or_introl E => eq_ind k0 P (odoc_ind' P HT HB HC k0) k E
            | or_intror H' => go ks' k H'
            end
        end) ks)
  end.

Lemma o_info_forget o : r_info (forget o) = o_info o.
Proof. destruct o; reflexivity. Qed.

Lemma orep_cond o d : orep o d -> forall c, m_condition d c = MOk (i_cond (o_info o) c).
Proof. destruct 1 as [i s d H|i ks d H|i d nt sty H1 H2 H3]; auto; destruct H; auto. Qed.

Lemma orep_notation o d : orep o d -> exists nt sty, m_notation d = MOk nt /\ m_node_style d = MOk sty /\
  (o_open o = true -> nt = i_note (o_info o) /\ sty = i_style (o_info o) /\ m_id d = MOk (i_id (o_info o))).
Proof.
  destruct 1 as [i s d H|i ks d H|i d nt sty H1 H2 H3].
  - destruct H. simpl. eauto 10.
  - destruct H. simpl. eauto 10.
  - exists nt, sty. repeat split; auto; discriminate.
Qed.

Lemma orep_info o d : orep o d -> o_open o = true -> rep_info (o_info o) d.
Proof. destruct 1; auto; discriminate. Qed.

Definition okids_of (r : odoc) : list kid := map (fun k => Kid (forget k) (oelab k)) (o_kids r).

Lemma oelab_eq r c : o_open r = true -> oelab r c = elab_note (forget r) (okids_of r) (i_note (o_info r)) None c.
Proof. destruct r; simpl; try discriminate; reflexivity. Qed.

(** The tree of a node, wherever it is displayed (the join position of an
    enclosing fold, if any, is irrelevant). *)
Definition punfolds (r : odoc) (x : D) : Prop :=
  forall flat ind sty j,
    pden (Ok (i_id (o_info r))) (oelab r (Ctx flat ind sty)) (eval (Delayed (i_note (o_info r)) x flat ind sty j)).

Section Node.
Variable r : odoc.
Hypothesis Hopen : o_open r = true.
Variable d : D.
Hypothesis Hrep : orep r d.
Hypothesis Hkids : forall i x k, child_handle d i x -> nth_error (o_kids r) i = Some k ->
  orep k x /\ punfolds k x.

Notation rid := (Ok (i_id (o_info r))).

Lemma r_id_ok : lift (m_id d) = rid.
Proof. destruct (rep_info_eqs (orep_info Hrep Hopen)) as (H1 & H2 & H3 & H4 & H5). rewrite H1. reflexivity. Qed.

Lemma child_spec i x k flat ind sty j :
  child_handle d i x -> nth_error (o_kids r) i = Some k ->
  pden rid (child i (Kid (forget k) (oelab k)) (Ctx flat ind sty))
    (nt <- lift (m_notation x) ;; s <- lift (m_node_style x) ;;
     Ok (CChild i (Delayed nt x flat ind (style_combine sty s) j))).
Proof.
  intros Hx Hk. destruct (Hkids Hx Hk) as [Hr Hu].
  destruct (orep_notation Hr) as (nt & sn & H1 & H2 & H3).
  rewrite H1, H2. unfold child. cbn [lift bind k_doc k_tree pden]. split; [reflexivity|].
  destruct (o_open k) eqn:Eo.
  - destruct (H3 eq_refl) as (-> & -> & H4). right. cbn [dl_doc]. rewrite H4, o_info_forget. split; [reflexivity|]. apply Hu.
  - left. destruct k; try discriminate. reflexivity.
Qed.

(** [fe] describes the join position [j]. *)
Definition fe_ok (fe : foldenv) (j : option joinpos) : Prop :=
  exists jp k kl, j = Some jp /\ jp_parent jp = d /\ child_handle d (jp_index jp) (jp_child jp) /\
    fe_index fe = jp_index jp /\ nth_error (o_kids r) (jp_index jp) = Some k /\
    fe_right fe = Kid (forget k) (oelab k) /\
    jp_index jp <> 0 /\ nth_error (o_kids r) (pred (jp_index jp)) = Some kl /\ fe_ldoc fe = forget kl /\
    forall flat ind sty, pden rid (fe_left fe (Ctx flat ind sty)) (eval (Delayed Left d flat ind sty j)).

Definition ok_env (injoin : bool) (fe : option foldenv) (j : option joinpos) : Prop :=
  injoin = true -> exists e, fe = Some e /\ fe_ok e j.

Definition ok_note (n : note) : Prop := forall infold injoin fe j flat ind sty,
  wsc infold injoin n -> ok_env injoin fe j ->
  pden rid (elab_note (forget r) (okids_of r) n fe (Ctx flat ind sty)) (eval (Delayed n d flat ind sty j)).

(** [acc] is the fold up to child [i]. *)
Definition good_acc (f jn : note) (i : nat) (acc : ctx -> shape) : Prop :=
  forall jp flat ind sty, jp_parent jp = d -> jp_first jp = f -> jp_join jp = jn -> jp_index jp = i ->
    (i <> 0 -> child_handle d i (jp_child jp)) ->
    pden rid (acc (Ctx flat ind sty))
      (eval (match i with O => Delayed f d flat ind sty None | S _ => Delayed jn d flat ind sty (Some jp) end)).

Lemma handle_prev i y : child_handle d (S i) y -> S i < length (o_kids r) ->
  exists x, m_unwrap_prev_sibling y d i = MOk x /\ child_handle d i x.
Proof.
  intros Hy Hi. destruct Hrep as [|inf ks d' Hinf Hn Hc Hl Hp Hk|]; [simpl in Hi; lia| |discriminate].
  destruct (Hp i y Hi Hy) as (x & Hx). exists x. split; auto. eapply ch_prev; eauto.
Qed.

Lemma rep_child m : m < length (o_kids r) -> exists x, m_unwrap_child d m = MOk x /\ child_handle d m x.
Proof.
  intros H. destruct Hrep as [|inf ks d' Hinf Hn Hc Hl Hp Hk|]; [simpl in H; lia| |discriminate].
  destruct (Hc m H) as (x & Hx). exists x. split; auto. eapply ch_child; eauto.
Qed.

Lemma rep_last m : length (o_kids r) = S m -> exists x, m_unwrap_last_child d = MOk x /\ child_handle d m x.
Proof.
  intros H. destruct Hrep as [|inf ks d' Hinf Hn Hc Hl Hp Hk|]; [discriminate| |discriminate]. simpl in H.
  destruct Hl as (x & Hx); [destruct ks; [discriminate|congruence]|].
  exists x. split; auto. apply ch_last; auto. rewrite Hn, H. reflexivity.
Qed.

Lemma text_or_branch :
  (m_num_children d = MOk None /\ forall (s : shape) e, match forget r with RBranch _ _ => s | RText _ _ => SFail e end = SFail e) \/
  (m_num_children d = MOk (Some (length (o_kids r))) /\
   forall (s : shape) e, match forget r with RBranch _ _ => s | RText _ _ => SFail e end = s).
Proof. destruct Hrep; auto; discriminate. Qed.

Lemma kid_get m k : nth_error (o_kids r) m = Some k -> nth_error (okids_of r) m = Some (Kid (forget k) (oelab k)).
Proof. apply (map_nth_error (fun k => Kid (forget k) (oelab k))). Qed.

Lemma fold_good f jn : ok_note f -> ok_note jn -> wsc true true jn ->
  forall ks i prev acc pre, o_kids r = pre ++ prev :: ks -> length pre = i -> good_acc f jn i acc ->
  good_acc f jn (i + length ks)
    (fold_kids (fun e c => elab_note (forget r) (okids_of r) jn (Some e) c) i (Kid (forget prev) (oelab prev))
       (map (fun k => Kid (forget k) (oelab k)) ks) acc).
Proof.
  intros Hf Hj Hw. induction ks as [|k ks IH]; intros i prev acc pre Hks Hi Hg; simpl.
  - rewrite Nat.add_0_r. exact Hg.
  - rewrite <- Nat.add_succ_comm. apply IH with (pre := pre ++ [prev]).
    + rewrite <- app_assoc. exact Hks.
    + rewrite app_length. simpl. lia.
    + intros jp flat ind sty Hp Ef Ej Hidx Hch. cbv beta iota.
      apply (Hj true true); auto. intros _. eexists. split; [reflexivity|].
      exists jp, k, prev. simpl. rewrite Hidx. simpl.
      assert (Hlt : S i < length (o_kids r)).
      { rewrite Hks, app_length. simpl. lia. }
      assert (Hk : nth_error (o_kids r) (S i) = Some k).
      { rewrite Hks, nth_error_app2 by lia. replace (S i - length pre) with 1 by lia. reflexivity. }
      assert (Hk0 : nth_error (o_kids r) i = Some prev).
      { rewrite Hks, nth_error_app2 by lia. rewrite Hi, Nat.sub_diag. reflexivity. }
      repeat (split; [solve [auto]|]). intros fl nd st.
      rewrite eval_eqn. cbn [dl_note dl_doc dl_flat dl_indent dl_style dl_join set_note set_join]. rewrite Hidx.
      destruct i as [|i']; cbn [Nat.eqb].
      * rewrite Ef. exact (Hg (JoinPos d (jp_child jp) 0 f jn) fl nd st eq_refl eq_refl eq_refl eq_refl ltac:(congruence)).
      * rewrite Hp. destruct (handle_prev (Hch ltac:(discriminate)) Hlt) as (x & Hx & Hxc).
        rewrite Hx. cbn [lift bind]. rewrite Ej, Ef.
        apply (Hg (JoinPos d x (S i') f jn) fl nd st); auto.
Qed.

Lemma note_elab n : ok_note n.
Proof.
  pose proof (orep_info Hrep Hopen) as Hinf. pose proof r_id_ok as Hid.
  pose proof (o_info_forget r) as Hfi.
  assert (Hlen : length (okids_of r) = length (o_kids r)) by (unfold kids_of; apply map_length).
  induction n as [| | |s| |n IH|pre l n IH|a IHa b IHb|a IHa b IHb|c ps a IHa b IHb|i|l n IH| |z IHz o IHo m IHm|f IHf jn IHj| |];
    intros infold injoin fe j flat ind sty Hw He; rewrite eval_eqn;
    cbn [dl_note dl_doc dl_flat dl_indent dl_style dl_join set_note set_join set_flat set_indent set_style];
    cbn [elab_note x_flat x_ind x_sty]; cbv zeta; try exact I; try reflexivity; rewrite ?Hfi.
  - (* Text *) destruct Hrep as [inf s dd _ Hn Ht|inf ks dd _ Hn _ _ _ _|]; [| |discriminate]; rewrite Hn; simpl; auto.
    rewrite Ht. reflexivity.
  - (* Flat *) eapply IH; eauto.
  - (* Indent *) destruct l as [l|]; cbn [option_map].
    + destruct (rep_info_eqs Hinf) as (H1 & H2 & H3 & H4 & H5). rewrite H4. cbn [lift bind]. eapply IH; eauto.
    + cbn [bind]. eapply IH; eauto.
  - (* Concat *) destruct Hw as [Hwa Hwb]. simpl. repeat split; auto; [eapply IHa|eapply IHb]; eauto.
  - (* Choice *) destruct Hw as [Hwa Hwb]. destruct flat.
    + eapply IHa; eauto.
    + simpl. repeat split; auto; [eapply IHa|eapply IHb]; eauto.
  - (* Check *)
    destruct Hw as (Hps & Hwa & Hwb).
    assert (Hgo : forall x y, orep y x ->
      pden rid (if i_cond (o_info y) c then elab_note (forget r) (okids_of r) a fe (Ctx flat ind sty) else elab_note (forget r) (okids_of r) b fe (Ctx flat ind sty))
        (r0 <- lift (m_condition x c) ;;
         if r0 : bool then eval (Delayed a d flat ind sty j) else eval (Delayed b d flat ind sty j))).
    { intros x y Hy. rewrite (orep_cond Hy). cbn [lift bind].
      destruct (i_cond _ c); [eapply IHa|eapply IHb]; eauto. }
    destruct ps as [|k| |]; cbn [doc_to_inspect dl_doc dl_join bind].
    + apply Hgo. auto.
    + destruct text_or_branch as [[Hn Hb]|[Hn Hb]]; rewrite Hn, Hb; [exact I|]. cbn [lift bind].
      rewrite Hlen, <- kid_number_eq.
      destruct (normalize_child_index k (length (o_kids r))) as [m|] eqn:En; [|exact I].
      apply normalize_lt in En. destruct (rep_child En) as (x & Hx & Hxc).
      destruct (nth_error (o_kids r) m) as [y|] eqn:Ey; [|apply nth_error_None in Ey; lia].
      rewrite (kid_get _ Ey), Hx. cbn [k_doc lift bind]. rewrite o_info_forget. apply Hgo. eapply Hkids; eauto.
    + destruct (He Hps) as (e & -> & jp & k & kl & -> & H1 & H2 & H3 & H4 & H5 & H6 & H7 & H8 & H9).
      rewrite H8. destruct (jp_index jp) as [|i]; [congruence|]. cbn [pred] in H7.
      assert (S i < length (o_kids r)) by (apply nth_error_Some; congruence).
      rewrite H1. destruct (handle_prev H2 H) as (x & Hx & Hxc). rewrite Hx, o_info_forget. cbn [lift bind].
      apply Hgo. eapply Hkids; eauto.
    + destruct (He Hps) as (e & -> & jp & k & kl & -> & H1 & H2 & H3 & H4 & H5 & H6 & H7 & H8 & H9).
      cbn [bind]. rewrite H5. cbn [k_doc]. rewrite o_info_forget. apply Hgo. eapply Hkids; eauto.
  - (* Child *)
    destruct text_or_branch as [[Hn Hb]|[Hn Hb]]; rewrite Hn, Hb; [exact I|]. cbn [lift bind].
    rewrite Hlen, <- kid_number_eq.
    destruct (normalize_child_index i (length (o_kids r))) as [m|] eqn:En; [|exact I].
    apply normalize_lt in En. destruct (rep_child En) as (x & Hx & Hxc).
    destruct (nth_error (o_kids r) m) as [y|] eqn:Ey; [|apply nth_error_None in Ey; lia].
    rewrite (kid_get _ Ey), Hx. cbn [lift bind]. apply child_spec; auto.
  - (* Style *) destruct (rep_info_eqs Hinf) as (H1 & H2 & H3 & H4 & H5). rewrite H4. cbn [lift bind]. eapply IH; eauto.
  - (* Count *) destruct Hw as (Hwz & Hwo & Hwm).
    destruct text_or_branch as [[Hn Hb]|[Hn Hb]]; rewrite Hn, Hb; [exact I|]. cbn [lift bind].
    rewrite <- Hlen. destruct (okids_of r) as [|k1 [|k2 ks]] eqn:Ek; cbn [length]; rewrite <- Ek; [eapply IHz|eapply IHo|eapply IHm]; eauto.
  - (* Fold *) destruct Hw as (Hin & Hwf & Hwj).
    destruct text_or_branch as [[Hn Hb]|[Hn Hb]]; rewrite Hn, Hb; [exact I|]. cbn [lift bind].
    pose proof (@fold_good f jn IHf IHj Hwj) as Hgood.
    assert (Hgf : good_acc f jn 0 (fun c => elab_note (forget r) (okids_of r) f None c)).
    { intros jp fl nd st _ _ _ _ _. eapply IHf; eauto. intros H; discriminate. }
    assert (Hk : okids_of r = map (fun k => Kid (forget k) (oelab k)) (o_kids r)) by reflexivity.
    pose proof rep_last as Hlast.
    destruct (o_kids r) as [|k1 ks] eqn:Ek; cbn [length map] in *.
    { rewrite Hk. reflexivity. }
    rewrite Hk at 1. specialize (Hgood ks 0 k1 _ [] eq_refl eq_refl Hgf). cbn [Nat.add] in Hgood.
    destruct ks as [|k2 ks]; cbn [length].
    + cbn [fold_kids map]. eapply IHf; eauto. intros H; discriminate.
    + destruct (Hlast _ eq_refl) as (x & Hx & Hxc). rewrite Hx. cbn [lift bind].
      apply (Hgood (JoinPos d x (S (length ks)) f jn) flat ind sty); auto.
  - (* Left *) destruct (He Hw) as (e & -> & jp & k & kl & -> & H1 & H2 & H3 & H4 & H5 & H6 & H7 & H8 & H9).
    specialize (H9 flat ind sty). rewrite eval_eqn in H9. exact H9.
  - (* Right *) destruct (He Hw) as (e & -> & jp & k & kl & -> & H1 & H2 & H3 & H4 & H5 & H6 & H7 & H8 & H9).
    rewrite H3, H5. apply child_spec; auto.
Qed.

Lemma onode_unfolds : wsc false false (i_note (o_info r)) -> punfolds r d.
Proof.
  intros Hw flat ind sty j. rewrite oelab_eq by auto. eapply note_elab; eauto. intros H; discriminate.
Qed.

End Node.

Lemma ovalid_note r : ovalid r -> o_open r = true -> validate (i_note (o_info r)) = Ok tt.
Proof. destruct 1; auto; discriminate. Qed.

Lemma ovalid_kid r k : ovalid r -> In k (o_kids r) -> ovalid k.
Proof. destruct 1; simpl; try contradiction; auto. Qed.

Theorem orep_unfolds r : ovalid r -> forall d, orep r d -> punfolds r d.
Proof.
  induction r as [i s|i ks IH|i] using odoc_ind'; intros Hv d Hr.
  - apply onode_unfolds; auto.
    + intros n x k _ H. destruct n; discriminate.
    + apply valid_wsc. apply (ovalid_note Hv); auto.
  - apply onode_unfolds; auto.
    + intros n x k Hx Hk. inversion Hr as [|i0 ks0 d0 Hi0 Hn0 Hc0 Hl0 Hp0 Hk0|]; subst.
      assert (Hin : In k ks) by (eapply nth_error_In; eauto).
      split; [eauto|]. apply IH; eauto. apply (ovalid_kid _ Hv). exact Hin.
    + apply valid_wsc. apply (ovalid_note Hv); auto.
  - intros flat ind sty j. exact I.
Qed.

End PPeek7.
