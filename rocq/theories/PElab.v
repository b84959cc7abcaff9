(** [eval] unfolds a well-behaved, validated document to its notation tree. *)
From Verif Require Export PEval SpecElab.

Set Implicit Arguments.

(** Left, Right, LeftChild and RightChild only inside Fold.join; no nested Fold. *)
Fixpoint wsc {L C} (infold injoin : bool) (n : notation L C) : Prop :=
  match n with
  | Left | Right => injoin = true
  | Check _ pos a b =>
      match pos with LeftChild | RightChild => injoin = true | _ => True end /\
      wsc infold injoin a /\ wsc infold injoin b
  | Fold f j => infold = false /\ wsc true false f /\ wsc true true j
  | Flat x | Indent _ _ x | Style _ x => wsc infold injoin x
  | Concat a b | Choice a b => wsc infold injoin a /\ wsc infold injoin b
  | Count a b c => wsc infold injoin a /\ wsc infold injoin b /\ wsc infold injoin c
  | _ => True
  end.

Lemma bind_ok {X A B} (r : res X A) (k : A -> res X B) b : bind r k = Ok b -> exists a, r = Ok a /\ k a = Ok b.
Proof. destruct r; simpl; [eauto|discriminate]. Qed.

Lemma validate_wsc {L C} (n : notation L C) : forall h c h', validate_rec n h c = Ok h' ->
  wsc (is_some (ctx_fold c)) (in_join c) n.
Proof.
  induction n as [| | |s| |n IH|pre l n IH|a IHa b IHb|a IHa b IHb|cd ps a IHa b IHb|i|l n IH| |z IHz o IHo m IHm|f IHf jn IHj| |];
    intros h c h' H; simpl in *; eauto.
  - apply bind_ok in H as (h1 & H1 & H2). eauto.
  - apply bind_ok in H as (h1 & H1 & H). apply bind_ok in H as (h2 & H2 & _). eauto.
  - apply bind_ok in H as (u & Hu & H). apply bind_ok in H as (h1 & H1 & H). apply bind_ok in H as (h2 & H2 & _).
    split; [|eauto]. destruct ps; simpl in Hu; auto; destruct (in_join c); auto; discriminate.
  - destruct (is_some (ctx_count c)); [discriminate|].
    apply bind_ok in H as (h1 & H1 & H). apply bind_ok in H as (h2 & H2 & H). apply bind_ok in H as (h3 & H3 & _).
    repeat split; [eapply IHz in H1|eapply IHo in H2|eapply IHm in H3]; eauto.
  - destruct (is_some (ctx_fold c)) eqn:E; [discriminate|].
    apply bind_ok in H as (h1 & H1 & H). apply bind_ok in H as (h2 & H2 & _).
    repeat split; [eapply IHf in H1|eapply IHj in H2]; eauto.
  - destruct (in_join c); auto; discriminate.
  - destruct (in_join c); auto; discriminate.
Qed.

Lemma valid_wsc {L C} (n : notation L C) : validate n = Ok tt -> wsc false false n.
Proof.
  intros H. unfold validate in H. apply bind_ok in H as (h & H & _). apply validate_wsc in H. exact H.
Qed.

Section PElab.
Context {pd : PrettyDoc} {env : Env}.

Fixpoint rdoc_ind' (P : rdoc -> Prop) (HT : forall i s, P (RText i s))
    (HB : forall i ks, (forall k, In k ks -> P k) -> P (RBranch i ks)) (r : rdoc) : P r :=
  match r with
  | RText i s => HT i s
  | RBranch i ks =>
      HB i ks ((fix go (ks : list rdoc) : forall k, In k ks -> P k :=
        match ks with
        | [] => fun k H => False_ind _ H
        | k0 :: ks' => fun k H =>
            match H with
            | or_introl E => eq_ind k0 P (rdoc_ind' P HT HB k0) k E
            | or_intror H' => go ks' k H'
            end
        end) ks)
  end.

Lemma rep_info_of r d : rep r d -> rep_info (r_info r) d.
Proof. destruct 1; auto. Qed.

Lemma rep_info_eqs i d : rep_info i d ->
  m_id d = MOk (i_id i) /\ m_notation d = MOk (i_note i) /\ m_node_style d = MOk (i_style i) /\
  (forall l, m_lookup_style d l = MOk (i_lookup i l)) /\ (forall c, m_condition d c = MOk (i_cond i c)).
Proof. destruct 1; auto. Qed.

Lemma rep_num r d : rep r d ->
  m_num_children d = MOk (match r with RText _ _ => None | RBranch _ ks => Some (length ks) end).
Proof. destruct 1; auto. Qed.

Lemma kid_number_eq i n : normalize_child_index i n = kid_number i n.
Proof.
  unfold normalize_child_index, kid_number. destruct (Z.ltb_spec i 0), (Z.leb_spec 0 i); try lia.
  - destruct (Z.leb_spec (- Z.of_nat n) i).
    + replace (i + Z.of_nat n <? 0)%Z with false by (symmetry; apply Z.ltb_ge; lia).
      replace (Z.of_nat n <=? i + Z.of_nat n)%Z with false by (symmetry; apply Z.leb_gt; lia).
      cbn. f_equal. lia.
    + replace (i + Z.of_nat n <? 0)%Z with true by (symmetry; apply Z.ltb_lt; lia). reflexivity.
  - replace (i <? 0)%Z with false by (symmetry; apply Z.ltb_ge; lia).
    destruct (Z.leb_spec (Z.of_nat n) i), (Z.ltb_spec i (Z.of_nat n)); try lia; reflexivity.
Qed.

Lemma normalize_lt k n m : normalize_child_index k n = Some m -> m < n.
Proof.
  unfold normalize_child_index. destruct (_ || _)%bool eqn:E; [discriminate|].
  intros [= <-]. apply orb_false_iff in E as [E1 E2]. apply Z.ltb_ge in E1. apply Z.leb_gt in E2. lia.
Qed.

Definition kids_of (r : rdoc) : list kid := map (fun k => Kid k (elab k)) (r_kids r).

Lemma elab_eq r c : elab r c = elab_note r (kids_of r) (i_note (r_info r)) None c.
Proof. destruct r; reflexivity. Qed.

(** The tree of a node, wherever it is displayed (the join position of an
    enclosing fold, if any, is irrelevant). *)
Definition unfolds (r : rdoc) (x : D) : Prop :=
  forall flat ind sty j,
    den (Ok (i_id (r_info r))) (elab r (Ctx flat ind sty)) (eval (Delayed (i_note (r_info r)) x flat ind sty j)).

Section Node.
Variable r : rdoc.
Variable d : D.
Hypothesis Hrep : rep r d.
Hypothesis Hkids : forall i x k, child_handle d i x -> nth_error (r_kids r) i = Some k ->
  rep k x /\ unfolds k x.

Notation rid := (Ok (i_id (r_info r))).

Lemma r_id_ok : lift (m_id d) = rid.
Proof. destruct (rep_info_eqs (rep_info_of Hrep)) as (H1 & H2 & H3 & H4 & H5). rewrite H1. reflexivity. Qed.

Lemma child_spec i x k flat ind sty j :
  child_handle d i x -> nth_error (r_kids r) i = Some k ->
  den rid (child i (Kid k (elab k)) (Ctx flat ind sty))
    (nt <- lift (m_notation x) ;; s <- lift (m_node_style x) ;;
     Ok (CChild i (Delayed nt x flat ind (style_combine sty s) j))).
Proof.
  intros Hx Hk. destruct (Hkids Hx Hk) as [Hr Hu].
  destruct (rep_info_eqs (rep_info_of Hr)) as (H1 & H2 & H3 & H4 & H5).
  rewrite H2, H3. simpl. rewrite H1. repeat split. apply Hu.
Qed.

(** [fe] describes the join position [j]. *)
Definition fe_ok (fe : foldenv) (j : option joinpos) : Prop :=
  exists jp k kl, j = Some jp /\ jp_parent jp = d /\ child_handle d (jp_index jp) (jp_child jp) /\
    fe_index fe = jp_index jp /\ nth_error (r_kids r) (jp_index jp) = Some k /\
    fe_right fe = Kid k (elab k) /\
    jp_index jp <> 0 /\ nth_error (r_kids r) (pred (jp_index jp)) = Some kl /\ fe_ldoc fe = kl /\
    forall flat ind sty, den rid (fe_left fe (Ctx flat ind sty)) (eval (Delayed Left d flat ind sty j)).

Definition ok_env (injoin : bool) (fe : option foldenv) (j : option joinpos) : Prop :=
  injoin = true -> exists e, fe = Some e /\ fe_ok e j.

Definition ok_note (n : note) : Prop := forall infold injoin fe j flat ind sty,
  wsc infold injoin n -> ok_env injoin fe j ->
  den rid (elab_note r (kids_of r) n fe (Ctx flat ind sty)) (eval (Delayed n d flat ind sty j)).

(** [acc] is the fold up to child [i]. *)
Definition good_acc (f jn : note) (i : nat) (acc : ctx -> shape) : Prop :=
  forall jp flat ind sty, jp_parent jp = d -> jp_first jp = f -> jp_join jp = jn -> jp_index jp = i ->
    (i <> 0 -> child_handle d i (jp_child jp)) ->
    den rid (acc (Ctx flat ind sty))
      (eval (match i with O => Delayed f d flat ind sty None | S _ => Delayed jn d flat ind sty (Some jp) end)).

Lemma handle_prev i y : child_handle d (S i) y -> S i < length (r_kids r) ->
  exists x, m_unwrap_prev_sibling y d i = MOk x /\ child_handle d i x.
Proof.
  intros Hy Hi. destruct Hrep as [|inf ks d' Hinf Hn Hc Hl Hp Hk]; [simpl in Hi; lia|].
  destruct (Hp i y Hi Hy) as (x & Hx). exists x. split; auto. eapply ch_prev; eauto.
Qed.

Lemma rep_child m : m < length (r_kids r) -> exists x, m_unwrap_child d m = MOk x /\ child_handle d m x.
Proof.
  intros H. destruct Hrep as [|inf ks d' Hinf Hn Hc Hl Hp Hk]; [simpl in H; lia|].
  destruct (Hc m H) as (x & Hx). exists x. split; auto. eapply ch_child; eauto.
Qed.

Lemma rep_last m : length (r_kids r) = S m -> exists x, m_unwrap_last_child d = MOk x /\ child_handle d m x.
Proof.
  intros H. destruct Hrep as [|inf ks d' Hinf Hn Hc Hl Hp Hk]; [discriminate|]. simpl in H.
  destruct Hl as (x & Hx); [destruct ks; [discriminate|congruence]|].
  exists x. split; auto. apply ch_last; auto. rewrite Hn, H. reflexivity.
Qed.

Lemma text_or_branch :
  (m_num_children d = MOk None /\ forall (s : shape) e, match r with RBranch _ _ => s | RText _ _ => SFail e end = SFail e) \/
  (m_num_children d = MOk (Some (length (r_kids r))) /\
   forall (s : shape) e, match r with RBranch _ _ => s | RText _ _ => SFail e end = s).
Proof. destruct Hrep; auto. Qed.

Lemma kid_get m k : nth_error (r_kids r) m = Some k -> nth_error (kids_of r) m = Some (Kid k (elab k)).
Proof. apply (map_nth_error (fun k => Kid k (elab k))). Qed.

Lemma fold_good f jn : ok_note f -> ok_note jn -> wsc true true jn ->
  forall ks i prev acc pre, r_kids r = pre ++ prev :: ks -> length pre = i -> good_acc f jn i acc ->
  good_acc f jn (i + length ks)
    (fold_kids (fun e c => elab_note r (kids_of r) jn (Some e) c) i (Kid prev (elab prev))
       (map (fun k => Kid k (elab k)) ks) acc).
Proof.
  intros Hf Hj Hw. induction ks as [|k ks IH]; intros i prev acc pre Hks Hi Hg; simpl.
  - rewrite Nat.add_0_r. exact Hg.
  - rewrite <- Nat.add_succ_comm. apply IH with (pre := pre ++ [prev]).
    + rewrite <- app_assoc. exact Hks.
    + rewrite app_length. simpl. lia.
    + intros jp flat ind sty Hp Ef Ej Hidx Hch. cbv beta iota.
      apply (Hj true true); auto. intros _. eexists. split; [reflexivity|].
      exists jp, k, prev. simpl. rewrite Hidx. simpl.
      assert (Hlt : S i < length (r_kids r)).
      { rewrite Hks, app_length. simpl. lia. }
      assert (Hk : nth_error (r_kids r) (S i) = Some k).
      { rewrite Hks, nth_error_app2 by lia. replace (S i - length pre) with 1 by lia. reflexivity. }
      assert (Hk0 : nth_error (r_kids r) i = Some prev).
      { rewrite Hks, nth_error_app2 by lia. rewrite Hi, Nat.sub_diag. reflexivity. }
      repeat (split; [solve [auto]|]). intros fl nd st.
      rewrite eval_eqn. cbn [dl_note dl_doc dl_flat dl_indent dl_style dl_join set_note set_join]. rewrite Hidx.
      destruct i as [|i']; cbn [Nat.eqb].
      * rewrite Ef. exact (Hg (JoinPos d (jp_child jp) 0 f jn) fl nd st eq_refl eq_refl eq_refl eq_refl ltac:(congruence)).
      * rewrite Hp. destruct (handle_prev (Hch ltac:(discriminate)) Hlt) as (x & Hx & Hxc).
        rewrite Hx. cbn [lift bind]. rewrite Ej, Ef.
        apply (Hg (JoinPos d x (S i') f jn) fl nd st); auto.
Qed.

Lemma note_elab n : ok_note n.
Proof.
  pose proof (rep_info_of Hrep) as Hinf. pose proof (rep_num Hrep) as Hnum. pose proof r_id_ok as Hid.
  assert (Hlen : length (kids_of r) = length (r_kids r)) by (unfold kids_of; apply map_length).
  induction n as [| | |s| |n IH|pre l n IH|a IHa b IHb|a IHa b IHb|c ps a IHa b IHb|i|l n IH| |z IHz o IHo m IHm|f IHf jn IHj| |];
    intros infold injoin fe j flat ind sty Hw He; rewrite eval_eqn;
    cbn [dl_note dl_doc dl_flat dl_indent dl_style dl_join set_note set_join set_flat set_indent set_style];
    cbn [elab_note x_flat x_ind x_sty]; cbv zeta; try exact I; try reflexivity.
  - (* Text *) destruct Hrep as [inf s dd _ Hn Ht|inf ks dd _ Hn _ _ _ _]; rewrite Hn; simpl; auto.
    rewrite Ht. reflexivity.
  - (* Flat *) eapply IH; eauto.
  - (* Indent *) destruct l as [l|]; cbn [option_map].
    + destruct (rep_info_eqs Hinf) as (H1 & H2 & H3 & H4 & H5). rewrite H4. cbn [lift bind]. eapply IH; eauto.
    + cbn [bind]. eapply IH; eauto.
  - (* Concat *) destruct Hw as [Hwa Hwb]. simpl. repeat split; auto; [eapply IHa|eapply IHb]; eauto.
  - (* Choice *) destruct Hw as [Hwa Hwb]. destruct flat.
    + eapply IHa; eauto.
    + simpl. repeat split; auto; [eapply IHa|eapply IHb]; eauto.
  - (* Check *)
    destruct Hw as (Hps & Hwa & Hwb).
    assert (Hgo : forall x y, rep y x ->
      den rid (if i_cond (r_info y) c then elab_note r (kids_of r) a fe (Ctx flat ind sty) else elab_note r (kids_of r) b fe (Ctx flat ind sty))
        (r0 <- lift (m_condition x c) ;;
         if r0 : bool then eval (Delayed a d flat ind sty j) else eval (Delayed b d flat ind sty j))).
    { intros x y Hy. destruct (rep_info_eqs (rep_info_of Hy)) as (H1 & H2 & H3 & H4 & H5). rewrite H5. cbn [lift bind].
      destruct (i_cond _ c); [eapply IHa|eapply IHb]; eauto. }
    destruct ps as [|k| |]; cbn [doc_to_inspect dl_doc dl_join bind].
    + apply Hgo. auto.
    + destruct text_or_branch as [[Hn Hb]|[Hn Hb]]; rewrite Hn, Hb; [reflexivity|]. cbn [lift bind].
      rewrite Hlen, <- kid_number_eq.
      destruct (normalize_child_index k (length (r_kids r))) as [m|] eqn:En; [|reflexivity].
      apply normalize_lt in En. destruct (rep_child En) as (x & Hx & Hxc).
      destruct (nth_error (r_kids r) m) as [y|] eqn:Ey; [|apply nth_error_None in Ey; lia].
      rewrite (kid_get _ Ey), Hx. cbn [k_doc lift bind]. apply Hgo. eapply Hkids; eauto.
    + destruct (He Hps) as (e & -> & jp & k & kl & -> & H1 & H2 & H3 & H4 & H5 & H6 & H7 & H8 & H9).
      rewrite H8. destruct (jp_index jp) as [|i]; [congruence|]. cbn [pred] in H7.
      assert (S i < length (r_kids r)) by (apply nth_error_Some; congruence).
      rewrite H1. destruct (handle_prev H2 H) as (x & Hx & Hxc). rewrite Hx. cbn [lift bind].
      apply Hgo. eapply Hkids; eauto.
    + destruct (He Hps) as (e & -> & jp & k & kl & -> & H1 & H2 & H3 & H4 & H5 & H6 & H7 & H8 & H9).
      cbn [bind]. apply Hgo. rewrite H5. cbn [k_doc]. eapply Hkids; eauto.
  - (* Child *)
    destruct text_or_branch as [[Hn Hb]|[Hn Hb]]; rewrite Hn, Hb; [reflexivity|]. cbn [lift bind].
    rewrite Hlen, <- kid_number_eq.
    destruct (normalize_child_index i (length (r_kids r))) as [m|] eqn:En; [|reflexivity].
    apply normalize_lt in En. destruct (rep_child En) as (x & Hx & Hxc).
    destruct (nth_error (r_kids r) m) as [y|] eqn:Ey; [|apply nth_error_None in Ey; lia].
    rewrite (kid_get _ Ey), Hx. cbn [lift bind]. apply child_spec; auto.
  - (* Style *) destruct (rep_info_eqs Hinf) as (H1 & H2 & H3 & H4 & H5). rewrite H4. cbn [lift bind]. eapply IH; eauto.
  - (* Count *) destruct Hw as (Hwz & Hwo & Hwm).
    destruct text_or_branch as [[Hn Hb]|[Hn Hb]]; rewrite Hn, Hb; [reflexivity|]. cbn [lift bind].
    rewrite <- Hlen. destruct (kids_of r) as [|k1 [|k2 ks]] eqn:Ek; cbn [length]; rewrite <- Ek; [eapply IHz|eapply IHo|eapply IHm]; eauto.
  - (* Fold *) destruct Hw as (Hin & Hwf & Hwj).
    destruct text_or_branch as [[Hn Hb]|[Hn Hb]]; rewrite Hn, Hb; [reflexivity|]. cbn [lift bind].
    pose proof (@fold_good f jn IHf IHj Hwj) as Hgood.
    assert (Hgf : good_acc f jn 0 (fun c => elab_note r (kids_of r) f None c)).
    { intros jp fl nd st _ _ _ _ _. eapply IHf; eauto. intros H; discriminate. }
    assert (Hk : kids_of r = map (fun k => Kid k (elab k)) (r_kids r)) by reflexivity.
    pose proof rep_last as Hlast.
    destruct (r_kids r) as [|k1 ks] eqn:Ek; cbn [length map] in *.
    { rewrite Hk. reflexivity. }
    rewrite Hk at 1. specialize (Hgood ks 0 k1 _ [] eq_refl eq_refl Hgf). cbn [Nat.add] in Hgood.
    destruct ks as [|k2 ks]; cbn [length].
    + cbn [fold_kids map]. eapply IHf; eauto. intros H; discriminate.
    + destruct (Hlast _ eq_refl) as (x & Hx & Hxc). rewrite Hx. cbn [lift bind].
      apply (Hgood (JoinPos d x (S (length ks)) f jn) flat ind sty); auto.
  - (* Left *) destruct (He Hw) as (e & -> & jp & k & kl & -> & H1 & H2 & H3 & H4 & H5 & H6 & H7 & H8 & H9).
    specialize (H9 flat ind sty). rewrite eval_eqn in H9. exact H9.
  - (* Right *) destruct (He Hw) as (e & -> & jp & k & kl & -> & H1 & H2 & H3 & H4 & H5 & H6 & H7 & H8 & H9).
    rewrite H3, H5. apply child_spec; auto.
Qed.

Lemma node_unfolds : wsc false false (i_note (r_info r)) -> unfolds r d.
Proof.
  intros Hw flat ind sty j. rewrite elab_eq. eapply note_elab; eauto. intros H; discriminate.
Qed.

End Node.

Lemma valid_note r : valid_doc r -> validate (i_note (r_info r)) = Ok tt.
Proof. destruct 1; auto. Qed.

Lemma valid_kid r k : valid_doc r -> In k (r_kids r) -> valid_doc k.
Proof. destruct 1; simpl; [contradiction|auto]. Qed.

Theorem rep_unfolds r : valid_doc r -> forall d, rep r d -> unfolds r d.
Proof.
  induction r as [i s|i ks IH] using rdoc_ind'; intros Hv d Hr.
  - apply node_unfolds; auto.
    + intros n x k _ H. destruct n; discriminate.
    + apply valid_wsc. apply (valid_note Hv).
  - apply node_unfolds; auto.
    + intros n x k Hx Hk. inversion Hr as [|i0 ks0 d0 Hi0 Hn0 Hc0 Hl0 Hp0 Hk0]; subst.
      assert (Hin : In k ks) by (eapply nth_error_In; eauto).
      split; [eauto|]. apply IH; eauto. apply (valid_kid _ Hv). exact Hin.
    + apply valid_wsc. apply (valid_note Hv).
Qed.

End PElab.
