(** Partial layouts agree with full ones. *)
From Verif Require Export PPeek8 PRel.

Set Implicit Arguments.

Section PPeek9.
Context {pd : PrettyDoc} {env : Env}.

(** [s] is [s'] with holes. *)
Inductive hole : shape -> shape -> Prop :=
| ho_fail f s : hole (SFail f) s
| ho_empty : hole SEmpty SEmpty
| ho_eol : hole SEol SEol
| ho_mark : hole SMark SMark
| ho_newline ind : hole (SNewline ind) (SNewline ind)
| ho_text t : hole (SText t) (SText t)
| ho_concat a a' b b' : hole a a' -> hole b b' -> hole (SConcat a b) (SConcat a' b')
| ho_choice a a' b b' : hole a a' -> hole b b' -> hole (SChoice a b) (SChoice a' b')
| ho_child n i s s' : hole s s' -> hole (SChild n i s) (SChild n i s').

Lemma hole_refl s : hole s s.
Proof. induction s; constructor; auto. Qed.

Lemma hole_head s s' : hole s s' -> head_fails s = false -> head_fails s' = false.
Proof. destruct 1; simpl; auto; discriminate. Qed.

Definition look_le (k k' : look) : Prop := forall r e b, k r e = Some b -> k' r e = Some b.

Lemma hole_fits s s' : hole s s' -> forall k k', look_le k k' -> look_le (fits_s s k) (fits_s s' k').
Proof.
  induction 1 as [f s| | | |ind|t|a a' b b' Ha IHa Hb IHb|a a' b b' Ha IHa Hb IHb|n i s s' Hs IHs];
    intros k k' Hk r e x H; cbn [fits_s] in *; auto.
  - discriminate.
  - destruct e; auto. destruct (tx_width t <=? r)%N; auto.
  - destruct (head_fails b) eqn:Eb; [discriminate|]. rewrite (hole_head Hb Eb).
    revert H. apply IHa. apply IHb. exact Hk.
  - revert H. apply IHb. exact Hk.
  - revert H. apply IHs. exact Hk.
Qed.

Lemma hole_picks w a a' k k' p b : hole a a' -> look_le k k' -> picks_first w a k p = Some b -> picks_first w a' k' p = Some b.
Proof.
  intros Ha Hk. unfold picks_first. destruct p as [len eol]. destruct (len <=? w)%N; auto. apply hole_fits; auto.
Qed.

Lemma fills_app x x' es es' : fills x es -> fills x' es' -> fills (x ++ x') (es ++ es').
Proof. induction 1; intros H'; simpl; auto; [constructor; auto|]. rewrite <- app_assoc. constructor; auto. Qed.

Lemma fills_gap g es : fills [Gap g] es.
Proof. rewrite <- (app_nil_r es). constructor. constructor. Qed.

Lemma hole_peek w s s' : hole s s' -> forall j k k' p p' es p2,
  look_le k k' -> p = None \/ p = Some p' -> rend w s' j k' p' = Some (es, p2) ->
  fills (fst (peek w s j k p)) es /\ (snd (peek w s j k p) = None \/ snd (peek w s j k p) = Some p2).
Proof.
  induction 1 as [f s| | | |ind|t|a a' b b' Ha IHa Hb IHb|a a' b b' Ha IHa Hb IHb|n i s s' Hs IHs];
    intros j k k' p p' es p2 Hk Hp Hr; cbn [rend peek] in *.
  - simpl. split; [apply fills_gap|auto].
  - injection Hr as <- <-. split; [constructor|auto].
  - injection Hr as <- <-. split; [repeat constructor|]. destruct Hp as [->| ->]; simpl; auto.
  - injection Hr as <- <-. split; [repeat constructor|auto].
  - destruct (indent_pos ind) as [q|]; [|discriminate]. simpl in Hr. injection Hr as <- <-. split; [repeat constructor|auto].
  - destruct (text_pos p' t) as [q|] eqn:Et; [|discriminate]. simpl in Hr. injection Hr as <- <-.
    destruct Hp as [->| ->]; simpl; [split; [apply fills_gap|auto]|]. rewrite Et. simpl. split; [repeat constructor|auto].
  - destruct (rend w a' j (fits_s b' k') p') as [[e1 p1]|] eqn:E1; [|discriminate]. simpl in Hr.
    destruct (rend w b' j k' p1) as [[e2 p3]|] eqn:E2; [|discriminate]. simpl in Hr. injection Hr as <- <-.
    cbv zeta. cbn [fst snd].
    destruct (IHa _ _ _ _ _ _ _ (hole_fits Hb Hk) Hp E1) as [F1 P1].
    destruct (IHb _ _ _ _ _ _ _ Hk P1 E2) as [F2 P2]. split; auto. apply fills_app; auto.
  - destruct Hp as [->| ->]; [simpl; split; [apply fills_gap|auto]|].
    destruct (head_fails a) eqn:Eh; [simpl; split; [apply fills_gap|auto]|].
    rewrite (hole_head Ha Eh) in Hr.
    destruct (picks_first w a k p') as [f|] eqn:Ef; [|simpl; split; [apply fills_gap|auto]].
    rewrite (hole_picks _ _ Ha Hk Ef) in Hr. cbn [obind] in Hr.
    destruct f.
    + destruct (opens a); [|simpl; split; [apply fills_gap|auto]]. eapply IHa; eauto.
    + destruct (opens b); [|simpl; split; [apply fills_gap|auto]]. eapply IHb; eauto.
  - destruct i as [j'|]; [|discriminate].
    destruct (rend w s' j' k' p') as [[e1 p1]|] eqn:E1; [|discriminate]. simpl in Hr. injection Hr as <- <-.
    destruct Hp as [->| ->]; [simpl; split; [apply fills_gap|auto]|].
    destruct (opens s); [|simpl; split; [apply fills_gap|auto]]. cbv zeta. cbn [fst snd].
    destruct (IHs _ _ _ (Some p') _ _ _ Hk (or_intror eq_refl) E1) as [F1 P1]. split; auto.
    constructor. apply fills_app; auto. repeat constructor.
Qed.

Lemma rend_opens w s : forall j k p x, rend w s j k p = Some x -> opens s = true.
Proof.
  induction s as [f| | |ind|t|a IHa b IHb|a IHa b IHb|n i s IH|]; intros j k p x H; cbn [rend opens] in *; auto.
  - discriminate.
  - destruct (indent_pos ind); auto; discriminate.
  - destruct (rend w a j (fits_s b k) p) as [[e1 p1]|] eqn:E1; [|discriminate]. simpl in H.
    destruct (rend w b j k p1) as [[e2 p2]|] eqn:E2; [|discriminate].
    rewrite (IHa _ _ _ _ E1), (IHb _ _ _ _ E2). reflexivity.
Qed.

Lemma peek_full w s : forall j k p es p', rend w s j k p = Some (es, p') ->
  peek w s j k (Some p) = (map Ev es, Some p').
Proof.
  induction s as [f| | |ind|t|a IHa b IHb|a IHa b IHb|n i s IH|]; intros j k p es p' H; cbn [rend peek] in *.
  - discriminate.
  - injection H as <- <-. reflexivity.
  - injection H as <- <-. reflexivity.
  - destruct (indent_pos ind); [|discriminate]. injection H as <- <-. reflexivity.
  - cbn [obind]. destruct (text_pos p t); [|discriminate]. injection H as <- <-. reflexivity.
  - destruct (rend w a j (fits_s b k) p) as [[e1 p1]|] eqn:E1; [|discriminate]. simpl in H.
    destruct (rend w b j k p1) as [[e2 p2]|] eqn:E2; [|discriminate]. injection H as <- <-.
    rewrite (IHa _ _ _ _ _ E1). cbv zeta. cbn [fst snd]. rewrite (IHb _ _ _ _ _ E2). cbn [fst snd].
    rewrite map_app. reflexivity.
  - destruct (head_fails a); [discriminate|]. destruct (picks_first w a k p) as [f|]; [|discriminate]. cbn [obind] in H.
    destruct f; rewrite (rend_opens _ _ _ _ _ H); auto.
  - destruct i as [j'|]; [|discriminate]. destruct (rend w s j' k p) as [[e1 p1]|] eqn:E1; [|discriminate].
    injection H as <- <-. rewrite (rend_opens _ _ _ _ _ E1), (IH _ _ _ _ _ E1). cbv zeta. cbn [fst snd].
    cbn [map]. rewrite map_app. reflexivity.
  - injection H as <- <-. reflexivity.
Qed.

(** ** Documents *)

Fixpoint closes_ind' (P : odoc -> rdoc -> Prop)
  (Ht : forall i s, P (OText i s) (RText i s))
  (Hb : forall i ks ks', Forall2 closes ks ks' -> Forall2 P ks ks' -> P (OBranch i ks) (RBranch i ks'))
  (Hc : forall r, P (OClosed (r_info r)) r)
  (o : odoc) (r : rdoc) (H : closes o r) {struct H} : P o r :=
  match H with
  | cl_text i s => Ht i s
  | cl_closed r => Hc r
  | cl_branch i Hk => Hb i _ _ Hk
      ((fix go ks ks' (F : Forall2 closes ks ks') : Forall2 P ks ks' :=
        match F with
        | Forall2_nil _ => Forall2_nil _
        | Forall2_cons _ _ Hx F' => Forall2_cons _ _ (closes_ind' Ht Hb Hc Hx) (go _ _ F')
        end) _ _ Hk)
  end.

Lemma note_like_refl (i : info) n : note_like eq eq i i n n.
Proof. induction n; constructor; auto. destruct label; simpl; auto. Qed.

Lemma closes_info o r : closes o r -> r_info r = o_info o.
Proof. destruct 1; reflexivity. Qed.

(** If the children's trees are related, so are the trees. *)
Lemma okids_rel (R : shape -> shape -> Prop) ks ks' :
  Forall2 (fun o r => r_info r = o_info o /\ forall c, R (oelab o c) (elab r c)) ks ks' ->
  Forall2 (kid_rel eq eq eq R eq) (map (fun k => Kid (forget k) (oelab k)) ks) (map (fun k => Kid k (elab k)) ks').
Proof.
  induction 1 as [|o r ks ks' [Hi Hr] F IH]; simpl; constructor; auto.
  split; simpl.
  - rewrite o_info_forget, Hi. repeat split; auto. apply note_like_refl.
  - intros c c' <-. auto.
Qed.

Section Rel2.
Variable R : shape -> shape -> Prop.
Hypothesis R_fail : forall f, R (SFail f) (SFail f).
Hypothesis R_empty : R SEmpty SEmpty.
Hypothesis R_eol : R SEol SEol.
Hypothesis R_mark : R SMark SMark.
Hypothesis R_newline : forall ind, R (SNewline ind) (SNewline ind).
Hypothesis R_text : forall t, R (SText t) (SText t).
Hypothesis R_concat : forall a b a' b', R a a' -> R b b' -> R (SConcat a b) (SConcat a' b').
Hypothesis R_choice : forall a b a' b', R a a' -> R b b' -> R (SChoice a b) (SChoice a' b').
Hypothesis R_child : forall n j s s', R s s' -> R (SChild n (Ok j) s) (SChild n (Ok j) s').

Lemma onote_rel o r : (match o, r with OText _ s, RText _ s' => s = s' | OBranch _ _, RBranch _ _ => True | _, _ => False end) ->
  r_info r = o_info o ->
  Forall2 (fun o r => r_info r = o_info o /\ forall c, R (oelab o c) (elab r c)) (o_kids o) (r_kids r) ->
  forall c, R (oelab o c) (elab r c).
Proof.
  intros Ho Hi Hk c.
  assert (Hop : o_open o = true) by (destruct o; auto; destruct r; contradiction).
  rewrite oelab_eq, elab_eq by auto. rewrite Hi.
  apply note_rel with (RS := eq) (RI := eq) (RT := eq) (RC := eq); auto.
  - intros x y ->; reflexivity.
  - intros x y ->; reflexivity.
  - intros s s' x y -> ->; reflexivity.
  - intros p p' s s' x y <- H ->. destruct s, s'; subst; try contradiction; reflexivity.
  - intros x y ->; auto.
  - intros x y s s' f -> <-; auto.
  - intros n j j' s s' ->; auto.
  - destruct o, r; try contradiction; simpl; auto.
  - rewrite o_info_forget, Hi. reflexivity.
  - apply okids_rel. exact Hk.
  - rewrite o_info_forget, Hi. apply note_like_refl.
  - exact I.
Qed.
End Rel2.

Theorem closes_hole o r : closes o r -> forall c, hole (oelab o c) (elab r c).
Proof.
  intros H. refine (@closes_ind' (fun o r => forall c, hole (oelab o c) (elab r c)) _ _ _ o r H); clear o r H.
  - intros i s. apply onote_rel; simpl; auto using hole. 
  - intros i ks ks' Hks IH. apply onote_rel; simpl; auto using hole.
    clear -Hks IH. induction IH as [|o r ks ks' H F IH]; constructor.
    + split; auto. inversion Hks; subst. apply closes_info; auto.
    + apply IH. inversion Hks; auto.
  - intros r c. constructor.
Qed.

Theorem whole_elab r : forall c, oelab (whole r) c = elab r c.
Proof.
  induction r as [i s|i ks IH] using rdoc_ind'; apply onote_rel; simpl; auto; try congruence.
  clear -IH. induction ks as [|k ks IHk]; simpl; constructor.
  - split; [destruct k; reflexivity|]. apply IH. left; reflexivity.
  - apply IHk. intros. apply IH. right; auto.
Qed.

Lemma whole_info r : o_info (whole r) = r_info r.
Proof. destruct r; reflexivity. Qed.

(** Nothing closed: the partial layout is the layout. *)
Theorem whole_layout w r st es : layout w (doc_shape r st) = Some es -> open_layout w (whole r) st = map Ev es.
Proof.
  unfold layout, doc_shape, open_layout, peek_doc. intros H.
  destruct (rend w (elab r (root_ctx r st)) (i_id (r_info r)) look_end pos0) as [[es' p]|] eqn:E; [|discriminate].
  injection H as ->. rewrite whole_info.
  assert (Ec : root_ctx (forget (whole r)) st = root_ctx r st).
  { unfold root_ctx. rewrite o_info_forget, whole_info. reflexivity. }
  rewrite Ec, whole_elab, (rend_opens _ _ _ _ _ E), (peek_full _ _ _ _ _ E). reflexivity.
Qed.

(** The partial layout is the layout with gaps. *)
Theorem closes_layout w o r st es : closes o r -> layout w (doc_shape r st) = Some es -> fills (open_layout w o st) es.
Proof.
  unfold layout, doc_shape, open_layout, peek_doc. intros Hc H.
  destruct (rend w (elab r (root_ctx r st)) (i_id (r_info r)) look_end pos0) as [[es' p]|] eqn:E; [|discriminate].
  injection H as ->. rewrite (closes_info Hc) in E.
  assert (Ec : root_ctx (forget o) st = root_ctx r st).
  { unfold root_ctx. rewrite o_info_forget, (closes_info Hc). reflexivity. }
  rewrite Ec. destruct (opens _); [|apply fills_gap].
  eapply hole_peek; [apply closes_hole; eassumption| | |exact E]; auto. intros ? ? ?; auto.
Qed.

End PPeek9.
