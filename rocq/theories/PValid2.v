(** Validated notations without children never print text after EndOfLine. *)
From Verif Require Export PValid Properties4.

Set Implicit Arguments.

Definition leb (a b : bool) : Prop := a = true -> b = true.

Lemma leb_orl a b c : leb a b -> leb a (b || c).
Proof. intros H E. rewrite (H E). reflexivity. Qed.
Lemma leb_orr a b c : leb a c -> leb a (b || c).
Proof. intros H E. rewrite (H E). apply orb_true_r. Qed.

Lemma leb_f b : leb false b. Proof. intros E. discriminate E. Qed.
Lemma leb_refl b : leb b b. Proof. intros E. exact E. Qed.
#[local] Hint Resolve leb_f leb_refl : core.

(** Display [l], starting after an EndOfLine or not; [None]: text after it. *)
Fixpoint run (eol : bool) (l : list ditem) : option bool :=
  match l with
  | [] => Some eol
  | DText :: l' => if eol then None else run false l'
  | DEol :: l' => run true l'
  | DMark :: l' => run eol l'
  | _ :: l' => run false l'
  end.

Lemma run_app l1 : forall eol l2, run eol (l1 ++ l2) = match run eol l1 with Some e => run e l2 | None => None end.
Proof. induction l1 as [|[] l1 IH]; intros eol l2; simpl; auto. destruct eol; auto. Qed.

Section Plain.
Context {L C : Type}.

Lemma run_valid (n : notation L C) : forall h ctx h', validate_rec n h ctx = Ok h' ->
  forall l eol, resolves n l -> leb eol (h_eol h) -> exists e', run eol l = Some e' /\ leb e' (h_eol h').
Proof.
  induction n as [| | |s| |n IH|pre l n IH|a IHa b IHb|a IHa b IHb|cd ps a IHa b IHb|i|l n IH| |z IHz o IHo m IHm|fn IHf jn IHj| |];
    intros h ctx h' Hv ls eol Hr Hl; cbn [validate_rec resolves] in *.
  - subst. injection Hv as <-. simpl. eauto.
  - subst. simpl. exists false. split; auto.
  - subst. injection Hv as <-. simpl. exists true. split; auto.
  - subst. destruct (h_eol h) eqn:E; [discriminate|]. simpl. destruct eol; [specialize (Hl eq_refl); discriminate|]. exists false. split; auto.
  - subst. destruct (is_some (ctx_count ctx)); [discriminate|]. destruct (is_some (ctx_fold ctx)); [discriminate|].
    destruct (h_eol h) eqn:E; [discriminate|]. simpl. destruct eol; [specialize (Hl eq_refl); discriminate|]. exists false. split; auto.
  - eauto.
  - eauto.
  - destruct Hr as (l1 & l2 & H1 & H2 & ->). destruct (validate_rec a h ctx) as [h1|] eqn:E1; [|discriminate]. simpl in Hv.
    destruct (IHa _ _ _ E1 _ _ H1 Hl) as (e1 & R1 & L1). destruct (IHb _ _ _ Hv _ _ H2 L1) as (e2 & R2 & L2).
    exists e2. rewrite run_app, R1. auto.
  - destruct (validate_rec a h ctx) as [h1|] eqn:E1; [|discriminate]. simpl in Hv. destruct (validate_rec b h ctx) as [h2|] eqn:E2; [|discriminate]. simpl in Hv. injection Hv as <-.
    destruct Hr as [Hr|Hr]; [destruct (IHa _ _ _ E1 _ _ Hr Hl) as (e1 & R1 & L1)|destruct (IHb _ _ _ E2 _ _ Hr Hl) as (e1 & R1 & L1)]; exists e1; split; auto; simpl; auto using leb_orl, leb_orr.
  - destruct (validate_pos ctx ps); [|discriminate]. simpl in Hv.
    destruct (validate_rec a h ctx) as [h1|] eqn:E1; [|discriminate]. simpl in Hv. destruct (validate_rec b h ctx) as [h2|] eqn:E2; [|discriminate]. simpl in Hv. injection Hv as <-.
    destruct Hr as [Hr|Hr]; [destruct (IHa _ _ _ E1 _ _ Hr Hl) as (e1 & R1 & L1)|destruct (IHb _ _ _ E2 _ _ Hr Hl) as (e1 & R1 & L1)]; exists e1; split; auto; simpl; auto using leb_orl, leb_orr.
  - subst. exists false. split; auto.
  - eauto.
  - subst. destruct (h_mark h); [discriminate|]. injection Hv as <-. simpl. eauto.
  - destruct (is_some (ctx_count ctx)); [discriminate|].
    destruct (validate_rec z h _) as [h1|] eqn:E1; [|discriminate]. simpl in Hv.
    destruct (validate_rec o h _) as [h2|] eqn:E2; [|discriminate]. simpl in Hv.
    destruct (validate_rec m h _) as [h3|] eqn:E3; [|discriminate]. simpl in Hv. injection Hv as <-.
    destruct Hr as [Hr|[Hr|Hr]]; [destruct (IHz _ _ _ E1 _ _ Hr Hl) as (e1 & R1 & L1)|destruct (IHo _ _ _ E2 _ _ Hr Hl) as (e1 & R1 & L1)|destruct (IHm _ _ _ E3 _ _ Hr Hl) as (e1 & R1 & L1)];
      exists e1; split; auto; simpl; auto using leb_orl, leb_orr.
  - subst. exists false. split; auto.
  - subst. exists false. split; auto.
  - subst. exists false. split; auto.
Qed.

(** No Child and no Fold. *)
Fixpoint plain (n : notation L C) : Prop :=
  match n with
  | Child _ | Fold _ _ | Left | Right => False
  | Flat a | Indent _ _ a | Style _ a => plain a
  | Concat a b | Choice a b | Check _ _ a b => plain a /\ plain b
  | Count a b c => plain a /\ plain b /\ plain c
  | _ => True
  end.

End Plain.

Section Shape.
Context {pd : PrettyDoc} {env : Env}.

(** All the ways of resolving the choices of a tree. *)
Fixpoint sitems (s : shape) (l : list ditem) : Prop :=
  match s with
  | SFail _ | SEmpty => l = []
  | SMark => l = [DMark]
  | SEol => l = [DEol]
  | SNewline _ => l = [DNewline]
  | SText _ => l = [DText]
  | SConcat a b => exists l1 l2, sitems a l1 /\ sitems b l2 /\ l = l1 ++ l2
  | SChoice a b => sitems a l \/ sitems b l
  | SChild _ _ s' => sitems s' l
  end.

Lemma sitems_note self kids n : plain n -> forall fe c l,
  no_fail (elab_note self kids n fe c) -> sitems (elab_note self kids n fe c) l -> resolves n l.
Proof.
  induction n as [| | |s| |n IH|pre lb n IH|a IHa b IHb|a IHa b IHb|cd ps a IHa b IHb|i|lb n IH| |z IHz o IHo m IHm|fn IHf jn IHj| |];
    intros Hp fe c l Hn; cbn [elab_note resolves]; cbv zeta; cbn [elab_note] in Hn; cbv zeta in Hn; simpl in Hp; try contradiction; auto.
  - destruct self; simpl in *; auto. contradiction.
  - eapply IH; eauto.
  - eapply IH; eauto.
  - intros (l1 & l2 & H1 & H2 & ->). destruct Hn. destruct Hp. exists l1, l2. split; [eapply IHa|split; [eapply IHb|]]; eauto.
  - destruct Hp. destruct (x_flat c); [eauto|]. destruct Hn. simpl. intros [H'|H']; [left; eapply IHa|right; eapply IHb]; eauto.
  - destruct Hp as [Pa Pb].
    assert (Hgo : forall x, no_fail (if i_cond (r_info x) cd then elab_note self kids a fe c else elab_note self kids b fe c) ->
      sitems (if i_cond (r_info x) cd then elab_note self kids a fe c else elab_note self kids b fe c) l -> resolves a l \/ resolves b l).
    { intros x. destruct (i_cond (r_info x) cd); intros; [left; eapply IHa|right; eapply IHb]; eauto. }
    destruct ps as [|k| |]; eauto.
    + destruct self; simpl in Hn; [contradiction|]. rewrite <- ?kid_number_eq in *. destruct (normalize_child_index _ _) as [nn|] eqn:E; [|contradiction].
      destruct (nth_error kids nn) eqn:E2; eauto. exfalso.
      unfold normalize_child_index in E. cbv zeta in E. destruct (_ || _)%bool eqn:E3; [discriminate|]. injection E as <-.
      apply orb_false_iff in E3 as [E3 E4]. apply nth_error_None in E2. apply Z.ltb_ge in E3. apply Z.leb_gt in E4. lia.
    + destruct fe; eauto. contradiction.
    + destruct fe; eauto. contradiction.
  - eapply IH; eauto.
  - destruct Hp as (P1 & P2 & P3). destruct self; simpl in Hn; [contradiction|].
    destruct kids as [|? [|]]; intros; [left; eapply IHz|right; left; eapply IHo|right; right; eapply IHm]; eauto.
Qed.

Hypothesis Hrel : ovf = false.

Lemma oadd_total a b : exists c, oadd16 a b = Some c.
Proof. unfold oadd16, add16. rewrite Hrel. destruct (_ <? _)%N; simpl; eauto. Qed.

Lemma osum_total ws : exists c, osum16 ws = Some c.
Proof.
  unfold osum16, sum16. rewrite Hrel. generalize 0%N. induction ws as [|w ws IH]; intros acc; simpl; eauto.
  unfold add16. destruct (_ <? _)%N; simpl; apply IH.
Qed.

Lemma rend_safe w s : no_fail s -> forall j k p, total k ->
  (forall l, sitems s l -> run (snd p) l <> None) ->
  exists es p' l, rend w s j k p = Some (es, p') /\ sitems s l /\ run (snd p) l = Some (snd p').
Proof.
  intros Hn. induction s as [f| | |ind|t|a IHa b IHb|a IHa b IHb|m i' s IH|]; intros j k p Hk Hs; cbn [rend].
  - destruct Hn.
  - exists [], p, []. simpl. auto.
  - eexists _, _, [DEol]. simpl. auto.
  - unfold indent_pos. destruct (osum_total (map seg_width (rev ind))) as (c & ->). cbn [obind]. eexists _, _, [DNewline]. simpl. auto.
  - unfold text_pos. destruct p as [len eol]. specialize (Hs [DText] eq_refl). simpl in Hs. destruct eol; [contradiction|].
    destruct (oadd_total len (tx_width t)) as (c & ->). cbn [obind]. eexists _, _, [DText]. simpl. auto.
  - destruct Hn as [Na Nb]. 
    assert (Hka : total (fits_s b k)) by (apply fits_total; auto).
    destruct (IHa Na j (fits_s b k) p Hka) as (e1 & p1 & l1 & R1 & S1 & X1).
    { intros l Hl E. assert (Hb : exists lb, sitems b lb).
      { clear. induction b as [f| | |ind|t|a IHa b IHb|a IHa b IHb|m i' s IH|]; simpl; eauto.
        - destruct IHa as (x & Hx), IHb as (y & Hy). eauto 10.
        - destruct IHa as (x & Hx). eauto. }
      destruct Hb as (lb & Hb). apply (Hs (l ++ lb)); [exists l, lb; auto|]. rewrite run_app, E. reflexivity. }
    destruct (IHb Nb j k p1 Hk) as (e2 & p2 & l2 & R2 & S2 & X2).
    { intros l Hl E. apply (Hs (l1 ++ l)); [exists l1, l; auto|]. rewrite run_app, X1. exact E. }
    rewrite R1. cbn [obind]. rewrite R2. cbn [obind]. eexists _, _, (l1 ++ l2). split; [reflexivity|]. split; [exists l1, l2; auto|]. rewrite run_app, X1. exact X2.
  - destruct Hn as [Na Nb]. rewrite (no_fail_head _ Na).
    destruct (picks_first w a k p) as [f|] eqn:Ep.
    + cbn [obind]. destruct f.
      * destruct (IHa Na j k p Hk) as (e1 & p1 & l1 & R1 & S1 & X1). { intros l Hl. apply Hs. left. auto. } exists e1, p1, l1. simpl. auto.
      * destruct (IHb Nb j k p Hk) as (e1 & p1 & l1 & R1 & S1 & X1). { intros l Hl. apply Hs. right. auto. } exists e1, p1, l1. simpl. auto.
    + exfalso. destruct p as [len eol]. unfold picks_first in Ep. destruct (len <=? w)%N; [|discriminate].
      apply (@fits_total _ a k Na Hk (w - len)%N eol Ep).
  - destruct i' as [j'|]; [|destruct Hn; contradiction]. destruct (IH (proj2 Hn) j' k p Hk Hs) as (e1 & p1 & l1 & R1 & S1 & X1).
    rewrite R1. cbn [obind]. eexists _, _, l1. simpl. auto.
  - eexists _, _, [DMark]. simpl. auto.
Qed.

End Shape.
