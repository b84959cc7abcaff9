(** The layout follows the documented rule for choices. *)
From Verif Require Export SpecLine PSpine Properties2.

Set Implicit Arguments.

(** ** Items *)
Lemma first_line_app_nl a b : first_line (a ++ INl :: b) = first_line a.
Proof. induction a as [|[] a IH]; simpl; auto; rewrite IH; auto. Qed.

Lemma fits_nl w len eol l : line_fits w len eol (INl :: l) <-> (len <= w)%N.
Proof. unfold line_fits. simpl. rewrite N.add_0_r. intuition. Qed.
Lemma fits_eol w len eol l : line_fits w len eol (IEol :: l) <-> line_fits w len true l.
Proof. unfold line_fits. simpl. reflexivity. Qed.
Lemma fits_txt w len eol x l : line_fits w len eol (ITxt x :: l) <-> eol = false /\ line_fits w (len + x) false l.
Proof.
  unfold line_fits. simpl. rewrite N.add_assoc. destruct eol; simpl.
  - split; [intros [_ H]; discriminate|intros [H _]; discriminate].
  - intuition.
Qed.
Lemma fits_nil w len eol : line_fits w len eol [] <-> (len <= w)%N.
Proof. unfold line_fits. simpl. rewrite N.add_0_r. intuition. Qed.
Lemma fits_le w len eol l : line_fits w len eol l -> (len <= w)%N.
Proof. unfold line_fits. lia. Qed.

Lemma text_after_app_nl eol a b : text_after eol (first_line (a ++ INl :: b)) = text_after eol (first_line a).
Proof. rewrite first_line_app_nl. reflexivity. Qed.

Section PLine.
Context {pd : PrettyDoc} {env : Env}.

Definition agrees (w : N) (k : look) (rest : list piece) : Prop :=
  forall len eol b, (len <= w)%N -> k (w - len)%N eol = Some b -> (b = true <-> line_fits w len eol rest).

Lemma fits_items w s : forall k rest, agrees w k rest -> agrees w (fits_s s k) (seconds s ++ rest).
Proof.
  induction s as [f| | |ind|t|a IHa b IHb|a IHa b IHb|n i s IH|]; intros k rest Hk len eol b0 Hle; cbn [fits_s seconds app]; intros H.
  - discriminate.
  - apply Hk; auto.
  - rewrite fits_eol. apply Hk; auto.
  - injection H as <-. rewrite fits_nl. intuition.
  - rewrite fits_txt. destruct eol.
    + injection H as <-. intuition discriminate.
    + destruct (tx_width t <=? w - len)%N eqn:E.
      * apply N.leb_le in E. rewrite <- N.sub_add_distr in H. apply Hk in H; [|lia]. intuition.
      * injection H as <-. apply N.leb_gt in E. split; [discriminate|]. intros [_ H]. apply fits_le in H. lia.
  - destruct (head_fails b); [discriminate|]. rewrite <- app_assoc. eapply IHa; eauto.
  - apply IHb with (k := k); auto.
  - apply IH with (k := k); auto.
  - apply Hk; auto.
Qed.

Lemma agrees_end w : agrees w look_end [].
Proof. intros len eol b H [= <-]. rewrite fits_nil. intuition. Qed.

Lemma picks_items w a k rest len eol b : agrees w k rest -> picks_first w a k (len, eol) = Some b ->
  (b = true <-> line_fits w len eol (seconds a ++ rest)).
Proof.
  intros Hk. unfold picks_first. destruct (len <=? w)%N eqn:E.
  - apply N.leb_le in E. apply fits_items; auto.
  - intros [= <-]. apply N.leb_gt in E. split; [discriminate|]. intros H. apply fits_le in H. lia.
Qed.

(** ** Traces *)
Lemma events_app a b : events (a ++ b) = events a ++ events b.
Proof. apply flat_map_app. Qed.

Lemma lines_exit es j n c : lines_from c (es ++ [EExit j n]) = lines_from c es.
Proof. revert c; induction es as [|e es IH]; intros c; simpl; auto. destruct e; simpl; rewrite ?IH; auto. Qed.

Lemma narrow_app e1 e2 cur : Forall narrow (lines_from cur (e1 ++ e2)) ->
  exists ls l, lines_from cur e1 = ls ++ [l] /\ Forall narrow (lines_from cur e1) /\ Forall narrow (lines_from l e2) /\
    lines_from cur (e1 ++ e2) = ls ++ lines_from l e2.
Proof.
  intros Hn. destruct (lines_app e1 e2 cur) as (l & ls & A1 & A2). rewrite A2 in Hn. apply Forall_app in Hn as [N1 N2].
  exists ls, l. split; auto. split; auto. rewrite A1. apply Forall_app. split; auto. constructor; auto.
  destruct (lines_first_ge e2 l) as (l' & ls' & E1 & E2). rewrite E1 in N2. inversion N2; subst. unfold narrow in *. lia.
Qed.

(** The position is the width of the last line. *)
Lemma lays_pos strict w j rest s p t p' : lays strict w j rest s p t p' ->
  forall cur, sumw cur = fst p -> exists ls l, lines_from cur (events t) = ls ++ [l] /\ sumw l = fst p'.
Proof.
  induction 1; intros cur Hc; simpl; try (exists [], cur; auto; fail).
  - exists [cur], (rev ind). auto.
  - exists [], (cur ++ [text_seg x]). split; auto. rewrite sumw_app. unfold sumw at 2. simpl in *. lia.
  - rewrite events_app. destruct (IHlays1 cur Hc) as (ls1 & l1 & A1 & B1). destruct (IHlays2 l1 B1) as (ls2 & l2 & A2 & B2).
    destruct (lines_app (events t1) (events t2) cur) as (l & ls & C1 & C2). rewrite A1 in C1. apply app_inj_tail in C1 as [<- <-].
    exists (ls1 ++ ls2), l2. rewrite C2, A2, app_assoc. auto.
  - destruct (IHlays cur Hc) as (ls & l & A & B). eauto.
  - destruct (IHlays cur Hc) as (ls & l & A & B). eauto.
  - destruct (IHlays cur Hc) as (ls & l & A & B). exists ls, l. rewrite events_app. simpl. rewrite lines_exit. auto.
Qed.

(** A layout follows the rule. *)
Lemma rend_lays w s : forall j k p es p' cur rest,
  rend w s j k p = Some (es, p') -> agrees w k rest -> Forall narrow (lines_from cur es) -> sumw cur = fst p ->
  exists t, events t = es /\ lays true w j rest s p t p'.
Proof.
  induction s as [f| | |ind|t|a IHa b IHb|a IHa b IHb|n i s IH|]; intros j k p es p' cur rest; cbn [rend]; intros H Hk Hn Hc.
  - discriminate.
  - injection H as <- <-. exists []. split; auto. constructor.
  - injection H as <- <-. exists [Ev EEol]. split; auto. destruct p. constructor.
  - apply obind_some in H as [x [Hx [= <- <-]]]. simpl in Hn. inversion Hn as [|? ? H1 H2]; subst.
    inversion H2 as [|? ? H3 _]; subst. unfold narrow, sumw in H3.
    unfold indent_pos, osum16, sum16 in *.
    rewrite sum16_exact in Hx by (simpl; exact H3).
    cbn [to_option obind] in *. injection Hx as <-. exists [Ev (ENewline ind)]. split; auto. apply L_newline.
  - apply obind_some in H as [x [Hx [= <- <-]]]. simpl in Hn. inversion Hn as [|? ? H1 _]; subst.
    unfold narrow in H1. rewrite sumw_app in H1. unfold sumw in H1 at 2. simpl in H1. rewrite N.add_0_r in H1.
    destruct p as [len eol]. simpl in *. destruct eol; [discriminate|].
    unfold oadd16, add16 in *. rewrite Hc in H1.
    replace (len + tx_width t <? U16)%N with true in * by (symmetry; apply N.ltb_lt; lia).
    cbn [to_option obind] in *. injection Hx as <-. exists [Ev (EText j t)]. split; auto. constructor. auto.
  - apply obind_some in H as [[e1 p1] [H1 H]]. apply obind_some in H as [[e2 p2] [H2 [= <- <-]]].
    destruct (narrow_app _ _ _ Hn) as (ls & l & A1 & N1 & N2 & A2).
    destruct (IHa _ _ _ _ _ cur _ H1 (fits_items b Hk) N1 Hc) as (t1 & E1 & L1).
    destruct (lays_pos L1 cur Hc) as (ls' & l' & A3 & B3). rewrite E1, A1 in A3. apply app_inj_tail in A3 as [<- <-].
    destruct (IHb _ _ _ _ _ l _ H2 Hk N2 B3) as (t2 & E2 & L2).
    exists (t1 ++ t2). rewrite events_app, E1, E2. split; auto. econstructor; eauto.
  - destruct (head_fails a); [discriminate|]. apply obind_some in H as [f [Hf H]].
    destruct p as [len eol]. pose proof (picks_items a len eol Hk Hf) as Hp.
    destruct f.
    + destruct (IHa _ _ _ _ _ cur _ H Hk Hn Hc) as (t & E & L). exists (First :: t). split; auto. apply L_first; auto. apply Hp. reflexivity.
    + destruct (IHb _ _ _ _ _ cur _ H Hk Hn Hc) as (t & E & L). exists t. split; auto. apply L_second; auto.
      intros F. apply Hp in F. discriminate.
  - destruct i as [j'|]; [|discriminate]. apply obind_some in H as [[e1 p1] [H1 [= <- <-]]].
    simpl in Hn. rewrite lines_exit in Hn. destruct (IH _ _ _ _ _ cur _ H1 Hk Hn Hc) as (t & E & L).
    exists (Ev (EEnter j n) :: t ++ [Ev (EExit j n)]). split; [|constructor; auto].
    simpl. rewrite events_app, E. reflexivity.
  - injection H as <- <-. exists [Ev (EMark j)]. split; auto. constructor.
Qed.

(** The rule determines the layout. *)
Lemma lays_det st1 st2 w j rest s p t1 p1 t2 p2 :
  lays st1 w j rest s p t1 p1 -> lays st2 w j rest s p t2 p2 -> t1 = t2 /\ p1 = p2.
Proof.
  intros H. revert t2 p2. induction H; intros t' p'' H'; inversion H'; subst; auto; try contradiction.
  - match goal with A : lays st2 w j (seconds b ++ rest) a p _ _, B : lays st2 w j rest b _ _ _ |- _ =>
      destruct (IHlays1 _ _ A) as [-> ->]; destruct (IHlays2 _ _ B) as [-> ->] end. auto.
  - match goal with A : lays st2 _ _ _ _ _ _ _ |- _ => destruct (IHlays _ _ A) as [-> ->] end. auto.
  - match goal with A : lays st2 _ _ _ _ _ _ _ |- _ => destruct (IHlays _ _ A) as [-> ->] end. auto.
Qed.

Lemma lays_strict w j rest s p t p' : lays true w j rest s p t p' -> lays false w j rest s p t p'.
Proof.
  induction 1; econstructor; eauto.
Qed.

(** ** From the rule to the layout *)
Definition no_fail (s : shape) : Prop := allf (fun _ => False) s.
Definition total (k : look) : Prop := forall rem eol, k rem eol <> None.

Lemma no_fail_head s : no_fail s -> head_fails s = false.
Proof. destruct s; simpl; auto. intros []. Qed.

Lemma fits_total s : forall k, no_fail s -> total k -> total (fits_s s k).
Proof.
  induction s as [f| | |ind|t|a IHa b IHb|a IHa b IHb|n i s IH|]; intros k Hf Hk rem eol; cbn [fits_s]; auto; try discriminate.
  - destruct eol; [discriminate|]. destruct (_ <=? _)%N; [apply Hk|discriminate].
  - destruct Hf as [Ha Hb]. rewrite (no_fail_head _ Hb). apply IHa; auto.
  - apply IHb; auto. apply Hf.
  - apply IH; auto. apply Hf.
Qed.

Lemma picks_total w a k p : no_fail a -> total k -> picks_first w a k p <> None.
Proof.
  intros Ha Hk. destruct p as [len eol]. unfold picks_first. destruct (len <=? w)%N; [|discriminate]. apply fits_total; auto.
Qed.

(** The text after EndOfLine in a trace, and the state after it. *)
Fixpoint eol_after (eol : bool) (l : list piece) : bool :=
  match l with [] => eol | ITxt _ :: l' => eol_after eol l' | IEol :: l' => eol_after true l' | INl :: l' => eol_after false l' end.

Lemma text_after_app eol a b : text_after eol (a ++ b) = text_after eol a || text_after (eol_after eol a) b.
Proof. revert eol; induction a as [|[] a IH]; intros eol; simpl; auto. rewrite IH, orb_assoc. reflexivity. Qed.

Lemma items_app a b : items_of (a ++ b) = items_of a ++ items_of b.
Proof. induction a as [|[] a IH]; simpl; rewrite ?IH; auto. Qed.

Lemma eol_after_app eol a b : eol_after eol (a ++ b) = eol_after (eol_after eol a) b.
Proof. revert eol; induction a as [|[] a IH]; intros eol; simpl; auto. Qed.

Lemma lays_eol strict w j rest s p t p' : lays strict w j rest s p t p' -> eol_after (snd p) (items_of (events t)) = snd p'.
Proof.
  induction 1; simpl in *; auto.
  - rewrite events_app, items_app, eol_after_app, IHlays1. auto.
  - rewrite events_app, items_app, eol_after_app, IHlays. auto.
Qed.

Lemma lays_rend strict w j rest s p t p' : lays strict w j rest s p t p' ->
  forall k cur, no_fail s -> total k -> agrees w k rest -> Forall narrow (lines_from cur (events t)) -> sumw cur = fst p ->
  rend w s j k p = (if text_after (snd p) (items_of (events t)) then None else Some (events t, p')).
Proof.
  induction 1; intros k cur Hf Hk Ha Hn Hc; cbn [rend].
  - reflexivity.
  - reflexivity.
  - reflexivity.
  - simpl in Hn. inversion Hn as [|? ? H1 H2]; subst. inversion H2 as [|? ? H3 _]; subst. unfold narrow, sumw in H3.
    unfold indent_pos, osum16, sum16. rewrite sum16_exact by (simpl; exact H3). reflexivity.
  - simpl in Hn. inversion Hn as [|? ? H1 _]; subst.
    unfold narrow in H1. rewrite sumw_app in H1. unfold sumw in H1 at 2. simpl in H1. rewrite N.add_0_r in H1.
    simpl in *. destruct eol; simpl; [reflexivity|].
    unfold oadd16, add16. rewrite Hc in H1.
    replace (len + tx_width x <? U16)%N with true by (symmetry; apply N.ltb_lt; lia). reflexivity.
  - destruct Hf as [Hfa Hfb]. rewrite events_app in *. destruct (narrow_app _ _ _ Hn) as (ls & l & A1 & N1 & N2 & A2).
    rewrite items_app, text_after_app, (lays_eol H).
    rewrite (IHlays1 _ cur Hfa (fits_total b Hfb Hk) (fits_items b Ha) N1 Hc).
    destruct (text_after (snd p) (items_of (events t1))); [reflexivity|]. cbn [obind orb].
    destruct (lays_pos H cur Hc) as (ls' & l' & A3 & B3). rewrite A1 in A3. apply app_inj_tail in A3 as [<- <-].
    rewrite (IHlays2 _ l Hfb Hk Ha N2 B3).
    destruct (text_after (snd p1) (items_of (events t2))); reflexivity.
  - destruct Hf as [Hfa Hfb]. rewrite (no_fail_head _ Hfa).
    destruct (picks_first w a k (len, eol)) as [f|] eqn:Ef; [|destruct (@picks_total w a k (len, eol) Hfa Hk Ef)]. cbn [obind].
    pose proof (picks_items a len eol Ha Ef) as Hp. destruct f; [|apply Hp in H; discriminate].
    eapply IHlays; eauto.
  - destruct Hf as [Hfa Hfb]. rewrite (no_fail_head _ Hfa).
    destruct (picks_first w a k (len, eol)) as [f|] eqn:Ef; [|destruct (@picks_total w a k (len, eol) Hfa Hk Ef)]. cbn [obind].
    pose proof (picks_items a len eol Ha Ef) as Hp. destruct f; [exfalso; apply H; apply Hp; reflexivity|].
    eapply IHlays; eauto.
  - destruct Hf as [_ Hf]. simpl in Hn. rewrite events_app in Hn. simpl in Hn. rewrite lines_exit in Hn.
    simpl. rewrite events_app, items_app, text_after_app. simpl. rewrite orb_false_r.
    rewrite (IHlays _ cur Hf Hk Ha Hn Hc). destruct (text_after (snd p) (items_of (events t))); reflexivity.
Qed.

(** Strict layouts have no text after EndOfLine. *)
Lemma lays_clean w j rest s p t p' : lays true w j rest s p t p' -> text_after (snd p) (items_of (events t)) = false.
Proof.
  induction 1; simpl in *; auto.
  - rewrite H; auto.
  - rewrite events_app, items_app, text_after_app, IHlays1. rewrite (lays_eol H). exact IHlays2.
  - rewrite events_app, items_app, text_after_app, IHlays. reflexivity.
Qed.

(** ** Documents *)
Lemma layout_lays w root es : layout w root = Some es -> narrow_lines (lines_of es) ->
  exists t, events t = es /\ lays_doc true w root t.
Proof.
  unfold layout. destruct root as [[j|] s]; [|discriminate].
  destruct (rend w s j look_end pos0) as [[es' p']|] eqn:Er; [|discriminate].
  intros [= <-] Hn. destruct (@rend_lays w s j look_end pos0 es' p' [] [] Er (@agrees_end w) Hn eq_refl) as (t & E & L).
  exists t. split; auto. exists j, p'. auto.
Qed.

Lemma lays_layout strict w root t : no_fail (snd root) -> lays_doc strict w root t -> narrow_lines (lines_of (events t)) ->
  layout w root = (if text_after false (items_of (events t)) then None else Some (events t)).
Proof.
  intros Hf (j & p' & Hj & L) Hn. unfold layout. destruct root as [[j0|] s]; [|discriminate]. injection Hj as ->. simpl in *.
  unfold pos0. rewrite (@lays_rend _ _ _ _ _ _ _ _ L look_end [] Hf); auto.
  - simpl. destruct (text_after false (items_of (events t))); reflexivity.
  - intros rem eol. discriminate.
  - apply agrees_end.
Qed.

End PLine.
