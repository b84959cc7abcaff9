(** Lines on which a choice took its first option; documents that fit on one
    line; documents whose notations match their nodes. *)
From Verif Require Export PLine.

Set Implicit Arguments.

Definition has_nl (l : list piece) : bool := existsb (fun i => match i with INl => true | _ => false end) l.

Lemma has_nl_app a b : has_nl (a ++ b) = has_nl a || has_nl b.
Proof. apply existsb_app. Qed.

Lemma first_line_nl a b : has_nl a = true -> first_line (a ++ b) = first_line a.
Proof. induction a as [|[] a IH]; simpl; intros H; try discriminate; rewrite ?IH; auto. Qed.
Lemma first_line_app a b : has_nl a = false -> first_line (a ++ b) = a ++ first_line b.
Proof. induction a as [|[] a IH]; simpl; intros H; try discriminate; rewrite ?IH; auto. Qed.
Lemma first_line_id a : has_nl a = false -> first_line a = a.
Proof. induction a as [|[] a IH]; simpl; intros H; try discriminate; rewrite ?IH; auto. Qed.
Lemma total_app a b : total_width (a ++ b) = (total_width a + total_width b)%N.
Proof. induction a as [|[] a IH]; simpl; rewrite ?IH; lia. Qed.

Section Fit.
Context {pd : PrettyDoc} {env : Env}.

Fixpoint adv (len : N) (es : list event) : N :=
  match es with
  | [] => len
  | EText _ t :: es' => adv (len + tx_width t) es'
  | ENewline ind :: es' => adv (indent_width ind) es'
  | _ :: es' => adv len es'
  end.

Lemma adv_app es es' len : adv len (es ++ es') = adv (adv len es) es'.
Proof. revert len; induction es as [|[] es IH]; intros len; simpl; auto. Qed.

Lemma adv_flat es : forall len, has_nl (items_of es) = false -> adv len es = (len + total_width (items_of es))%N.
Proof.
  induction es as [|[] es IH]; intros len; simpl; intros H; try discriminate; rewrite ?IH; auto; lia.
Qed.

Lemma lays_adv strict w j rest s p t p' : lays strict w j rest s p t p' -> adv (fst p) (events t) = fst p'.
Proof.
  induction 1; simpl in *; auto.
  - rewrite events_app, adv_app, IHlays1. auto.
  - rewrite events_app, adv_app, IHlays. auto.
Qed.

Definition ok_from (w l : N) (i : list piece) (p' : N * bool) (rest : list piece) : Prop :=
  if has_nl i then (l + total_width (first_line i) <= w)%N else line_fits w (fst p') (snd p') rest.

Lemma ok_seq w l es1 es2 p1 p2 rest1 rest :
  adv l es1 = fst p1 -> ok_from w l (items_of es1) p1 rest1 ->
  (line_fits w (fst p1) (snd p1) rest1 -> ok_from w (fst p1) (items_of es2) p2 rest) ->
  ok_from w l (items_of (es1 ++ es2)) p2 rest.
Proof.
  intros Ha H1 H2. unfold ok_from in *. rewrite items_app, has_nl_app. destruct (has_nl (items_of es1)) eqn:E1.
  - simpl. rewrite first_line_nl; auto.
  - simpl. specialize (H2 H1). rewrite (adv_flat _ _ E1) in Ha. destruct (has_nl (items_of es2)); auto.
    rewrite first_line_app, total_app; auto. lia.
Qed.

Lemma fits_kept strict w j rest s p t p' : lays strict w j rest s p t p' ->
  line_fits w (fst p) (snd p) (seconds s ++ rest) -> ok_from w (fst p) (items_of (events t)) p' rest.
Proof.
  induction 1; intros Hf; unfold ok_from; simpl in *; auto.
  - rewrite N.add_0_r. apply fits_nl in Hf. exact Hf.
  - apply fits_txt in Hf as [-> Hf]. exact Hf.
  - rewrite events_app. eapply ok_seq.
    + eapply lays_adv; eauto.
    + apply IHlays1. rewrite app_assoc. exact Hf.
    + exact IHlays2.
  - apply IHlays. exact H.
  - apply IHlays. exact Hf.
  - rewrite events_app, items_app. simpl. rewrite app_nil_r. apply IHlays. exact Hf.
Qed.

Lemma first_fits strict w j rest s p t p' : lays strict w j rest s p t p' ->
  forall a b, t = a ++ First :: b -> ok_from w (adv (fst p) (events a)) (items_of (events b)) p' rest.
Proof.
  induction 1; intros u y E; try (destruct u as [|? [|]]; discriminate).
  - apply app_eq_app in E as (l & [[E1 E2]|[E1 E2]]).
    + destruct l as [|m l].
      * rewrite app_nil_r in E1. simpl in E2. subst u.
        pose proof (IHlays2 [] y (eq_sym E2)) as H2. simpl in H2. rewrite (lays_adv H). exact H2.
      * injection E2 as <- ->. subst t1. rewrite events_app. eapply ok_seq.
        -- pose proof (lays_adv H) as A. rewrite events_app, adv_app in A. exact A.
        -- apply IHlays1. reflexivity.
        -- intros F. apply (fits_kept H0 F).
    + subst u. rewrite events_app, adv_app, (lays_adv H). apply IHlays2. exact E2.
  - destruct u as [|m u].
    + injection E as <-. exact (fits_kept H0 H).
    + injection E as <- ->. apply (IHlays u y eq_refl).
  - apply IHlays. exact E.
  - destruct u as [|m u]; [discriminate|]. injection E as <- E.
    destruct y as [|m' y] using rev_ind.
    { apply app_inj_tail in E as [_ E]. discriminate. }
    clear IHy. rewrite app_comm_cons, app_assoc in E. apply app_inj_tail in E as [E <-].
    simpl. rewrite events_app, items_app. simpl. rewrite app_nil_r. apply IHlays. exact E.
Qed.

Lemma last_adv es cur ls l : lines_from cur es = ls ++ [l] -> sumw l = adv (sumw cur) es.
Proof.
  revert cur ls. induction es as [|[] es IH]; intros cur ls; simpl; intros H; eauto.
  - destruct ls as [|x [|]]; [|discriminate..]. injection H as ->. reflexivity.
  - apply IH in H. rewrite H, sumw_app. unfold sumw at 2. simpl. rewrite N.add_0_r. reflexivity.
  - destruct ls as [|x ls].
    + injection H as H1 H2. destruct (lines_first_ge es (rev ind)) as (l' & ls' & E & _). rewrite E in H2. discriminate.
    + injection H as <- H. apply IH in H. exact H.
Qed.

Lemma first_width es cur l ls : lines_from cur es = l :: ls -> sumw l = (sumw cur + total_width (first_line (items_of es)))%N.
Proof.
  revert cur. induction es as [|[] es IH]; intros cur; simpl; intros H; eauto.
  - injection H as <- <-. lia.
  - apply IH in H. rewrite H, sumw_app. unfold sumw at 2. simpl. lia.
  - injection H as <- _. lia.
Qed.

(** A line on which a choice took its first option fits. *)
Lemma first_line_ok strict w root t a b ls l r ls' :
  lays_doc strict w root t -> t = a ++ First :: b ->
  lines_of (events a) = ls ++ [l] -> lines_of (events b) = r :: ls' -> (exact_width (l ++ r) <= w)%N.
Proof.
  intros (j & p' & _ & L) E Ha Hb. pose proof (first_fits L _ _ E) as H.
  change (exact_width (l ++ r)) with (sumw (l ++ r)). unfold lines_of in *.
  rewrite sumw_app, (@last_adv _ _ _ _ Ha), (@first_width _ _ _ _ Hb).
  change (sumw []) with 0%N. simpl in H. unfold ok_from in H.
  destruct (has_nl (items_of (events b))) eqn:En; [simpl in *; lia|].
  apply fits_le in H. pose proof (lays_adv L) as A. subst t. rewrite events_app, adv_app in A. simpl in A.
  rewrite (adv_flat _ _ En) in A. rewrite first_line_id; auto. lia.
Qed.

(** ** One line *)
Record shorter (l m : list piece) : Prop := {
  sh_width : (total_width (first_line l) <= total_width m)%N;
  sh_text : forall eol, text_after eol m = false -> text_after eol (first_line l) = false;
  sh_eol : has_nl l = false -> forall eol, eol_after eol l = true -> eol_after eol m = true }.

Lemma text_after_mono l : text_after true l = false -> forall eol, text_after eol l = false.
Proof.
  induction l as [|[] l IH]; simpl; auto. discriminate.
Qed.

Lemma text_after_le e1 e2 l : (e1 = true -> e2 = true) -> text_after e2 l = false -> text_after e1 l = false.
Proof. destruct e1, e2; intros H; auto; try (specialize (H eq_refl); discriminate). intros H1. apply (text_after_mono _ H1). Qed.

Lemma shorter_refl l : has_nl l = false -> shorter l l.
Proof. intros H. split; rewrite ?first_line_id; auto. lia. Qed.

Lemma shorter_app a b a' b' : has_nl a' = false -> shorter a a' -> shorter b b' -> shorter (a ++ b) (a' ++ b').
Proof.
  intros Hn [A1 A2 A3] [B1 B2 B3]. destruct (has_nl a) eqn:E.
  - split.
    + rewrite first_line_nl, total_app; auto. lia.
    + intros eol. rewrite text_after_app, first_line_nl; auto. intros H. apply orb_false_iff in H as [H _]. auto.
    + rewrite has_nl_app, E. discriminate.
  - rewrite (first_line_id _ E) in A1, A2. split.
    + rewrite first_line_app, !total_app; auto. lia.
    + intros eol. rewrite first_line_app, !text_after_app; auto. intros H. apply orb_false_iff in H as [H1 H2].
      apply orb_false_iff. split; auto. apply B2. eapply text_after_le; [|exact H2]. auto.
    + rewrite has_nl_app, E. simpl. intros H eol. rewrite !eol_after_app. intros H1. apply B3 in H1; auto.
      destruct (eol_after eol a) eqn:Ea; [rewrite (A3 eq_refl _ Ea); exact H1|].
      destruct (eol_after eol a'); auto. clear -H1.
      assert (G : forall l, eol_after false l = true -> eol_after true l = true).
      { induction l as [|[] l IH]; simpl; auto. }
      auto.
Qed.

Lemma text_free l : ~ In IEol (first_line l) -> text_after false (first_line l) = false.
Proof.
  induction l as [|[] l IH]; simpl; auto. intros H. exfalso. auto.
Qed.
Lemma text_none eol l : (forall x, ~ In (ITxt x) l) -> text_after eol l = false.
Proof.
  revert eol; induction l as [|[] l IH]; intros eol H; simpl; auto.
  - destruct (H w). left. reflexivity.
  - apply IH. intros x Hx. apply (H x). right. exact Hx.
  - apply IH. intros x Hx. apply (H x). right. exact Hx.
Qed.
Lemma text_some l : text_after true l = false -> has_nl l = false -> forall x, ~ In (ITxt x) l.
Proof.
  induction l as [|[] l IH]; simpl; auto; try discriminate.
  intros H Hn x [E|E]; [discriminate|]. apply (IH H Hn x E).
Qed.
Lemma eol_none l : has_nl l = false -> ~ In IEol l -> forall eol, eol_after eol l = eol.
Proof.
  induction l as [|[] l IH]; simpl; auto; try discriminate. intros _ H. exfalso. auto.
Qed.

Lemma eol_keeps l : has_nl l = false -> eol_after true l = true.
Proof. induction l as [|[] l IH]; simpl; auto; try discriminate. Qed.

Lemma narrowing_shorter s : narrowing s -> has_nl (firsts s) = false -> shorter (seconds s) (firsts s).
Proof.
  induction s as [f| | |ind|t|a IHa b IHb|a IHa b IHb|n i s IH|]; cbn [narrowing firsts seconds]; intros Hw Hn;
    try (apply shorter_refl; auto; fail).
  - rewrite has_nl_app in Hn. apply orb_false_iff in Hn as [H1 H2]. destruct Hw. apply shorter_app; auto.
  - destruct Hw as (Ha & Hb & H1 & H2 & H3). split; auto.
    + intros eol He. destruct eol; [|apply text_free; auto]. apply text_none. intros x Hx.
      destruct (H3 x Hx) as (y & Hy). eapply (@text_some (firsts a)); eauto.
    + intros Hb0 eol. rewrite (first_line_id _ Hb0) in H2. rewrite eol_none; auto. intros ->. apply eol_keeps. auto.
  - auto.
Qed.

Lemma one_line w s : forall j rest rest1 len eol,
  no_fail s -> narrowing s -> has_nl (firsts s) = false -> shorter rest rest1 ->
  (len + total_width (firsts s) + total_width rest1 <= w)%N -> text_after eol (firsts s ++ rest1) = false ->
  exists t, events t = first_events j s /\
    lays true w j rest s (len, eol) t ((len + total_width (firsts s))%N, eol_after eol (firsts s)).
Proof.
  induction s as [f| | |ind|t|a IHa b IHb|a IHa b IHb|n i s IH|]; intros j rest rest1 len eol;
    cbn [narrowing firsts first_events]; intros Hf Hw Hn Hr Hl Ht; cbn [total_width eol_after]; rewrite ?N.add_0_r.
  - destruct Hf.
  - exists []. split; auto. constructor.
  - exists [Ev EEol]. split; auto. constructor.
  - discriminate.
  - exists [Ev (EText j t)]. split; auto. constructor. simpl in Ht. apply orb_false_iff in Ht as [-> _]. auto.
  - rewrite has_nl_app in Hn. apply orb_false_iff in Hn as [H1 H2]. destruct Hf as [Hfa Hfb], Hw as [Hwa Hwb].
    rewrite total_app in *. rewrite <- app_assoc in Ht.
    destruct (IHa j (seconds b ++ rest) (firsts b ++ rest1) len eol) as (t1 & E1 & L1); auto.
    { apply shorter_app; auto. apply narrowing_shorter; auto. }
    { rewrite total_app. lia. }
    destruct (IHb j rest rest1 (len + total_width (firsts a))%N (eol_after eol (firsts a))) as (t2 & E2 & L2); auto.
    { lia. }
    { rewrite text_after_app in Ht. apply orb_false_iff in Ht as [_ Ht]. exact Ht. }
    exists (t1 ++ t2). rewrite events_app, E1, E2. split; auto. rewrite eol_after_app, N.add_assoc. econstructor; eauto.
  - destruct Hf as [Hfa Hfb], Hw as (Hwa & Hwb & H1 & H2 & H3).
    destruct (IHa j rest rest1 len eol) as (t & E & L); auto. exists (First :: t). split; auto. apply L_first; auto.
    pose proof (shorter_app Hn (narrowing_shorter _ Hwa Hn) Hr) as [S1 S2 _]. rewrite total_app in S1. split; [lia|auto].
  - destruct i as [j'|f]; [|destruct Hf as [[] _]]. destruct Hf as [_ Hf].
    destruct (IH j' rest rest1 len eol) as (t & E & L); auto.
    exists (Ev (EEnter j n) :: t ++ [Ev (EExit j n)]). split; [simpl; rewrite events_app, E; auto|]. constructor. exact L.
  - exists [Ev (EMark j)]. split; auto. constructor.
Qed.

(** ** Matched documents *)
Lemma origins_no_fail root st s : matched root -> forall q, origins root st q s ->
  allf (fun f => exists e, f = FErr e) s -> no_fail s.
Proof.
  intros Hm. induction s as [f| | |ind|t|a IHa b IHb|a IHa b IHb|n i s IH|]; intros q Ho Ha; simpl; auto.
  - simpl in Ho, Ha. destruct Ha as (e & ->). destruct Ho as (fs & x & o & n & _ & Hr & [(e' & H1 & [= <-])|(p & H)]); [|discriminate].
    rewrite (Hm _ _ _ _ Hr) in H1. discriminate.
  - simpl in *. destruct Ho, Ha. split; eauto.
  - simpl in *. destruct Ho as (_ & ? & ?), Ha. split; eauto.
  - destruct Ho as ((j & ->) & _ & Ho), Ha as [_ Ha]. split; auto. eapply IH; eauto.
Qed.

Lemma matched_no_fail r st : valid_doc r -> matched r -> no_fail (snd (doc_shape r st)).
Proof.
  intros Hv Hm. apply (@origins_no_fail r st _ Hm []); [apply root_origins|].
  refine (@elab_closed _ _ (fun _ _ s => allf (fun f => exists e, f = FErr e) s) (fun _ => True) _ _ _ _ _ _ _ _ _ _ _ _ r Hv [] _ I); simpl; eauto.
Qed.

End Fit.
