(** Panes show only what they ask for. *)
From Verif Require Export SpecVisible Properties10.

Set Implicit Arguments.

Section Same.
Context {pd : PrettyDoc} {env : Env} {L : Type}.
Variables (gc gc' : L -> option (D * printing_options)) (sz : size).
Hypothesis Hwin : window_size sz.
Notation pane := (pane L Sty).
Notation width_of r := (max_col r - min_col r)%N.
Notation height_of r := (max_row r - min_row r)%N.

Lemma content_same l st s lines c : looks_the_same sz (gc l) (gc' l) ->
  (s_width s <= s_width sz)%N -> (s_height s <= s_height sz)%N ->
  content_of gc l st s lines c -> content_of gc' l st s lines c.
Proof.
  intros Hl Hw Hh H. destruct H as [H|[doc o] H1 H2|doc o k ups fl downs H1 H2 H3 H4 H5 H6]; rewrite ?H, ?H1 in Hl.
  - apply content_missing. destruct (gc' l) as [[]|]; [destruct Hl|reflexivity].
  - destruct (gc' l) as [[doc' o']|] eqn:E; [|destruct Hl]. eapply content_no_space; eauto.
  - destruct (gc' l) as [[doc' o']|] eqn:E; [|destruct Hl]. destruct Hl as [-> Hl].
    eapply content_printed; eauto. apply Hl; auto; lia.
Qed.

Lemma needs_same need less st ps av ns :
  (forall av n, s_width (less av n) <= s_width av)%N -> (forall av n, s_height (less av n) <= s_height av)%N ->
  (forall l k p, In (k, p) ps -> label_in l p -> looks_the_same sz (gc l) (gc' l)) ->
  (s_width av <= s_width sz)%N -> (s_height av <= s_height sz)%N ->
  needs gc need less st ps av ns -> needs gc' need less st ps av ns.
Proof.
  intros M1 M2 Hl Hw Hh H. induction H as [av|k p ps av cs Hk H IH|p ps av l st' lines c cs Hd Hc Hf H IH].
  - constructor.
  - apply needs_other; auto. apply IH; auto. intros l' k' p' Hin. apply (Hl l' k' p'). right. exact Hin.
  - eapply needs_dynamic; eauto.
    + apply content_same; auto. apply (Hl l Dynamic p); [left; reflexivity|]. clear - Hd. induction Hd; constructor; auto.
    + apply IH; [intros l' k' p' Hin; apply (Hl l' k' p'); right; exact Hin| |].
      * eapply N.le_trans; [apply M1|exact Hw].
      * eapply N.le_trans; [apply M2|exact Hh].
Qed.

Lemma shows_same : forall p st r calls, sane sz p -> rect_in sz r ->
  (forall l, label_in l p -> looks_the_same sz (gc l) (gc' l)) ->
  pane_shows gc p st r calls -> pane_shows gc' p st r calls.
Proof.
  induction p as [ps IH|ps IH|l|ch|s p IH] using pane_ind'; intros st r calls Hs Hr Hl H.
  - inversion H as [| | | |? ? ? ns widths parts H1 H2 [H3 H4]|]; subst. inversion Hs as [? Hs'| | | |]; subst. inversion Hs' as [? S1 S2 S3 Hkids]; subst.
    pose proof (rect_in_ok Hwin Hr) as (R1 & R2 & R3 & R4). pose proof (after_fixed_le (width_of r) (map fst ps)) as Haf.
    eapply shows_horz; [|exact H2|].
    { eapply needs_same; [| | | | |exact H1]; try (intros; simpl; lia).
      - intros l k p Hin Hlp. apply Hl. eapply label_horz; eauto.
      - destruct Hr as [_ Hr]. simpl. lia.
      - destruct Hr as [Hr _]. simpl. lia. }
    split; auto. intros i k p part Hi Hp. destruct (H4 i k p part Hi Hp) as [A B]. split; auto.
    intros Hk. pose proof (nth_error_In _ _ Hi) as Hin. eapply IH; eauto.
    2:{ intros l Hlp. apply Hl. eapply label_horz; eauto. }
    rewrite <- offset_slice_h. pose proof (offset_bound (min_col r) widths i). pose proof (offset_bound (min_col r) widths (S i)).
    assert (total widths <= width_of r)%N.
    { assert (Hlt : (U16 < USIZE)%N) by reflexivity.
      assert (Wle : (width_of r <= N.max (s_width sz) (s_height sz))%N) by (destruct Hr; lia).
      assert (Hneeds := fun a b => @horz_needs_spec pd env unit sz L gc st ps _ ns a b H1). destruct Hneeds as (T1 & _); [simpl; lia|simpl; lia|]. simpl in T1.
      assert (Hmul : (width_of r * weight_total (map fst ps) < USIZE)%N) by (eapply N.le_lt_trans; [apply N.mul_le_mono_r; exact Wle|exact S2]).
      destruct (@divvy_ok unit false (width_of r) (map fst ps) (map fst ns) widths) as (_ & D2 & _); auto; lia. }
    pose proof Hr as [Hr1 Hr2]. apply hslice_ok; auto; try lia; apply offset_mono.
  - inversion H as [| | | | |? ? ? ns heights parts H1 H2 [H3 H4]]; subst. inversion Hs as [|? Hs'| | |]; subst. inversion Hs' as [? S1 S2 S3 Hkids]; subst.
    pose proof (rect_in_ok Hwin Hr) as (R1 & R2 & R3 & R4). pose proof (after_fixed_le (height_of r) (map fst ps)) as Haf.
    eapply shows_vert; [|exact H2|].
    { eapply needs_same; [| | | | |exact H1]; try (intros; simpl; lia).
      - intros l k p Hin Hlp. apply Hl. eapply label_vert; eauto.
      - destruct Hr as [_ Hr]. simpl. lia.
      - destruct Hr as [Hr _]. simpl. lia. }
    split; auto. intros i k p part Hi Hp. destruct (H4 i k p part Hi Hp) as [A B]. split; auto.
    intros Hk. pose proof (nth_error_In _ _ Hi) as Hin. eapply IH; eauto.
    2:{ intros l Hlp. apply Hl. eapply label_vert; eauto. }
    rewrite <- offset_slice_v. pose proof (offset_bound (min_row r) heights i). pose proof (offset_bound (min_row r) heights (S i)).
    assert (total heights <= height_of r)%N.
    { assert (Hlt : (U32 < USIZE)%N) by reflexivity.
      assert (Wle : (height_of r <= N.max (s_width sz) (s_height sz))%N) by (destruct Hr; lia).
      assert (Hneeds := fun a => @vert_needs_spec pd env unit sz L gc st ps _ ns a H1). destruct Hneeds as (T1 & _); [simpl; lia|]. simpl in T1.
      assert (Hmul : (height_of r * weight_total (map fst ps) < USIZE)%N) by (eapply N.le_lt_trans; [apply N.mul_le_mono_r; exact Wle|exact S2]).
      destruct (@divvy_ok unit false (height_of r) (map fst ps) (map fst ns) heights) as (_ & D2 & _); auto; lia. }
    pose proof Hr as [Hr1 Hr2]. apply vslice_ok; auto; try lia; apply offset_mono.
  - specialize (Hl l (label_here l)). inversion H as [|? ? ? E|? ? ? d lines c ? E Hc Hin| | |]; subst.
    + apply shows_no_doc. rewrite E in Hl. destruct (gc' l) as [[]|]; [destruct Hl|reflexivity].
    + destruct (gc' l) as [d'|] eqn:E'.
      2:{ rewrite E in Hl. destruct d; destruct Hl. }
      eapply shows_doc; [exact E'| |exact Hin]. eapply content_same; [rewrite E'; exact Hl| | |exact Hc].
      * destruct Hr as [_ Hr]. simpl. lia.
      * destruct Hr as [Hr _]. simpl. lia.
  - inversion H; subst. constructor; auto.
  - inversion H; subst. inversion Hs; subst. constructor. apply IH; auto. intros l Hlp. apply Hl. constructor; auto.
Qed.

End Same.
