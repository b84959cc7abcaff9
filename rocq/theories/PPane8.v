(** Displaying a pane succeeds. *)
From Verif Require Export PPane7 SpecPane2.

Set Implicit Arguments.

Lemma choose_list {A} (P : nat -> A -> Prop) k :
  (forall i, i < k -> exists a, P i a) ->
  exists l, length l = k /\ forall i a, nth_error l i = Some a -> P i a.
Proof.
  intros H. assert (X : forall n j, j + n = k -> exists l, length l = n /\ forall i a, nth_error l i = Some a -> P (j + i) a).
  { induction n as [|n IH]; intros j Hj; [exists []; split; auto; intros [|i]; discriminate|].
    destruct (IH (S j)) as (l & L1 & L2); [lia|]. destruct (H j) as (a & Ha); [lia|]. exists (a :: l). split; [simpl; lia|].
    intros [|i] b Hb; [injection Hb as <-; replace (j + 0) with j by lia; exact Ha|]. replace (j + S i) with (S j + i) by lia. apply L2. exact Hb. }
  destruct (X k 0 eq_refl) as (l & L1 & L2). exists l. split; auto.
Qed.

Section Success.
Context {pd : PrettyDoc} {env : Env} {sz : size} {L : Type}.
Variable get_content : L -> option (D * printing_options).
Notation pane := (pane L Sty).
Notation width_of r := (max_col r - min_col r)%N.
Notation height_of r := (max_row r - min_row r)%N.
Hypothesis Hwin : window_size sz.
Hypothesis Hhigh : (s_height sz <= 2 ^ 24)%N.

Definition prints_label (l : L) : Prop :=
  forall doc o, get_content l = Some (doc, o) -> height_ok (o_focus_height o) /\ prints_visible sz doc o.

Lemma prints_all_visible doc o : prints_in_window sz doc o -> prints_visible sz doc o.
Proof.
  intros H w st ku kd Hw _. destruct (H w st Hw) as (ups & fl & downs & P1 & P2 & P3).
  exists ups, fl, downs. split; [apply printed_in_part; exact P1|]. split; [|exact P3].
  apply Forall_app in P2 as [P2 P2']. inversion P2' as [|? ? P4 P5]; subst.
  assert (F : forall A (P : A -> Prop) n l, Forall P l -> Forall P (firstn n l)).
  { intros A P n l Hf. revert n. induction Hf; intros [|n]; simpl; auto. }
  apply Forall_app. split; [auto|]. constructor; auto.
Qed.

Definition focus_ok (c : content) : Prop :=
  match c_focus c with Some p => (p_row p < s_height sz)%N /\ (p_col p + s_width sz < U16)%N | None => True end.

Lemma Forall_firstn' {A} (P : A -> Prop) n l : Forall P l -> Forall P (firstn n l).
Proof. revert n. induction l as [|x l IH]; intros [|n] H; simpl; auto. inversion H; subst. constructor; auto. Qed.

Lemma content_made l st s : prints_label l -> (s_width s <= s_width sz)%N -> (s_height s <= s_height sz)%N ->
  exists lines c, content_of get_content l st s lines c /\ Forall (fun l => total (map seg_width l) < U16)%N lines /\ focus_ok c.
Proof.
  intros Hp Hw Hh. destruct (get_content l) as [[doc o]|] eqn:E.
  2:{ do 2 eexists. split; [apply content_missing; exact E|]. split; [constructor|exact I]. }
  destruct (Hp _ _ E) as [H1 H2].
  destruct (N.eq_dec (s_width s) 0) as [Ew|Ew]; [do 2 eexists; split; [eapply content_no_space; eauto|split; [constructor|exact I]]|].
  destruct (N.eq_dec (s_height s) 0) as [Eh|Eh]; [do 2 eexists; split; [eapply content_no_space; eauto|split; [constructor|exact I]]|].
  destruct (@focus_row_spec pd env (perr Er) o (s_height s)) as (k & K1 & K2 & _); auto; [lia|].
  destruct (H2 (s_width s) st (N.to_nat k) (N.to_nat (s_height s) - N.to_nat k - 1)) as (ups & fl & downs & P1 & P2 & P3); [lia|lia|].
  apply Forall_app in P2 as [P2 P2']. inversion P2' as [|? ? P4 P5]; subst.
  do 2 eexists. split; [eapply content_printed; eauto; [lia|intros Hf; specialize (P3 Hf); lia]|]. split.
  - unfold visible_lines. apply Forall_app. split; [apply Forall_rev; auto|]. constructor; auto. 
  - unfold focus_ok, focus_point. cbn [c_focus]. destruct (o_set_focus o); [|exact I]. specialize (P3 eq_refl). cbn [p_row p_col]. lia.
Qed.

Lemma content_in_made c r : rect_in sz r -> focus_ok c -> exists calls, content_in c r calls.
Proof.
  intros Hr Hf. apply (@content_exists pd env unit sz c r); [apply (rect_in_ok Hwin); auto|].
  unfold focus_ok in Hf. destruct (c_focus c) as [p|]; auto. destruct Hr as [R1 R2].
  change (2 ^ 24)%N with 16777216%N in Hhigh. change U32 with 4294967296%N. split; lia.
Qed.

Lemma styled_is_doc (p : pane) st : styled_doc p -> exists l st', is_doc p st l st'.
Proof.
  intros H. revert st. induction H as [l|s p H IH]; intros st; [do 2 eexists; constructor|].
  destruct (IH (style_combine st s)) as (l & st' & Hl). exists l, st'. constructor. exact Hl.
Qed.
Lemma is_doc_label (p : pane) st l st' : is_doc p st l st' -> label_in l p.
Proof. induction 1; [constructor|constructor; auto]. Qed.

Lemma needs_made need less st : (forall av n, (s_width (less av n) <= s_width av)%N /\ (s_height (less av n) <= s_height av)%N) ->
  forall ps av, (forall p, In (Dynamic, p) ps -> styled_doc p) ->
  (forall k p l, In (k, p) ps -> label_in l p -> prints_label l) ->
  (s_width av <= s_width sz)%N -> (s_height av <= s_height sz)%N ->
  exists ns, needs get_content need less st ps av ns /\ Forall (fun n => focus_ok (snd n)) ns.
Proof.
  intros Hless. induction ps as [|[k p] ps IH]; intros av Hd Hl Hw Hh; [exists []; split; constructor|].
  assert (Hd' : forall p, In (Dynamic, p) ps -> styled_doc p) by (intros; apply Hd; right; auto).
  assert (Hl' : forall k p l, In (k, p) ps -> label_in l p -> prints_label l) by (intros; eapply Hl; [right; eauto|auto]).
  assert (Hother : k <> Dynamic -> exists ns, needs get_content need less st ((k, p) :: ps) av ns /\ Forall (fun n => focus_ok (snd n)) ns).
  { intros Hk. destruct (IH av Hd' Hl' Hw Hh) as (ns & N1 & N2). exists ns. split; auto. constructor; auto. }
  destruct k; [apply Hother; discriminate| |apply Hother; discriminate].
  destruct (@styled_is_doc p st) as (l & st' & Hdoc); [apply Hd; left; auto|].
  destruct (@content_made l st' av) as (lines & c & C1 & C2 & C3); auto; [eapply Hl; [left; eauto|eapply is_doc_label; eauto]|].
  destruct (Hless av (need av lines)) as [Q1 Q2].
  destruct (IH (less av (need av lines)) Hd' Hl') as (ns & N1 & N2); [lia|lia|].
  exists ((need av lines, c) :: ns). split; [eapply needs_dynamic; eauto|constructor; auto].
Qed.

Lemma fill_made ch st r : rect_in sz r -> exists rows, shows_chars r (fun _ => repeat (ch, st) (N.to_nat (width_of r))) st rows.
Proof.
  intros Hr.
  destruct (@content_exists pd env unit sz (Content (fun _ => [Segment (repeat ch (N.to_nat (width_of r))) 0 st]) st None) r) as (calls & rows & H & _);
    [apply (rect_in_ok Hwin); auto|exact I|].
  exists rows. destruct H as [H1 H2]. split; auto. intros i row Hi. specialize (H2 _ _ Hi). cbn [c_lines c_style] in H2.
  unfold styled_chars in H2. cbn [flat_map seg_str seg_style] in H2. rewrite app_nil_r in H2.
  assert (E : map (fun c => (c, st)) (repeat ch (N.to_nat (width_of r))) = repeat (ch, st) (N.to_nat (width_of r))).
  { clear. induction (N.to_nat (width_of r)) as [|n IHn]; simpl; [reflexivity|]. f_equal. exact IHn. }
  rewrite E in H2. exact H2.
Qed.

Lemma shows_complete : forall p st r, sane sz p -> well_made p -> (forall l, label_in l p -> prints_label l) -> rect_in sz r ->
  exists calls, pane_shows get_content p st r calls.
Proof.
  induction p as [ps IH|ps IH|l|ch|s p IH] using pane_ind'; intros st r Hs Hm Hl Hr.
  - inversion Hs as [? Hs'| | | |]; subst. inversion Hs' as [? S1 S2 S3 Hkids]; subst. inversion Hm as [? (M1 & M2 & M3)| | | |]; subst.
    pose proof (rect_in_ok Hwin Hr) as (R1 & R2 & R3 & R4). pose proof Hr as [Hr1 Hr2]. pose proof (after_fixed_le (width_of r) (map fst ps)) as Haf.
    destruct (@needs_made widest less_wide st) with (ps := ps) (av := Size (after_fixed (width_of r) (map fst ps)) (height_of r)) as (ns & N1 & N2); auto.
    { intros; simpl; lia. } { intros; apply Hl; eapply label_horz; eauto. } { simpl; lia. } { simpl; lia. }
    assert (Hneeds := fun a b => @horz_needs_spec pd env unit sz L get_content st ps _ ns a b N1). destruct Hneeds as (T1 & _); [simpl; lia|simpl; lia|]. cbn [s_width] in T1.
    assert (Hlt : (U16 < USIZE)%N) by reflexivity.
    assert (Hmul : (width_of r * weight_total (map fst ps) < USIZE)%N) by (eapply N.le_lt_trans; [apply N.mul_le_mono_r with (m := N.max (s_width sz) (s_height sz)); lia|exact S2]).
    assert (Hdiv : divisible (width_of r) (map fst ps)).
    { split; [lia|]. split; [exact Hmul|]. split; [exact S1|]. intros (h & Hin). apply in_map_iff in Hin as ([k p] & E & Hin). simpl in E. subst k. eapply M2; eauto. }
    assert (Hlen : length (map fst ns) = dynamic_count (map fst ps)) by (rewrite map_length; eapply needs_len; exact N1).
    destruct (@divvy_spec unit false _ _ _ Hdiv Hlen T1) as (widths & D & D2 & _).
    assert (Hslice : forall i, rect_in sz (column_slice r widths i)).
    { intros i. rewrite <- offset_slice_h. pose proof (offset_bound (min_col r) widths i). pose proof (offset_bound (min_col r) widths (S i)).
      apply hslice_ok; auto; try lia. apply offset_mono. }
    destruct (@choose_list (list (call Sty)) (fun i part => forall k p, nth_error ps i = Some (k, p) ->
      (k = Dynamic -> exists n c, nth_error ns (dynamic_count (map fst (firstn i ps))) = Some (n, c) /\ content_in c (column_slice r widths i) part) /\
      (k <> Dynamic -> pane_shows get_content p st (column_slice r widths i) part)) (length ps)) as (parts & P1 & P2).
    { intros i Hi. destruct (nth_error ps i) as [[k p]|] eqn:Ei; [|apply nth_error_None in Ei; lia].
      pose proof (nth_error_In _ _ Ei) as Hin.
      assert (Hk : {k = Dynamic} + {k <> Dynamic}) by (destruct k; [right; discriminate|left; reflexivity|right; discriminate]).
      destruct Hk as [->|Hk].
      - destruct (nth_error ns (dynamic_count (map fst (firstn i ps)))) as [[n c]|] eqn:En.
        + destruct (@content_in_made c (column_slice r widths i)) as (part & Hpart); auto.
          { apply nth_error_In in En. rewrite Forall_forall in N2. apply (N2 _ En). }
          exists part. intros k' p' [= <- <-]. split; [eauto|congruence].
        + exfalso. apply nth_error_None in En. rewrite map_length in Hlen. rewrite Hlen in En.
          assert (X : forall (l : list (pane_size * pane)) j q, nth_error l j = Some (Dynamic, q) -> dynamic_count (map fst (firstn j l)) < dynamic_count (map fst l)).
          { induction l as [|[k0 p0] l IHl]; intros [|j] q Hq; try discriminate; simpl in *.
            - injection Hq as -> ->. lia.
            - specialize (IHl _ _ Hq). destruct k0; lia. }
          specialize (X _ _ _ Ei). lia.
      - destruct (IH _ _ Hin st (column_slice r widths i)) as (part & Hpart); eauto.
        { intros l Hlab. apply Hl. eapply label_horz; eauto. }
        exists part. intros k' p' [= <- <-]. split; [congruence|auto]. }
    exists (concat parts). eapply shows_horz; [exact N1|exact D|]. split; [exact P1|].
    intros i k p part Hi Hp. apply (P2 _ _ Hp _ _ Hi).
  - inversion Hs as [|? Hs'| | |]; subst. inversion Hs' as [? S1 S2 S3 Hkids]; subst. inversion Hm as [|? (M1 & M2 & M3)| | |]; subst.
    pose proof (rect_in_ok Hwin Hr) as (R1 & R2 & R3 & R4). pose proof Hr as [Hr1 Hr2]. pose proof (after_fixed_le (height_of r) (map fst ps)) as Haf.
    destruct (@needs_made how_many less_high st) with (ps := ps) (av := Size (width_of r) (after_fixed (height_of r) (map fst ps))) as (ns & N1 & N2); auto.
    { intros; simpl; lia. } { intros; apply Hl; eapply label_vert; eauto. } { simpl; lia. } { simpl; lia. }
    assert (Hneeds := fun a => @vert_needs_spec pd env unit sz L get_content st ps _ ns a N1). destruct Hneeds as (T1 & _); [simpl; lia|]. cbn [s_height] in T1.
    assert (Hlt : (U32 < USIZE)%N) by reflexivity.
    assert (Hmul : (height_of r * weight_total (map fst ps) < USIZE)%N) by (eapply N.le_lt_trans; [apply N.mul_le_mono_r with (m := N.max (s_width sz) (s_height sz)); lia|exact S2]).
    assert (Hdiv : divisible (height_of r) (map fst ps)).
    { split; [lia|]. split; [exact Hmul|]. split; [exact S1|]. intros (h & Hin). apply in_map_iff in Hin as ([k p] & E & Hin). simpl in E. subst k. eapply M2; eauto. }
    assert (Hlen : length (map fst ns) = dynamic_count (map fst ps)) by (rewrite map_length; eapply needs_len; exact N1).
    destruct (@divvy_spec unit false _ _ _ Hdiv Hlen T1) as (heights & D & D2 & _).
    assert (Hslice : forall i, rect_in sz (row_slice r heights i)).
    { intros i. rewrite <- offset_slice_v. pose proof (offset_bound (min_row r) heights i). pose proof (offset_bound (min_row r) heights (S i)).
      apply vslice_ok; auto; try lia. apply offset_mono. }
    destruct (@choose_list (list (call Sty)) (fun i part => forall k p, nth_error ps i = Some (k, p) ->
      (k = Dynamic -> exists n c, nth_error ns (dynamic_count (map fst (firstn i ps))) = Some (n, c) /\ content_in c (row_slice r heights i) part) /\
      (k <> Dynamic -> pane_shows get_content p st (row_slice r heights i) part)) (length ps)) as (parts & P1 & P2).
    { intros i Hi. destruct (nth_error ps i) as [[k p]|] eqn:Ei; [|apply nth_error_None in Ei; lia].
      pose proof (nth_error_In _ _ Ei) as Hin.
      assert (Hk : {k = Dynamic} + {k <> Dynamic}) by (destruct k; [right; discriminate|left; reflexivity|right; discriminate]).
      destruct Hk as [->|Hk].
      - destruct (nth_error ns (dynamic_count (map fst (firstn i ps)))) as [[n c]|] eqn:En.
        + destruct (@content_in_made c (row_slice r heights i)) as (part & Hpart); auto.
          { apply nth_error_In in En. rewrite Forall_forall in N2. apply (N2 _ En). }
          exists part. intros k' p' [= <- <-]. split; [eauto|congruence].
        + exfalso. apply nth_error_None in En. rewrite map_length in Hlen. rewrite Hlen in En.
          assert (X : forall (l : list (pane_size * pane)) j q, nth_error l j = Some (Dynamic, q) -> dynamic_count (map fst (firstn j l)) < dynamic_count (map fst l)).
          { induction l as [|[k0 p0] l IHl]; intros [|j] q Hq; try discriminate; simpl in *.
            - injection Hq as -> ->. lia.
            - specialize (IHl _ _ Hq). destruct k0; lia. }
          specialize (X _ _ _ Ei). lia.
      - destruct (IH _ _ Hin st (row_slice r heights i)) as (part & Hpart); eauto.
        { intros l Hlab. apply Hl. eapply label_vert; eauto. }
        exists part. intros k' p' [= <- <-]. split; [congruence|auto]. }
    exists (concat parts). eapply shows_vert; [exact N1|exact D|]. split; [exact P1|].
    intros i k p part Hi Hp. apply (P2 _ _ Hp _ _ Hi).
  - destruct (get_content l) as [d|] eqn:E; [|exists []; constructor; auto].
    destruct (@content_made l st (Size (width_of r) (height_of r))) as (lines & c & C1 & _ & C3).
    { apply Hl. constructor. } { destruct Hr. simpl. lia. } { destruct Hr. simpl. lia. }
    destruct (@content_in_made c r Hr C3) as (calls & Hc). exists calls. eapply shows_doc; eauto.
  - destruct (@fill_made ch st r Hr) as (rows & H). exists (concat rows). constructor. exact H.
  - inversion Hs; subst. inversion Hm; subst. destruct (IH (style_combine st s) r) as (calls & H); auto.
    { intros l Hlab. apply Hl. constructor. auto. }
    exists calls. constructor. exact H.
Qed.

End Success.
