(** The meaning of pane notations is what is displayed. *)
From Verif Require Export PPane6 Properties9.

Set Implicit Arguments.

(** ** Dividing space does not depend on the build *)
Lemma divvy_any {X1 X2} o1 o2 available sizes dyn al :
  divisible available sizes -> length dyn = dynamic_count sizes -> (total dyn <= after_fixed available sizes)%N ->
  divvy (X := X1) o1 available sizes dyn = Ok al -> divvy (X := X2) o2 available sizes dyn = Ok al.
Proof.
  intros H1 H2 H3 E1.
  destruct (@divvy_spec X1 o1 _ _ _ H1 H2 H3) as (al1 & A1 & _ & _ & _ & A2). rewrite E1 in A1. injection A1 as <-.
  destruct (@divvy_spec X2 o2 _ _ _ H1 H2 H3) as (al2 & B1 & _ & _ & _ & B2). rewrite B1. f_equal.
  destruct (@give_ok X1 o1 _ _ _ _ E1) as (L1 & F1 & D1 & _). destruct (@give_ok X2 o2 _ _ _ _ B1) as (L2 & F2 & D2 & _).
  apply nth_ext_error. intros i. destruct (nth_error sizes i) as [[k| |h]|] eqn:Es.
  - rewrite (F1 _ _ Es), (F2 _ _ Es). reflexivity.
  - rewrite (D1 _ Es), (D2 _ Es). reflexivity.
  - destruct (A2 _ _ Es) as [A3 A4]. destruct (B2 _ _ Es) as [B3 B4].
    destruct (in_dec Nat.eq_dec (prop_index sizes i) (extra (after_dynamic available sizes dyn) (weights sizes))) as [Hin|Hin].
    + rewrite A3, B3 by auto. reflexivity.
    + rewrite A4, B4 by auto. reflexivity.
  - apply nth_error_None in Es. rewrite (proj2 (nth_error_None al i)), (proj2 (nth_error_None al2 i)) by lia. reflexivity.
Qed.

(** A common bound. *)
Lemma common_bound (P : nat -> nat -> Prop) k :
  (forall i, i < k -> exists N, forall n, N <= n -> P i n) ->
  exists N, forall n, N <= n -> forall i, i < k -> P i n.
Proof.
  induction k as [|k IH]; intros H; [exists 0; lia|].
  destruct IH as (N1 & H1); [intros; apply H; lia|]. destruct (H k) as (N2 & H2); [lia|].
  exists (N1 + N2). intros n Hn i Hi. destruct (Nat.eq_dec i k) as [->|]; [apply H2; lia|apply H1; lia].
Qed.

Section Docs.
Context {pd : PrettyDoc} {env : Env} {WE : Type} {sz : size}.
Local Instance rwin7 : PrettyWindow Sty := recorder Sty WE sz.
Local Notation emits := (@PPane.emits pd WE sz _).
Local Notation M := (@Pane.M pd rwin7).
Context {L : Type}.
Variable get_content : L -> option (D * printing_options).
Notation pane := (pane L Sty).
Notation width_of r := (max_col r - min_col r)%N.
Notation height_of r := (max_row r - min_row r)%N.

(** ** The loop over the subpanes *)
Section Kids.
Variables (m : N) (fuel : nat) (draw : pane -> rectangle -> M unit) (slice : N -> N -> rectangle) (addm : N -> N -> res (pane_err WE Er) N).
Variable hi : N.
Hypothesis Hm : (hi < m)%N.
Hypothesis Hadd : forall a b, (a + b < m)%N -> addm a b = Ok (a + b)%N.

Lemma kids_all : forall ps widths docs at_ parts,
  length widths = length ps -> (at_ + total widths <= hi)%N -> length parts = length ps ->
  (forall i part, nth_error parts i = Some part ->
     part_of fuel draw ps docs i (slice (offset at_ widths i) (offset at_ widths (S i))) part (Ok tt)) ->
  emits (kids m fuel draw slice addm ps widths docs at_) (concat parts) (Ok tt).
Proof.
  induction ps as [|[size child] ps IH]; intros widths docs at_ parts Hl Hhi Hp H.
  - destruct parts; [|discriminate]. apply emits_ret.
  - destruct widths as [|width widths]; [discriminate|]. destruct parts as [|part parts]; [discriminate|].
    injection Hl as Hl. injection Hp as Hp. simpl in Hhi. fold (total widths) in Hhi.
    assert (Hc : castM m width = width) by (apply N.mod_small; lia).
    assert (Ha : addm at_ (castM m width) = Ok (at_ + width)%N) by (rewrite Hc; apply Hadd; lia).
    assert (Hoff : forall i, offset at_ (width :: widths) (S i) = offset (at_ + width) widths i).
    { intros i. unfold offset. simpl. fold (total (firstn i widths)). lia. }
    assert (Hoff0 : offset at_ (width :: widths) 0 = at_) by (unfold offset; simpl; lia).
    pose proof (H 0 part eq_refl) as H0. rewrite Hoff, Hoff0 in H0. unfold offset in H0 at 1. simpl firstn in H0.
    replace (at_ + width + total [])%N with (at_ + width)%N in H0 by (simpl; lia).
    destruct H0 as (sz0 & c0 & E0 & H0). injection E0 as <- <-.
    cbn [kids concat]. eapply emits_pure_bind; [exact Ha|]. cbv zeta.
    assert (Rest : forall docs', (size = Dynamic -> exists d, docs = d :: docs') -> (size <> Dynamic -> docs' = docs) ->
      emits (kids m fuel draw slice addm ps widths docs' (at_ + width)%N) (concat parts) (Ok tt)).
    { intros docs' D1 D2. apply IH; auto; [lia|]. intros i q Hq. specialize (H (S i) q Hq). rewrite !Hoff in H.
      destruct H as (s & c & E & H). exists s, c. split; [exact E|]. destruct s; auto.
      destruct H as (doc & Hd & He). exists doc. split; auto. cbn [firstn map fst dynamic_count] in Hd.
      destruct size; [rewrite D2 by discriminate; exact Hd| |rewrite D2 by discriminate; exact Hd].
      destruct D1 as (d & ->); auto. }
    destruct size.
    + eapply emits_bind; [exact H0|]. apply Rest; [discriminate|auto].
    + destruct H0 as (doc & Hd & He). cbn [firstn map dynamic_count] in Hd. destruct docs as [|d docs]; [discriminate|].
      injection Hd as <-. eapply emits_bind; [exact He|]. apply Rest; [eauto|congruence].
    + eapply emits_bind; [exact H0|]. apply Rest; [discriminate|auto].
Qed.
End Kids.

Hypothesis Hwin : window_size sz.

(** ** Horz and Vert *)
Definition ev_emits (m : nat -> M unit) (cs : list (call Sty)) : Prop :=
  exists N, forall n, N <= n -> emits (m n) cs (Ok tt).

Lemma needs_len need less st ps av ns : needs get_content need less st ps av ns -> length ns = dynamic_count (map fst ps).
Proof. induction 1 as [|k p ps av ns Hk H IH|]; simpl; auto. destruct k; auto. congruence. Qed.

Lemma horz_ok ps st r ns widths parts : sane_split sz ps -> rect_in sz r ->
  horz_needs get_content st ps (Size (after_fixed (width_of r) (map fst ps)) (height_of r)) ns ->
  divvy (X := unit) false (width_of r) (map fst ps) (map fst ns) = Ok widths ->
  parts_shown (fun p rect => ev_emits (fun n => display_pane_rec get_content n p st rect)) (column_slice r widths) ps ns parts ->
  ev_emits (fun n => display_pane_rec get_content n (Horz ps) st r) (concat parts).
Proof.
  intros Hs Hr Hn Hd [Hl Hp]. pose proof (rect_in_ok Hwin Hr) as (R1 & R2 & R3 & R4). inversion Hs as [? S1 S2 S3 _]; subst.
  set (w := width_of r) in *.
  assert (Wle : (w <= N.max (s_width sz) (s_height sz))%N) by (unfold w; destruct Hr; lia).
  assert (Wlt : (w < U16)%N) by (unfold w; lia). assert (Hlt : (U16 < USIZE)%N) by reflexivity.
  pose proof (after_fixed_le w (map fst ps)) as Haf.
  assert (Hmul : (w * weight_total (map fst ps) < USIZE)%N) by (eapply N.le_lt_trans; [apply N.mul_le_mono_r; exact Wle|exact S2]).
  assert (Hneeds := fun a b => @horz_needs_spec pd env WE sz L get_content st ps _ ns a b Hn). destruct Hneeds as (T1 & docs & T2 & N1 & T3); [simpl; lia|simpl; lia|].
  cbn [s_width s_height] in T1, T2.
  destruct (@divvy_ok unit false w (map fst ps) (map fst ns) widths) as (D1 & D2 & D3 & D4 & D5 & D6); auto; try lia.
  rewrite map_length in D1.
  assert (Hd' : divvy (X := pane_err WE Er) ovf w (map fst ps) (map fst ns) = Ok widths) by (eapply divvy_any; eauto).
  assert (Hslice : forall i, rect_in sz (column_slice r widths i)).
  { intros i. rewrite <- offset_slice_h. pose proof (offset_bound (min_col r) widths i). pose proof (offset_bound (min_col r) widths (S i)).
    apply hslice_ok; auto; try (unfold w in *; lia). apply offset_mono. }
  assert (Hev : forall i, i < length ps -> exists N, forall n, N <= n -> forall part, nth_error parts i = Some part ->
     part_of (WE := WE) (sz := sz) n ((fun c rect => display_pane_rec get_content n c st rect) : pane -> rectangle -> M unit) ps docs i (column_slice r widths i) part (Ok tt)).
  { intros i Hi. destruct (nth_error ps i) as [[k p]|] eqn:Ei; [|apply nth_error_None in Ei; lia].
    destruct (nth_error parts i) as [part|] eqn:Ep; [|apply nth_error_None in Ep; lia].
    destruct (Hp i k p part Ei Ep) as [Hp1 Hp2].
    assert (Hother : k <> Dynamic -> exists N, forall n, N <= n -> forall part', Some part = Some part' ->
      part_of (WE := WE) (sz := sz) n ((fun c rect => display_pane_rec get_content n c st rect) : pane -> rectangle -> M unit) ps docs i (column_slice r widths i) part' (Ok tt)).
    { intros Hk. destruct (Hp2 Hk) as (N & HN). exists N. intros n Hn' part' [= <-]. exists k, p. split; auto.
      destruct k; auto; congruence. }
    destruct k; [apply Hother; discriminate| |apply Hother; discriminate].
    destruct (Hp1 eq_refl) as (wd & c & Ec & Hc).
    destruct (nth_error docs (dynamic_count (map fst (firstn i ps)))) as [doc|] eqn:Edoc.
    2:{ exfalso. apply nth_error_None in Edoc. assert (dynamic_count (map fst (firstn i ps)) < length ns) by (apply nth_error_Some; congruence).
        pose proof (Forall2_len T2). lia. }
    pose proof (Forall2_at T2 _ Edoc Ec) as Hdoc. cbn [snd] in Hdoc.
    exists (S (N.to_nat (width_of (column_slice r widths i)))). intros n Hn' part' [= <-]. exists Dynamic, p. split; auto. exists doc. split; auto.
    eapply doc_is_shown; [eapply rect_in_ok; eauto|exact Hdoc| | |exact Hc|lia]; unfold column_slice; simpl; lia. }
  destruct (common_bound _ Hev) as (N2 & H2).
  exists (N1 + N2). intros n Hn'. cbv beta. rewrite (@horz_eq pd env WE sz L get_content).
  assert (Ew : rect_width (X := pane_err WE Er) r = Ok w) by (apply sub16_exact; lia).
  assert (Eh : rect_height (X := pane_err WE Er) r = Ok (height_of r)) by (apply sub32_exact; lia).
  assert (Erem : castM U16 (remaining (divvier_new w (map fst ps))) = after_fixed w (map fst ps)).
  { destruct (PDivvy.new_spec w (map fst ps)) as (_ & _ & N3 & _). unfold remaining. rewrite N3. apply N.mod_small. lia. }
  eapply emits_pure_bind; [exact Ew|]. eapply emits_pure_bind; [exact Eh|]. rewrite Erem.
  change (concat parts) with (@nil (call Sty) ++ concat parts). eapply emits_bind; [apply T3; lia|]. cbn [fst snd].
  eapply emits_pure_bind; [exact Hd'|].
  eapply (@kids_all U16 n _ _ _ (max_col r)); [lia| |exact D1|unfold w in *; lia|exact Hl|].
  - intros a b Hab. apply add16_exact. exact Hab.
  - intros i part Hi. rewrite offset_slice_h. apply H2; [lia| |exact Hi]. rewrite <- Hl. apply nth_error_Some. congruence.
Qed.

Lemma vert_ok ps st r ns heights parts : sane_split sz ps -> rect_in sz r ->
  vert_needs get_content st ps (Size (width_of r) (after_fixed (height_of r) (map fst ps))) ns ->
  divvy (X := unit) false (height_of r) (map fst ps) (map fst ns) = Ok heights ->
  parts_shown (fun p rect => ev_emits (fun n => display_pane_rec get_content n p st rect)) (row_slice r heights) ps ns parts ->
  ev_emits (fun n => display_pane_rec get_content n (Vert ps) st r) (concat parts).
Proof.
  intros Hs Hr Hn Hd [Hl Hp]. pose proof (rect_in_ok Hwin Hr) as (R1 & R2 & R3 & R4). inversion Hs as [? S1 S2 S3 _]; subst.
  set (h := height_of r) in *.
  assert (Wle : (h <= N.max (s_width sz) (s_height sz))%N) by (unfold h; destruct Hr; lia).
  assert (Wlt : (h < U32)%N) by (unfold h; lia). assert (Hlt : (U32 < USIZE)%N) by reflexivity.
  pose proof (after_fixed_le h (map fst ps)) as Haf.
  assert (Hmul : (h * weight_total (map fst ps) < USIZE)%N) by (eapply N.le_lt_trans; [apply N.mul_le_mono_r; exact Wle|exact S2]).
  assert (Hneeds := fun a => @vert_needs_spec pd env WE sz L get_content st ps _ ns a Hn). destruct Hneeds as (T1 & docs & T2 & N1 & T3); [simpl; lia|].
  cbn [s_width s_height] in T1, T2.
  destruct (@divvy_ok unit false h (map fst ps) (map fst ns) heights) as (D1 & D2 & D3 & D4 & D5 & D6); auto; try lia.
  rewrite map_length in D1.
  assert (Hd' : divvy (X := pane_err WE Er) ovf h (map fst ps) (map fst ns) = Ok heights) by (eapply divvy_any; eauto).
  assert (Hslice : forall i, rect_in sz (row_slice r heights i)).
  { intros i. rewrite <- offset_slice_v. pose proof (offset_bound (min_row r) heights i). pose proof (offset_bound (min_row r) heights (S i)).
    apply vslice_ok; auto; try (unfold h in *; lia). apply offset_mono. }
  destruct (@give_ok _ _ _ _ _ _ Hd) as (_ & _ & Hdyn & _).
  assert (Hev : forall i, i < length ps -> exists N, forall n, N <= n -> forall part, nth_error parts i = Some part ->
     part_of (WE := WE) (sz := sz) n ((fun c rect => display_pane_rec get_content n c st rect) : pane -> rectangle -> M unit) ps docs i (row_slice r heights i) part (Ok tt)).
  { intros i Hi. destruct (nth_error ps i) as [[k p]|] eqn:Ei; [|apply nth_error_None in Ei; lia].
    destruct (nth_error parts i) as [part|] eqn:Ep; [|apply nth_error_None in Ep; lia].
    destruct (Hp i k p part Ei Ep) as [Hp1 Hp2].
    assert (Hother : k <> Dynamic -> exists N, forall n, N <= n -> forall part', Some part = Some part' ->
      part_of (WE := WE) (sz := sz) n ((fun c rect => display_pane_rec get_content n c st rect) : pane -> rectangle -> M unit) ps docs i (row_slice r heights i) part' (Ok tt)).
    { intros Hk. destruct (Hp2 Hk) as (N & HN). exists N. intros n Hn' part' [= <-]. exists k, p. split; auto.
      destruct k; auto; congruence. }
    destruct k; [apply Hother; discriminate| |apply Hother; discriminate].
    destruct (Hp1 eq_refl) as (wd & c & Ec & Hc).
    destruct (nth_error docs (dynamic_count (map fst (firstn i ps)))) as [doc|] eqn:Edoc.
    2:{ exfalso. apply nth_error_None in Edoc. assert (dynamic_count (map fst (firstn i ps)) < length ns) by (apply nth_error_Some; congruence).
        pose proof (Forall2_len T2). lia. }
    destruct (Forall2_at T2 _ Edoc Ec) as (h0 & Hdoc & Elen & Hh0). cbn [fst snd] in Hdoc, Elen.
    assert (Esl : height_of (row_slice r heights i) = wd).
    { assert (Ewd : nth_error heights i = Some wd).
      { rewrite Hdyn by (rewrite nth_error_map, Ei; reflexivity). rewrite firstn_map, nth_error_map, Ec. reflexivity. }
      unfold row_slice. cbn [min_row max_row].
      assert (Etot : total (firstn (S i) heights) = (total (firstn i heights) + wd)%N).
      { clear - Ewd. revert i Ewd. induction heights as [|x l IH]; intros [|i] H; try discriminate; simpl in *.
        - injection H as ->. lia.
        - rewrite IH by exact H. fold (total (firstn i l)). lia. }
      rewrite Etot. lia. }
    exists (S (N.to_nat (width_of (row_slice r heights i)))). intros n Hn' part' [= <-]. exists Dynamic, p. split; auto. exists doc. split; auto.
    pose proof Hdoc as (_ & _ & _ & _ & _ & _ & Hle).
    eapply doc_is_shown; [eapply rect_in_ok; eauto|exact Hdoc| | |exact Hc|lia]; lia. }
  destruct (common_bound _ Hev) as (N2 & H2).
  exists (N1 + N2). intros n Hn'. cbv beta. rewrite (@vert_eq pd env WE sz L get_content).
  assert (Ew : rect_width (X := pane_err WE Er) r = Ok (width_of r)) by (apply sub16_exact; lia).
  assert (Eh : rect_height (X := pane_err WE Er) r = Ok h) by (apply sub32_exact; lia).
  assert (Erem : castM U32 (remaining (divvier_new h (map fst ps))) = after_fixed h (map fst ps)).
  { destruct (PDivvy.new_spec h (map fst ps)) as (_ & _ & N3 & _). unfold remaining. rewrite N3. apply N.mod_small. lia. }
  eapply emits_pure_bind; [exact Eh|]. eapply emits_pure_bind; [exact Ew|]. rewrite Erem.
  change (concat parts) with (@nil (call Sty) ++ concat parts). eapply emits_bind; [apply T3; lia|]. cbn [fst snd].
  eapply emits_pure_bind; [exact Hd'|].
  eapply (@kids_all U32 n _ _ _ (max_row r)); [exact R4| |exact D1|unfold h in *; lia|exact Hl|].
  - intros a b Hab. apply add32_exact. exact Hab.
  - intros i part Hi. rewrite offset_slice_v. apply H2; [lia| |exact Hi]. rewrite <- Hl. apply nth_error_Some. congruence.
Qed.

(** ** Fill and Doc *)
Lemma fill_ok ch st r rows : rect_in sz r ->
  shows_chars r (fun _ => repeat (ch, st) (N.to_nat (width_of r))) st rows ->
  ev_emits (fun n => display_pane_rec get_content n (PFill ch) st r) (concat rows).
Proof.
  intros Hr [H1 H2]. exists (S (N.to_nat (width_of r))). intros n Hn.
  destruct (@fill_spec pd env WE sz n ch st r) as (cs & res & fulls & E & F1 & _ & F2 & _ & F3); [eapply rect_in_ok; eauto|].
  rewrite F3 in * by lia. rewrite (F2 eq_refl) in E. replace rows with fulls; [exact E|].
  pose proof (Forall2_len F1) as El. rewrite range_len in El.
  apply nth_ext_error. intros i. destruct (nth_error fulls i) as [a|] eqn:Ea.
  - assert (Hi : i < length fulls) by (apply nth_error_Some; congruence).
    destruct (nth_error rows i) as [b|] eqn:Eb; [|apply nth_error_None in Eb; lia]. f_equal.
    eapply row_shows_det; [|apply (H2 _ _ Eb)].
    eapply (Forall2_at F1); [|exact Ea]. apply range_nth. lia.
  - symmetry. apply nth_error_None. apply nth_error_None in Ea. lia.
Qed.

Lemma doc_ok l st r d lines c calls : rect_in sz r -> get_content l = Some d ->
  content_of get_content l st (Size (width_of r) (height_of r)) lines c -> content_in c r calls ->
  ev_emits (fun n => display_pane_rec get_content n (PDoc l) st r) calls.
Proof.
  intros Hr Hg Hc Hin. pose proof (rect_in_ok Hwin Hr) as (R1 & R2 & R3 & R4).
  assert (Hh : (s_height (Size (width_of r) (height_of r)) < U32)%N) by (simpl; lia).
  destruct (@content_doc pd env L get_content _ _ _ _ _ Hh Hc) as [(E & _)|(doc & o & p & E & (N & He) & El & Hp)]; [congruence|].
  exists (N + S (N.to_nat (width_of r))). intros n Hn. cbn [display_pane_rec]. rewrite E.
  eapply emits_pure_bind; [unfold rect_size, rect_height, rect_width; rewrite sub32_exact, sub16_exact by lia; reflexivity|].
  change calls with (@nil (call Sty) ++ calls). eapply emits_bind; [apply emits_printing_ok; apply He; lia|].
  eapply doc_is_shown; [eapply rect_in_ok; eauto|exact Hp|simpl; lia|simpl; lia|exact Hin|lia].
Qed.

Lemma shows_sound : forall p st r calls, sane sz p -> rect_in sz r -> pane_shows get_content p st r calls ->
  ev_emits (fun n => display_pane_rec get_content n p st r) calls.
Proof.
  induction p as [ps IH|ps IH|l|ch|s p IH] using pane_ind'; intros st r calls Hs Hr H.
  - inversion H as [| | | |? ? ? ns widths parts H1 H2 [H3 H4]|]; subst. inversion Hs as [? Hs'| | | |]; subst. inversion Hs' as [? S1 S2 S3 Hkids]; subst.
    eapply horz_ok; eauto. split; auto. intros i k p part Hi Hp. destruct (H4 i k p part Hi Hp) as [A B]. split; auto.
    intros Hk. pose proof (nth_error_In _ _ Hi) as Hin. eapply IH; eauto.
    rewrite <- offset_slice_h. pose proof (offset_bound (min_col r) widths i). pose proof (offset_bound (min_col r) widths (S i)).
    assert (total widths <= width_of r)%N.
    { assert (Hlt : (U16 < USIZE)%N) by reflexivity. pose proof (rect_in_ok Hwin Hr) as (R1 & R2 & R3 & R4).
      assert (Wle : (width_of r <= N.max (s_width sz) (s_height sz))%N) by (destruct Hr; lia).
      pose proof (after_fixed_le (width_of r) (map fst ps)) as Haf.
      assert (Hneeds := fun a b => @horz_needs_spec pd env WE sz L get_content st ps _ ns a b H1). destruct Hneeds as (T1 & _); [simpl; lia|simpl; lia|]. simpl in T1.
      assert (Hmul : (width_of r * weight_total (map fst ps) < USIZE)%N) by (eapply N.le_lt_trans; [apply N.mul_le_mono_r; exact Wle|exact S2]).
      destruct (@divvy_ok unit false (width_of r) (map fst ps) (map fst ns) widths) as (_ & D2 & _); auto; lia. }
    pose proof Hr as [Hr1 Hr2]. apply hslice_ok; auto; try lia; apply offset_mono.
  - inversion H as [| | | | |? ? ? ns heights parts H1 H2 [H3 H4]]; subst. inversion Hs as [|? Hs'| | |]; subst. inversion Hs' as [? S1 S2 S3 Hkids]; subst.
    eapply vert_ok; eauto. split; auto. intros i k p part Hi Hp. destruct (H4 i k p part Hi Hp) as [A B]. split; auto.
    intros Hk. pose proof (nth_error_In _ _ Hi) as Hin. eapply IH; eauto.
    rewrite <- offset_slice_v. pose proof (offset_bound (min_row r) heights i). pose proof (offset_bound (min_row r) heights (S i)).
    assert (total heights <= height_of r)%N.
    { assert (Hlt : (U32 < USIZE)%N) by reflexivity. pose proof (rect_in_ok Hwin Hr) as (R1 & R2 & R3 & R4).
      assert (Wle : (height_of r <= N.max (s_width sz) (s_height sz))%N) by (destruct Hr; lia).
      pose proof (after_fixed_le (height_of r) (map fst ps)) as Haf.
      assert (Hneeds := fun a => @vert_needs_spec pd env WE sz L get_content st ps _ ns a H1). destruct Hneeds as (T1 & _); [simpl; lia|]. simpl in T1.
      assert (Hmul : (height_of r * weight_total (map fst ps) < USIZE)%N) by (eapply N.le_lt_trans; [apply N.mul_le_mono_r; exact Wle|exact S2]).
      destruct (@divvy_ok unit false (height_of r) (map fst ps) (map fst ns) heights) as (_ & D2 & _); auto; lia. }
    pose proof Hr as [Hr1 Hr2]. apply vslice_ok; auto; try lia; apply offset_mono.
  - inversion H as [|? ? ? E|? ? ? d lines c ? E Hc Hin| | |]; subst.
    + exists 0. intros n _. cbn [display_pane_rec]. rewrite E. apply emits_ret.
    + eapply doc_ok; eauto.
  - inversion H; subst. apply fill_ok; auto.
  - inversion H; subst. inversion Hs; subst. apply IH; auto.
Qed.

End Docs.
