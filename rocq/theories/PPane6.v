(** Documents in panes. *)
From Verif Require Export Properties1 PF32 PPane5.

Set Implicit Arguments.

(** ** The row of the focused line *)
Lemma focus_row_spec {pd : PrettyDoc} {env : Env} {X} o h : (0 < h <= 2 ^ 24)%N -> height_ok (o_focus_height o) ->
  exists k, choose_focus_line_row (X := X) o h = Ok k /\ rounded_row h (o_focus_height o) k.
Proof.
  intros Hh (H1 & H2 & H3). change (2 ^ 24)%N with 16777216%N in Hh. unfold choose_focus_line_row. rewrite H2, H3.
  unfold sub32, subM. destruct (N.leb_spec 1 h); [|lia]. cbn [bind]. eexists. split; [reflexivity|].
  destruct (fraction_spec H1 H2 H3) as [(s & E)|(m & a & E & Ha & Hm)]; rewrite E; unfold rounded_row.
  - assert (E0 : f32_round_to_u32 (f32_mul (f32_of_uint (h - 1)) (S754_zero s)) = 0%N).
    { assert (Hx : f32_of_uint (h - 1) = S754_zero false \/ exists m e, f32_of_uint (h - 1) = S754_finite false m e).
      { destruct (N.eq_dec (h - 1) 0) as [->|Hn]; [left; reflexivity|]. right.
        destruct (@of_uint_exact (h - 1)) as (mp & d & k2 & -> & _); [change (2 ^ 24)%N with 16777216%N; lia|eauto]. }
      destruct Hx as [->|(m & e & ->)]; reflexivity. }
    rewrite E0. split; [lia|reflexivity].
  - cbv zeta. rewrite Z.opp_involutive.
    destruct (N.eq_dec (h - 1) 0) as [Ez|Hn].
    + rewrite Ez. assert (E0 : f32_round_to_u32 (f32_mul (f32_of_uint 0) (S754_finite false m (- a))) = 0%N) by reflexivity.
      rewrite E0. split; [lia|]. simpl Z.of_N. rewrite !Z.mul_0_l. change (Z.abs (0 - 0)) with 0%Z.
      assert (0 < 2 ^ a)%Z by (apply Z.pow_pos_nonneg; lia). split; lia.
    + destruct (@row_spec (h - 1) m a) as (R1 & R2 & R3); [change (2 ^ 24)%N with 16777216%N; lia|lia|lia|].
      split; [lia|]. split; [exact R2|]. intros Hs. apply R3. change (2 ^ 16)%N with 65536%N. lia.
Qed.

Section Docs.
Context {pd : PrettyDoc} {env : Env} {WE : Type} {sz : Pane.size}.
Local Instance rwin6 : PrettyWindow Sty := recorder Sty WE sz.
Local Notation emits := (@PPane.emits pd WE sz _).
Local Notation M := (@Pane.M pd rwin6).

(** ** What a row shows is determined *)
Lemma fitting_det w chs s1 s2 : longest_fitting w chs s1 -> longest_fitting w chs s2 -> s1 = s2.
Proof.
  assert (X : forall s1 s2 r1 r2 chs, chs = s1 ++ r1 -> chs = s2 ++ r2 ->
    match r1 with [] => True | c :: _ => (w < columns_of s1 + columns (fst c))%N end -> (columns_of s2 <= w)%N ->
    exists t, s1 = s2 ++ t).
  { clear. intros s1 s2 r1 r2 chs E1 E2 H1 H2. subst chs.
    apply app_eq_app in E2 as (l & [(-> & ->)|(-> & ->)]); [eauto|].
    destruct l as [|c l]; [exists []; rewrite !app_nil_r; reflexivity|]. exfalso. simpl in H1.
    rewrite columns_of_app in H2. unfold columns_of at 2 in H2. simpl in H2. fold (columns_of l) in H2. lia. }
  intros (r1 & E1 & L1 & M1) (r2 & E2 & L2 & M2).
  destruct (X _ _ _ _ _ E1 E2 M1 L2) as (t & Et). destruct (X _ _ _ _ _ E2 E1 M2 L1) as (u & Eu).
  subst s1. rewrite <- app_assoc in Eu. rewrite <- (app_nil_r s2) in Eu at 1. apply app_inv_head in Eu.
  destruct t; [rewrite app_nil_r; reflexivity|discriminate].
Qed.
Lemma row_shows_det r row chs blank c1 c2 : row_shows r row chs blank c1 -> row_shows r row chs blank c2 -> c1 = c2.
Proof. intros (s1 & H1 & ->) (s2 & H2 & ->). rewrite (fitting_det H1 H2). reflexivity. Qed.

Lemma Forall2_det {A B} (P : A -> B -> Prop) : (forall a b c, P a b -> P a c -> b = c) ->
  forall l l1 l2, Forall2 P l l1 -> Forall2 P l l2 -> l1 = l2.
Proof.
  intros HP. intros l l1 l2 H. revert l2. induction H as [|a b l l1 H _ IH]; intros l2 H2; inversion H2; subst; auto.
  f_equal; eauto.
Qed.

Lemma Forall2_len {A B} (P : A -> B -> Prop) l1 l2 : Forall2 P l1 l2 -> length l1 = length l2.
Proof. induction 1; simpl; auto. Qed.

Lemma Forall2_at {A B} (P : A -> B -> Prop) l1 l2 : Forall2 P l1 l2 ->
  forall i a b, nth_error l1 i = Some a -> nth_error l2 i = Some b -> P a b.
Proof.
  induction 1 as [|x y l1 l2 H F IH]; intros [|i] a b H1 H2; try discriminate; simpl in *; [congruence|eauto].
Qed.

Lemma nth_ext_error {A} : forall (l1 l2 : list A), (forall i, nth_error l1 i = nth_error l2 i) -> l1 = l2.
Proof.
  induction l1 as [|a l1 IH]; intros [|b l2] H; auto; try (specialize (H 0); discriminate).
  f_equal; [specialize (H 0); injection H; auto|]. apply IH. intros i. exact (H (S i)).
Qed.

(** ** The lines taken from an iterator *)
Lemma take_none next p : next p = Ok (p, None) -> forall k, take_lines next k p = Ok (p, []).
Proof. intros H. induction k as [|k IH]; simpl; [reflexivity|]. rewrite H. simpl. rewrite IH. reflexivity. Qed.

Lemma take_collect next : (forall p p', next p = Ok (p', None) -> p' = p) ->
  forall n p acc ls, loop n (collect_body next) (p, acc) = Ok ls ->
  exists tl, ls = acc ++ tl /\ forall k, exists p', take_lines next k p = Ok (p', firstn k tl).
Proof.
  intros Hn. induction n as [|n IH]; intros p acc ls H; [discriminate|].
  cbn [loop] in H. unfold collect_body at 1 in H. destruct (next p) as [[p' [l|]]|f] eqn:E; cbn [bind] in H; [| |discriminate].
  - apply IH in H as (tl & -> & Ht). exists (l :: tl). rewrite <- app_assoc. split; [reflexivity|].
    intros [|k]; [simpl; eauto|]. destruct (Ht k) as (p2 & E2). exists p2. cbn [take_lines]. rewrite E. cbn [bind]. rewrite E2. reflexivity.
  - injection H as <-. exists []. rewrite app_nil_r. split; [reflexivity|]. intros k. exists p.
    rewrite firstn_nil. apply take_none. rewrite (Hn _ _ E) in E. exact E.
Qed.

Lemma take_up up ups k : ev (fun n => collect n (up_next n) up) (Ok ups) ->
  exists N, forall n, N <= n -> exists p, take_lines (up_next n) k up = Ok (p, firstn k ups).
Proof.
  intros (N & H). exists N. intros n Hn. specialize (H n Hn). unfold collect in H.
  apply take_collect in H as (tl & E & Ht); [simpl in E; subst; auto|].
  intros p p' E. apply C43_exhausted_up in E. tauto.
Qed.
Lemma take_down down downs k : ev (fun n => collect n (down_next n) down) (Ok downs) ->
  exists N, forall n, N <= n -> exists p, take_lines (down_next n) k down = Ok (p, firstn k downs).
Proof.
  intros (N & H). exists N. intros n Hn. specialize (H n Hn). unfold collect in H.
  apply take_collect in H as (tl & E & Ht); [simpl in E; subst; auto|].
  intros p p' E. apply C43_exhausted_down in E. tauto.
Qed.

(** ** Printing a document for a pane *)
Lemma left_width_exact fl : (total (map seg_width (left_segments fl)) < U16)%N ->
  left_width fl = Ok (total (map seg_width (left_segments fl))).
Proof. intros H. unfold left_width. apply sum16_exact. exact H. Qed.

(** The loops of the pane and of [window] give the same lines. *)
Lemma take_lines_same next : (forall p p', next p = Ok (p', None) -> next p' = Ok (p', None)) ->
  forall k p ls, SpecMask.take_lines next k p = Ok ls -> exists p', take_lines next k p = Ok (p', ls).
Proof.
  intros Hx k. induction k as [|k IH]; intros p ls H; cbn [SpecMask.take_lines take_lines] in *.
  - injection H as <-. eauto.
  - destruct (next p) as [[p1 [l|]]|] eqn:E; cbn [bind] in *; try discriminate.
    + destruct (SpecMask.take_lines next k p1) as [ls1|] eqn:E1; cbn [bind] in *; try discriminate.
      injection H as <-. destruct (IH _ _ E1) as (p' & ->). cbn [bind]. eauto.
    + injection H as <-.
      assert (X : forall k, take_lines next k p1 = Ok (p1, [])).
      { clear - E Hx. specialize (Hx _ _ E). induction k as [|k IH]; [reflexivity|]. cbn [take_lines]. rewrite Hx. cbn [bind]. rewrite IH. reflexivity. }
      rewrite X. cbn [bind]. eauto.
Qed.
Lemma take_lines_same_back next : (forall p p', next p = Ok (p', None) -> next p' = Ok (p', None)) ->
  forall k p p' ls, take_lines next k p = Ok (p', ls) -> SpecMask.take_lines next k p = Ok ls.
Proof.
  intros Hx k. induction k as [|k IH]; intros p p' ls H; cbn [SpecMask.take_lines take_lines] in *.
  - injection H as _ <-. reflexivity.
  - destruct (next p) as [[p1 ol]|] eqn:E; cbn [bind] in *; try discriminate.
    destruct (take_lines next k p1) as [[p2 ls1]|] eqn:E1; cbn [bind] in *; try discriminate. injection H as _ <-.
    destruct ol as [l|]; [rewrite (IH _ _ _ E1); reflexivity|].
    assert (X : forall k, take_lines next k p1 = Ok (p1, [])).
    { clear - E Hx. specialize (Hx _ _ E). induction k as [|k IH]; [reflexivity|]. cbn [take_lines]. rewrite Hx. cbn [bind]. rewrite IH. reflexivity. }
    rewrite X in E1. injection E1 as _ <-. reflexivity.
Qed.
Lemma take_lines_err next : (forall p p', next p = Ok (p', None) -> next p' = Ok (p', None)) ->
  forall k p f, SpecMask.take_lines next k p = Fail f -> take_lines next k p = Fail f.
Proof.
  intros Hx k. induction k as [|k IH]; intros p f H; cbn [SpecMask.take_lines take_lines] in *; [discriminate|].
  destruct (next p) as [[p1 [l|]]|] eqn:E; cbn [bind] in *; try discriminate; [|injection H as ->; reflexivity].
  destruct (SpecMask.take_lines next k p1) as [ls1|f1] eqn:E1; cbn [bind] in *; try discriminate.
  injection H as <-. rewrite (IH _ _ E1). reflexivity.
Qed.
Lemma exhausted_up n p p' : up_next n p = Ok (p', None) -> up_next n p' = Ok (p', None).
Proof. intros E. apply C43_exhausted_up in E as [_ E]. apply E. Qed.
Lemma exhausted_down n p p' : down_next n p = Ok (p', None) -> down_next n p' = Ok (p', None).
Proof. intros E. apply C43_exhausted_down in E as [_ E]. apply E. Qed.

Lemma printed_in_part doc o w st ups fl downs ku kd :
  printed_in doc o w st ups fl downs -> printed_part doc o w st ku kd ups fl downs.
Proof.
  intros (up & down & (N1 & P1) & P2 & P3).
  destruct (@take_up up ups ku P2) as (N2 & T2). destruct (@take_down down downs kd P3) as (N3 & T3).
  exists (N1 + N2 + N3). intros n Hn. unfold SpecMask.window. rewrite P1 by lia. cbn [bind].
  destruct (T2 n ltac:(lia)) as (p2 & E2). rewrite (take_lines_same_back _ (@exhausted_up n) _ _ E2). cbn [bind].
  destruct (T3 n ltac:(lia)) as (p3 & E3). rewrite (take_lines_same_back _ (@exhausted_down n) _ _ E3). reflexivity.
Qed.

Lemma new_spec_doc doc o w h st k ups fl downs :
  (0 < w)%N -> (h < U32)%N -> (k < h)%N ->
  choose_focus_line_row (X := perr Er) o h = Ok k ->
  (o_set_focus o = true -> (total (map seg_width (left_segments fl)) < U16)%N) ->
  printed_part doc o w st (N.to_nat k) (N.to_nat h - N.to_nat k - 1) ups fl downs ->
  ev (fun n => printed_doc_new n doc o (Size w h) st)
     (Ok (PrintedDoc (visible_lines ups fl downs (N.to_nat k) (N.to_nat h)) (length (firstn (N.to_nat k) ups)) k (focus_point o k fl) st)).
Proof.
  intros Hw Hh Hk Hrow Hf (N0 & HW).
  exists N0. intros n Hn. unfold printed_doc_new. cbn [s_width s_height].
  rewrite (proj2 (N.eqb_neq h 0)) by lia. rewrite (proj2 (N.eqb_neq w 0)) by lia. cbn [orb].
  rewrite Hrow. cbn [bind]. rewrite choose_width_asked.
  specialize (HW n Hn). unfold SpecMask.window in HW.
  destruct (pretty_print n doc _ _ _ _) as [[[up fl'] down]|]; [|discriminate]. cbn [bind] in HW.
  destruct (SpecMask.take_lines (up_next n) (N.to_nat k) up) as [ups'|] eqn:E2; [|discriminate]. cbn [bind] in HW.
  destruct (SpecMask.take_lines (down_next n) _ down) as [downs'|] eqn:E3; [|discriminate]. cbn [bind] in HW.
  injection HW as -> -> ->. cbn [bind].
  apply (take_lines_same _ (@exhausted_up n)) in E2 as (p2 & E2). apply (take_lines_same _ (@exhausted_down n)) in E3 as (p3 & E3).
  assert (Efp : (if o_set_focus o then col <- left_width fl ;; Ok (Some (Pos k col)) else Ok None) = Ok (focus_point o k fl)).
  { unfold focus_point. destruct (o_set_focus o); [|reflexivity]. rewrite left_width_exact by auto. reflexivity. }
  rewrite Efp. cbn [bind]. rewrite E2. cbn [bind].
  rewrite add32_exact by lia. cbn [bind]. replace (N.to_nat (h - (k + 1))) with (N.to_nat h - N.to_nat k - 1) by lia.
  rewrite E3. cbn [bind]. reflexivity.
Qed.

(** ** Displaying it *)
Definition shown_line (p : printed_doc) (i : nat) : line :=
  let first := (N.to_nat (pd_focus_line_row p) - pd_focus_line_index p)%nat in
  if i <? first then [] else nth (i - first) (pd_lines p) [].

Lemma range_shift a n : range 0 n = map (fun i => N.of_nat i) (seq 0 (N.to_nat n)) /\ range a (a + n) = map (fun i => (a + N.of_nat i)%N) (seq 0 (N.to_nat n)).
Proof.
  unfold range. rewrite N.sub_0_r. replace (a + n - a)%N with n by lia. split; apply map_ext; intros; lia.
Qed.

Lemma display_doc_rows p r : rect_ok r -> (N.of_nat (pd_focus_line_index p) <= pd_focus_line_row p)%N ->
  (pd_focus_line_row p - N.of_nat (pd_focus_line_index p) + N.of_nat (length (pd_lines p)) < U32)%N -> (pd_focus_line_row p < U32)%N ->
  match pd_focus_point p with
  | Some fp => (p_row fp + min_row r < U32)%N /\ (p_col fp + min_col r < U16)%N
  | None => True
  end ->
  exists rows, shows_lines r (shown_line p) (pd_blank_style p) rows /\
    forall n, (max_col r - min_col r < N.of_nat n)%N ->
    emits (display_doc n p r)
      (match pd_focus_point p with Some fp => [SetFocus (Pos (p_row fp + min_row r) (p_col fp + min_col r))] | None => [] end ++ concat rows) (Ok tt).
Proof.
  intros Hr Hi Hl Hl2 Hfp. pose proof Hr as (R1 & R2 & R3 & R4).
  set (first := (pd_focus_line_row p - N.of_nat (pd_focus_line_index p))%N).
  set (last := (first + N.of_nat (length (pd_lines p)))%N).
  set (good := fun (rel : N) full => row_shows r (min_row r + rel) (styled_chars (shown_line p (N.to_nat rel))) (pd_blank_style p) full).
  assert (Hrows : forall n, (max_col r - min_col r < N.of_nat n)%N -> exists rows,
     Forall2 good (range 0 (max_row r - min_row r)) rows /\
     emits (forM (range 0 (max_row r - min_row r)) (display_row n p r first last)) (concat rows) (Ok tt)).
  { intros n Hn.
    destruct (@rows_spec pd WE sz good (display_row n p r first last) True (range 0 (max_row r - min_row r))) as (cs & res & fulls & H1 & H2 & H3 & H4 & H5).
    - intros rel Hrel. apply range_in in Hrel. unfold display_row.
      assert (Efirst : N.to_nat first = (N.to_nat (pd_focus_line_row p) - pd_focus_line_index p)%nat) by (unfold first; lia).
      destruct ((first <=? rel) && (rel <? last))%N eqn:Eb.
      + apply Bool.andb_true_iff in Eb as [B1 B2]. apply N.leb_le in B1. apply N.ltb_lt in B2. unfold last in B2.
        destruct (nth_error (pd_lines p) (N.to_nat (rel - first))) as [l|] eqn:El.
        2:{ exfalso. apply nth_error_None in El. lia. }
        destruct (@line_spec pd env WE sz n l rel r (pd_blank_style p) Hr) as (cs & res & full & J1 & J2 & J3 & J4 & J5); [lia|].
        exists cs, res, full. split; [exact J1|]. split; [|split; [exact J3|split]].
        * unfold good, shown_line. rewrite <- Efirst. rewrite (proj2 (Nat.ltb_ge _ _)) by lia.
          replace (N.to_nat rel - N.to_nat first)%nat with (N.to_nat (rel - first)) by lia.
          rewrite (nth_error_nth _ _ _ El). exact J2.
        * intros ->. destruct J4 as [J4|[_ J4]]; [discriminate|auto].
        * intros _. apply J5. lia.
      + eexists _, _, _. split; [apply blank_spec; [exact Hr|lia]|]. split; [|split; [apply prefix_refl|auto]].
        unfold good, shown_line. rewrite <- Efirst. apply Bool.andb_false_iff in Eb.
        destruct (Nat.ltb_spec (N.to_nat rel) (N.to_nat first)) as [Hlt|Hge]; [apply no_chars_shows|].
        rewrite nth_overflow; [apply no_chars_shows|]. destruct Eb as [Eb|Eb]; [apply N.leb_gt in Eb; lia|].
        apply N.ltb_ge in Eb. unfold last in Eb. lia.
    - exists fulls. split; [exact H2|]. rewrite (H5 I) in *. rewrite (H4 eq_refl) in H1. exact H1. }
  destruct (Hrows (S (N.to_nat (max_col r - min_col r)))) as (rows & F1 & _); [lia|].
  exists rows. split.
  { split; [apply Forall2_len in F1; rewrite range_len in F1; rewrite <- F1; f_equal; lia|].
    intros i row Hi'. assert (Hlt : i < length rows) by (apply nth_error_Some; congruence).
    pose proof (Forall2_len F1) as El. rewrite range_len in El.
    assert (Hri : nth_error (range 0 (max_row r - min_row r)) i = Some (N.of_nat i)) by (apply (@range_nth 0 (max_row r - min_row r) i); lia).
    assert (G : good (N.of_nat i) row).
    { eapply Forall2_at; eauto. }
    unfold good in G. rewrite Nat2N.id in G. exact G. }
  intros n Hn. destruct (Hrows n Hn) as (rows' & F2 & E2).
  assert (rows' = rows) by (eapply Forall2_det; [|exact F2|exact F1]; intros; eapply row_shows_det; eauto). subst rows'.
  unfold display_doc. eapply emits_bind with (a := tt).
  - destruct (pd_focus_point p) as [fp|].
    + destruct Hfp as [Hfp1 Hfp2]. eapply emits_pure_bind; [apply add32_exact; exact Hfp1|]. eapply emits_pure_bind; [apply add16_exact; exact Hfp2|]. apply emits_focus.
    + apply emits_ret.
  - assert (Hc1 : castM U32 (N.of_nat (pd_focus_line_index p)) = N.of_nat (pd_focus_line_index p)) by (apply N.mod_small; lia).
    assert (Hc2 : castM U32 (N.of_nat (length (pd_lines p))) = N.of_nat (length (pd_lines p))) by (apply N.mod_small; lia).
    rewrite Hc1, Hc2. eapply emits_pure_bind; [apply sub32_exact; lia|]. fold first.
    eapply emits_pure_bind; [apply add32_exact; unfold first; lia|]. fold last.
    eapply emits_pure_bind; [unfold rect_size, rect_height, rect_width; rewrite sub32_exact, sub16_exact by lia; reflexivity|].
    exact E2.
Qed.


(** ** The content of a pane *)
Lemma nth_firstn_lt {A} (d : A) n i (l : list A) : i < n -> nth i (firstn n l) d = nth i l d.
Proof.
  revert i l. induction n as [|n IH]; intros i l H; [lia|]. destruct l; [reflexivity|]. destruct i; simpl; auto. apply IH. lia.
Qed.

Lemma shown_visible ups fl downs k h fp st i : i < h -> k < h ->
  shown_line (PrintedDoc (visible_lines ups fl downs k h) (length (firstn k ups)) (N.of_nat k) fp st) i = line_at ups fl downs k i.
Proof.
  intros Hi Hk. unfold shown_line, line_at, visible_lines. cbn [pd_focus_line_row pd_focus_line_index pd_lines]. rewrite Nat2N.id.
  assert (El : length (firstn k ups) = Nat.min k (length ups)) by apply firstn_length.
  assert (Er : length (rev (firstn k ups)) = Nat.min k (length ups)) by (rewrite rev_length; exact El).
  destruct (Nat.ltb_spec i (k - length (firstn k ups))) as [H1|H1].
  - rewrite El in H1. rewrite (proj2 (Nat.ltb_lt i k)) by lia. rewrite nth_overflow by lia. reflexivity.
  - rewrite El in H1. destruct (Nat.ltb_spec i k) as [H2|H2].
    + rewrite app_nth1 by lia. rewrite rev_nth by lia. rewrite nth_firstn_lt by lia. f_equal. lia.
    + rewrite app_nth2 by lia. destruct (Nat.eqb_spec i k) as [H3|H3].
      * replace (i - (k - length (firstn k ups)) - length (rev (firstn k ups))) with 0 by lia. reflexivity.
      * replace (i - (k - length (firstn k ups)) - length (rev (firstn k ups))) with (S (i - k - 1)) by lia. cbn [nth].
        apply nth_firstn_lt. lia.
Qed.

Lemma visible_len ups fl downs k h : k < h -> length (firstn k ups) <= k /\ k - length (firstn k ups) + length (visible_lines ups fl downs k h) <= h.
Proof.
  intros H. unfold visible_lines. rewrite app_length, rev_length. cbn [length]. rewrite !firstn_length. lia.
Qed.

Context {L : Type}.
Variable get_content : L -> option (D * printing_options).

(** A printed document that shows [c] in rectangles of height at most [h]. *)
Definition doc_is (p : printed_doc) (c : content) (h : N) : Prop :=
  (forall i, N.of_nat i < h -> shown_line p i = c_lines c i)%N /\
  pd_blank_style p = c_style c /\ pd_focus_point p = c_focus c /\
  (N.of_nat (pd_focus_line_index p) <= pd_focus_line_row p)%N /\
  (pd_focus_line_row p - N.of_nat (pd_focus_line_index p) + N.of_nat (length (pd_lines p)) <= h)%N /\ (pd_focus_line_row p <= h)%N /\ (N.of_nat (length (pd_lines p)) <= h)%N.

Lemma shown_empty st i : shown_line (printed_doc_empty st) i = [].
Proof. unfold shown_line. simpl. destruct (i - 0); reflexivity. Qed.

Lemma empty_is st h : doc_is (printed_doc_empty st) (Content (fun _ => []) st None) h.
Proof.
  split; [intros; apply shown_empty|]. unfold printed_doc_empty. simpl. repeat split; lia.
Qed.

Lemma content_doc l st s lines c : (s_height s < U32)%N -> content_of get_content l st s lines c ->
  (get_content l = None /\ lines = [] /\ c = Content (fun _ => []) st None) \/
  exists doc o p, get_content l = Some (doc, o) /\ ev (fun n => printed_doc_new n doc o s st) (Ok p) /\
    pd_lines p = lines /\ doc_is p c (s_height s).
Proof.
  intros Hs H. destruct H as [H|[doc o] H1 H2|doc o k ups fl downs H1 H2 H3 H4 H5 H6].
  - left. auto.
  - right. exists doc, o, (printed_doc_empty st). split; auto. split; [|split; [reflexivity|apply empty_is]].
    exists 0. intros n _. unfold printed_doc_new. destruct H2 as [-> | ->]; [rewrite Bool.orb_true_r|]; reflexivity.
  - right. destruct s as [w h]. cbn [s_width s_height] in *.
    exists doc, o, (PrintedDoc (visible_lines ups fl downs (N.to_nat k) (N.to_nat h)) (length (firstn (N.to_nat k) ups)) k (focus_point o k fl) st).
    split; auto. split; [eapply new_spec_doc; eauto|]. split; [reflexivity|].
    destruct (@visible_len ups fl downs (N.to_nat k) (N.to_nat h)) as [V1 V2]; [lia|].
    unfold doc_is. cbn [pd_lines pd_focus_line_index pd_focus_line_row pd_focus_point pd_blank_style c_lines c_style c_focus].
    split; [|split; [reflexivity|split; [reflexivity|split; [lia|split; [lia|split; lia]]]]].
    intros i Hi. pose proof (@shown_visible ups fl downs (N.to_nat k) (N.to_nat h) (focus_point o k fl) st i) as X. rewrite N2Nat.id in X. apply X; lia.
Qed.

Lemma doc_is_shown p c h r calls : rect_ok r -> doc_is p c h -> (max_row r - min_row r <= h)%N -> (h < U32)%N ->
  content_in c r calls -> forall n, (max_col r - min_col r < N.of_nat n)%N -> emits (display_doc n p r) calls (Ok tt).
Proof.
  intros Hr (D1 & D2 & D3 & D4 & D5 & D5' & D6) Hh H2 (rows & (S1 & S2) & Hc) n Hn.
  destruct (@display_doc_rows p r Hr D4) as (rows' & (S1' & S2') & He).
  { lia. }
  { lia. }
  { rewrite D3. destruct (c_focus c); [|exact I]. destruct Hc as (A & B & _). lia. }
  assert (E : rows = rows').
  { apply nth_ext_error. intros i. destruct (nth_error rows i) as [a|] eqn:Ea.
    - assert (Hi : i < length rows) by (apply nth_error_Some; congruence).
      destruct (nth_error rows' i) as [b|] eqn:Eb; [|apply nth_error_None in Eb; lia].
      f_equal. specialize (S2 _ _ Ea). specialize (S2' _ _ Eb). rewrite D1 in S2' by lia. rewrite D2 in S2'.
      eapply row_shows_det; eauto.
    - symmetry. apply nth_error_None. apply nth_error_None in Ea. lia. }
  subst rows'. specialize (He n Hn). rewrite D3 in He. destruct (c_focus c) as [fp|].
  - destruct Hc as (_ & _ & ->). rewrite (N.add_comm (min_row r)), (N.add_comm (min_col r)). exact He.
  - subst calls. exact He.
Qed.

(** A content can be displayed in any rectangle. *)
Lemma content_exists c r : rect_ok r ->
  match c_focus c with Some p => (min_row r + p_row p < U32)%N /\ (min_col r + p_col p < U16)%N | None => True end ->
  exists calls, content_in c r calls.
Proof.
  intros Hr Hf. pose proof Hr as (R1 & R2 & R3 & R4).
  assert (X : forall n at_, (at_ + N.of_nat n <= max_row r)%N -> (min_row r <= at_)%N -> exists rows, length rows = n /\
     forall i row, nth_error rows i = Some row ->
       row_shows r (at_ + N.of_nat i) (styled_chars (c_lines c (N.to_nat (at_ - min_row r) + i))) (c_style c) row).
  { induction n as [|n IH]; intros at_ Hat Hlo.
    - exists []. split; auto. intros [|i] row; discriminate.
    - destruct (IH (at_ + 1)%N) as (rows & I1 & I2); [lia|lia|].
      destruct (@line_spec pd env WE sz 0 (c_lines c (N.to_nat (at_ - min_row r))) (at_ - min_row r) r (c_style c) Hr) as (_ & _ & full & _ & J & _); [lia|].
      replace (min_row r + (at_ - min_row r))%N with at_ in J by lia.
      exists (full :: rows). split; [simpl; auto|]. intros [|i] row Hi; simpl in Hi.
      + injection Hi as <-. rewrite N.add_0_r, Nat.add_0_r. exact J.
      + specialize (I2 _ _ Hi). replace (at_ + N.of_nat (S i))%N with (at_ + 1 + N.of_nat i)%N by lia.
        replace (N.to_nat (at_ - min_row r) + S i) with (N.to_nat (at_ + 1 - min_row r) + i) by lia. exact I2. }
  destruct (X (N.to_nat (max_row r - min_row r)) (min_row r)) as (rows & X1 & X2); [lia|lia|].
  replace (N.to_nat (min_row r - min_row r)) with 0 in X2 by lia.
  assert (Hs : shows_lines r (c_lines c) (c_style c) rows) by (split; auto).
  destruct (c_focus c) as [fp|] eqn:Ef.
  - eexists _, rows. split; [exact Hs|]. rewrite Ef. destruct Hf. split; auto.
  - eexists _, rows. split; [exact Hs|]. rewrite Ef. reflexivity.
Qed.

(** ** The dynamic panes *)
Lemma is_doc_extract {X} p st l st' : is_doc p st l st' -> @extract_doc pd (recorder Sty X sz) L p st = Ok (l, st').
Proof. induction 1; [reflexivity|exact IHis_doc]. Qed.

Lemma mapM_lines lines : Forall (fun l => total (map seg_width l) < U16)%N lines ->
  mapM line_width lines = Ok (map (fun l => total (map seg_width l)) lines).
Proof.
  induction 1 as [|l ls H _ IH]; [reflexivity|]. cbn [mapM map].
  assert (E : line_width l = Ok (total (map seg_width l))) by (unfold line_width; apply (@sum16_exact (perr Er) ovf (map seg_width l) 0%N); exact H).
  rewrite E. cbn [bind]. rewrite IH. reflexivity.
Qed.

Lemma emits_printing_ok {A} (x : pres A) a : x = Ok a -> emits (from_printing x) [] (Ok a).
Proof. intros ->. intros l. rewrite app_nil_r. reflexivity. Qed.

Lemma emits_nil_then {A B} (m : M A) (k : A -> M B) a r :
  emits m [] (Ok a) -> emits (k a) [] r -> emits (mbind m k) [] r.
Proof. intros H1 H2. change (@nil (call Sty)) with (@nil (call Sty) ++ []). eapply emits_bind; eauto. Qed.

Lemma dynamic_content l st s lines c : (s_height s < U32)%N -> content_of get_content l st s lines c ->
  exists p, pd_lines p = lines /\ doc_is p c (s_height s) /\
    exists N, forall n, N <= n -> emits (dynamic_doc get_content n l s st) [] (Ok p).
Proof.
  intros Hs H. destruct (content_doc Hs H) as [(E & -> & ->)|(doc & o & p & E & (N & He) & El & Hp)].
  - exists (printed_doc_empty st). split; [reflexivity|]. split; [apply empty_is|]. exists 0. intros n _. unfold dynamic_doc. rewrite E. apply emits_ret.
  - exists p. split; auto. split; auto. exists N. intros n Hn. unfold dynamic_doc. rewrite E. apply emits_printing_ok. auto.
Qed.

Lemma horz_needs_spec st ps av ns : (s_height av < U32)%N -> (s_width av < U16)%N -> horz_needs get_content st ps av ns ->
  (total (map fst ns) <= s_width av)%N /\
  exists docs, Forall2 (fun p n => doc_is p (snd n) (s_height av)) docs ns /\
    exists N, forall n, N <= n -> emits (horz_dynamic get_content n st ps av) [] (Ok (map fst ns, docs)).
Proof.
  intros Hh Hw H. unfold horz_needs in H. induction H as [av|k p ps av ns Hk H IH|p ps av l st' lines c ns Hd Hc Hl H IH].
  - split; [simpl; lia|]. exists []. split; [constructor|]. exists 0. intros n _. apply emits_ret.
  - destruct (IH Hh Hw) as (I1 & docs & I2 & N & I3). split; auto. exists docs. split; auto. exists N. intros n Hn.
    destruct k; [exact (I3 n Hn)|congruence|exact (I3 n Hn)].
  - unfold less_wide in IH. cbn [s_width s_height] in IH. destruct IH as (I1 & docs & I2 & N & I3); [auto|lia|].
    destruct (dynamic_content Hh Hc) as (p0 & El & Hp & N2 & H2).
    assert (Ew : printed_doc_width p0 = Ok (fold_right N.max 0%N (map (fun l => total (map seg_width l)) lines))).
    { unfold printed_doc_width. rewrite El, mapM_lines by auto. reflexivity. }
    assert (Hm : (widest av lines <= s_width av)%N) by (unfold widest; lia).
    split. { cbn [map fst]. change (total (?a :: ?b)) with (a + total b)%N. lia. }
    exists (p0 :: docs). split; [constructor; auto|]. exists (N + N2). intros n Hn. cbn [horz_dynamic].
    eapply emits_pure_bind; [apply is_doc_extract; exact Hd|]. cbn [fst snd].
    eapply emits_nil_then; [apply H2; lia|]. eapply emits_nil_then; [apply emits_printing_ok; exact Ew|].
    fold (widest av lines).
    eapply emits_pure_bind; [apply sub16_exact; exact Hm|]. eapply emits_nil_then; [apply I3; lia|]. apply emits_ret.
Qed.

Lemma vert_needs_spec st ps av ns : (s_height av < U32)%N -> vert_needs get_content st ps av ns ->
  (total (map fst ns) <= s_height av)%N /\
  exists docs, Forall2 (fun p n => exists h, doc_is p (snd n) h /\ fst n = N.of_nat (length (pd_lines p)) /\ (h <= s_height av)%N) docs ns /\
    exists N, forall n, N <= n -> emits (vert_dynamic get_content n st ps av) [] (Ok (map fst ns, docs)).
Proof.
  intros Hh H. unfold vert_needs in H. induction H as [av|k p ps av ns Hk H IH|p ps av l st' lines c ns Hd Hc Hl H IH].
  - split; [simpl; lia|]. exists []. split; [constructor|]. exists 0. intros n _. apply emits_ret.
  - destruct (IH Hh) as (I1 & docs & I2 & N & I3). split; auto. exists docs. split; auto. exists N. intros n Hn.
    destruct k; [exact (I3 n Hn)|congruence|exact (I3 n Hn)].
  - destruct (dynamic_content Hh Hc) as (p0 & El & Hp & N2 & H2).
    pose proof Hp as (_ & _ & _ & _ & _ & _ & Hlen). rewrite El in Hlen. unfold how_many in *.
    unfold less_high in IH. cbn [s_width s_height] in IH. destruct IH as (I1 & docs & I2 & N & I3); [lia|].
    assert (Eh : printed_doc_height p0 = N.of_nat (length lines)) by (unfold printed_doc_height; rewrite El; apply N.mod_small; lia).
    split. { cbn [map fst]. change (total (?a :: ?b)) with (a + total b)%N. lia. }
    exists (p0 :: docs). split.
    { constructor; [exists (s_height av); rewrite El; split; auto; split; [reflexivity|lia]|].
      clear - I2 Hlen. induction I2 as [|a b l1 l2 (h' & A1 & A2 & A3) F IH]; constructor; auto. exists h'. split; auto. split; auto. lia. }
    exists (N + N2). intros n Hn. cbn [vert_dynamic].
    eapply emits_pure_bind; [apply is_doc_extract; exact Hd|]. cbn [fst snd].
    eapply emits_nil_then; [apply H2; lia|]. rewrite Eh.
    eapply emits_pure_bind; [apply sub32_exact; exact Hlen|]. eapply emits_nil_then; [apply I3; lia|]. apply emits_ret.
Qed.

End Docs.
