(** Where panes draw: inside their rectangle, no cell twice, all of it. *)
From Verif Require Export PPane2.

Set Implicit Arguments.

(** ** Dividing the space *)
Section Divide.
Context {X : Type} (ovf : bool).

Lemma mapM_div_zero (f : N -> res X N) hs l : mapM (fun h => x <- f h ;; divM x 0%N) hs = Ok l -> hs = [].
Proof.
  destruct hs as [|h hs]; auto. simpl. destruct (f h); simpl; unfold divM; simpl; discriminate.
Qed.

Lemma weights_nil_total sizes : weights sizes = [] -> weight_total sizes = 0%N.
Proof. intros H. rewrite weight_total_weights, H. reflexivity. Qed.
Lemma weights_in' sizes h : In (Proportional h) sizes -> weights sizes <> [].
Proof. induction sizes as [|[] s IH]; simpl; intros Hin; try (destruct Hin as [Hin|Hin]; [discriminate|]; auto); try tauto. congruence. Qed.

Lemma divvy_ok available sizes dyn al :
  (available < USIZE)%N -> (available * weight_total sizes < USIZE)%N -> (weight_total sizes < USIZE)%N ->
  (total dyn < USIZE)%N ->
  divvy (X := X) ovf available sizes dyn = Ok al ->
  length al = length sizes /\ (total al <= available)%N /\ (weight_total sizes <> 0%N -> total al = available) /\
  divisible available sizes /\ length dyn = dynamic_count sizes /\ (total dyn <= after_fixed available sizes)%N.
Proof.
  intros H1 H2 H3 H4 H. destruct (@give_ok X ovf _ _ _ _ H) as (L1 & _ & _ & L2).
  destruct (new_spec available sizes) as (N1 & N2 & N3 & _).
  pose proof H as H0. unfold divvy, finish, allocate_dynamic in H0.
  apply bind_Ok in H0 as (d2 & H0 & H5). apply bind_Ok in H0 as (sum & Hs & H0).
  rewrite sumM_exact in Hs by auto. injection Hs as <-.
  destruct (N.leb_spec (total dyn) (dv_cookies (divvier_new available sizes))) as [Hle|]; [|discriminate].
  rewrite N3 in Hle. apply bind_Ok in H0 as ([al1 rest] & Hd & H0). destruct rest; [|discriminate]. injection H0 as <-.
  assert (Hdiv : divisible available sizes).
  { split; auto. split; auto. split; auto. intros (h & Hh). apply weights_in' in Hh.
    destruct (N.eq_dec (weight_total sizes) 0) as [E|E]; [|lia]. exfalso. apply Hh.
    apply bind_Ok in H5 as (d3 & H5 & _). unfold allocate_proportional in H5. simpl in H5. rewrite N1 in H5.
    apply bind_Ok in H5 as (t & Ht & H5). rewrite sumM_exact in Ht by (rewrite <- weight_total_weights; auto).
    injection Ht as <-. rewrite <- weight_total_weights, E in H5. apply bind_Ok in H5 as (base & Hb & _).
    eapply mapM_div_zero. exact Hb. }
  destruct (@divvy_spec X ovf _ _ _ Hdiv L2 Hle) as (al' & Ha & Hb & Hc & _). rewrite H in Ha. injection Ha as <-.
  split; auto. split; auto. split; [|auto]. intros Hw. apply Hc. intros E. apply weights_nil_total in E. auto.
Qed.

End Divide.

Section Draws.
Context {pd : PrettyDoc} {env : Env} {WE : Type} {sz : size}.
Local Instance rwin3 : PrettyWindow Sty := recorder Sty WE sz.
Local Notation emits := (@PPane.emits pd WE sz _).
Local Notation M := (@Pane.M pd rwin3).
Notation all_cells := (flat_map (@cells Sty)).

(** Any computation emits something. *)
Definition draws {A} (m : M A) : Prop := exists cs r, emits m cs r.

(** Inside [r], no cell twice. *)
Definition tidy (r : rectangle) (cs : list (call Sty)) : Prop :=
  NoDup (all_cells cs) /\ forall c, In c (all_cells cs) -> in_rect r c.
Definition covers (r : rectangle) (cs : list (call Sty)) : Prop :=
  forall c, in_rect r c -> In c (all_cells cs).

Lemma tidy_nil r : tidy r [].
Proof. split; [constructor|intros c []]. Qed.
Lemma tidy_focus r p cs : tidy r cs -> tidy r (SetFocus p :: cs).
Proof. auto. Qed.
Lemma tidy_prefix r cs : prefix (all_cells cs) (rect_cells r) -> tidy r cs.
Proof.
  intros H. split; [eapply prefix_nodup; eauto; apply rect_cells_nodup|].
  intros c Hc. apply rect_cells_in. eapply prefix_in; eauto.
Qed.
Lemma covers_eq r cs : all_cells cs = rect_cells r -> covers r cs.
Proof. intros H c Hc. rewrite H. apply rect_cells_in. auto. Qed.

(** ** Fill *)
Lemma columns_repeat ch (st : Sty) n : columns_of (repeat (ch, st) n) = (N.of_nat n * columns ch)%N.
Proof.
  induction n as [|n IH]; [reflexivity|]. change (columns_of (repeat (ch, st) (S n))) with (columns ch + columns_of (repeat (ch, st) n))%N.
  rewrite IH, Nat2N.inj_succ. lia.
Qed.

Lemma fill_loop ch st r row : (max_col r + 2 < U16)%N -> forall fuel n col,
  (col + N.of_nat n * columns ch <= max_col r)%N -> (max_col r < col + N.of_nat n * columns ch + columns ch)%N ->
  exists cs res, emits (mloop fuel (fill_body ch st r row) col) cs res /\
    prefix cs (place row col (repeat (ch, st) n)) /\
    (res = Fail FFuel \/ (res = Ok (col + N.of_nat n * columns ch)%N /\ cs = place row col (repeat (ch, st) n))) /\
    (n < fuel -> res = Ok (col + N.of_nat n * columns ch)%N).
Proof.
  intros Hr. induction fuel as [|fuel IH]; intros n col H1 H2; cbn [mloop].
  - exists [], (Fail FFuel). split; [apply emits_fail|]. split; [eexists; reflexivity|]. split; auto. lia.
  - pose proof (columns_bounds ch) as Hb. unfold fill_body at 1. rewrite width_columns. destruct n as [|n].
    + simpl in H1, H2. rewrite N.add_0_r in H1, H2. eexists [], _. split; [|split; [|split]].
      * change (@nil (call Sty)) with (@nil (call Sty) ++ []). eapply emits_bind with (a := Done col).
        -- eapply emits_pure_bind; [apply add16_exact; lia|]. destruct (N.leb_spec (col + columns ch) (max_col r)); [lia|]. apply emits_ret.
        -- apply emits_ret.
      * eexists; reflexivity.
      * right. simpl. rewrite N.add_0_r. auto.
      * simpl. rewrite N.add_0_r. auto.
    + rewrite Nat2N.inj_succ, N.mul_succ_l in *.
      destruct (IH n (col + columns ch)%N) as (cs & res & I1 & I2 & I3 & I4); [lia|lia|].
      exists (Put ch (Pos row col) st (char_full_width ch) :: cs), res. split; [|split; [|split]].
      * change (Put ch (Pos row col) st (char_full_width ch) :: cs) with ([Put ch (Pos row col) st (char_full_width ch)] ++ cs).
        eapply emits_bind with (a := Next (col + columns ch)%N); [|exact I1].
        eapply emits_pure_bind; [apply add16_exact; lia|]. destruct (N.leb_spec (col + columns ch) (max_col r)); [|lia].
        rewrite <- (app_nil_r [_]). eapply emits_bind; [apply emits_put|].
        eapply emits_pure_bind; [apply add16_exact; lia|]. apply emits_ret.
      * simpl. apply (prefix_app [_] I2).
      * destruct I3 as [I3|[I3 ->]]; auto. right. split; [|reflexivity]. rewrite I3. f_equal. lia.
      * intros Hf. rewrite I4 by lia. f_equal. lia.
Qed.

Lemma repeat_firstn {A} (x : A) n m : n <= m -> repeat x m = repeat x n ++ repeat x (m - n).
Proof. intros H. rewrite <- repeat_app. f_equal. lia. Qed.

Lemma fill_fit r ch (st : Sty) : (min_col r <= max_col r)%N -> exists n,
  (min_col r + N.of_nat n * columns ch <= max_col r)%N /\ (max_col r < min_col r + N.of_nat n * columns ch + columns ch)%N /\
  longest_fitting (max_col r - min_col r) (repeat (ch, st) (N.to_nat (max_col r - min_col r))) (repeat (ch, st) n).
Proof.
  intros Hr. assert (Ew : (min_col r + (max_col r - min_col r) = max_col r)%N) by lia.
  revert Ew. generalize (max_col r - min_col r)%N as w. intros w Ew. pose proof (columns_bounds ch) as Hb.
  exists (N.to_nat (w / columns ch)). rewrite N2Nat.id.
  assert (Hc : columns ch <> 0%N) by lia.
  pose proof (N.div_mod w (columns ch) Hc) as Hd. pose proof (N.mod_lt w (columns ch) Hc) as Hm.
  rewrite (N.mul_comm (columns ch) (w / columns ch)) in Hd.
  assert (Hle : (w / columns ch <= w)%N) by (apply N.div_le_upper_bound; nia).
  remember (w / columns ch)%N as q eqn:Eq. remember (w mod columns ch)%N as m eqn:Em. clear Eq Em.
  split; [lia|]. split; [lia|].
  exists (repeat (ch, st) (N.to_nat w - N.to_nat q)). split; [|split].
  - apply repeat_firstn. lia.
  - rewrite columns_repeat, N2Nat.id. lia.
  - rewrite columns_repeat, N2Nat.id. destruct (N.to_nat w - N.to_nat q); cbn [repeat]; auto. cbn [fst]. lia.
Qed.

(** C45.  A row of a Fill pane. *)
Lemma fill_row_spec fuel ch st r row : rect_ok r ->
  exists cs res full, emits (fill_row fuel ch st r row) cs res /\
    row_shows r row (repeat (ch, st) (N.to_nat (max_col r - min_col r))) st full /\ prefix cs full /\
    (res = Fail FFuel \/ (res = Ok tt /\ cs = full)) /\
    (N.to_nat (max_col r - min_col r) < fuel -> res = Ok tt).
Proof.
  intros (R1 & R2 & R3 & R4). destruct (@fill_fit r ch st R2) as (n & F1 & F2 & F3).
  destruct (@fill_loop ch st r row R3 fuel n (min_col r) F1 F2) as (cs & res & H1 & H2 & H3 & H4).
  set (shown := repeat (ch, st) n) in *. assert (Es : columns_of shown = (N.of_nat n * columns ch)%N) by apply columns_repeat.
  set (full := place row (min_col r) shown ++ blanks row (min_col r + columns_of shown) (max_col r) st).
  assert (Hrow : row_shows r row (repeat (ch, st) (N.to_nat (max_col r - min_col r))) st full) by (exists shown; auto).
  assert (Hn : n <= N.to_nat (max_col r - min_col r)) by (pose proof (columns_bounds ch); nia).
  destruct H3 as [->|[-> ->]].
  - exists cs, (Fail FFuel), full. split; [apply emits_bind_fail; auto|]. split; auto. split; [apply prefix_l; auto|].
    split; auto. intros Hf. specialize (H4 ltac:(lia)). discriminate.
  - exists full, (Ok tt), full. split; [|split; [|split; [apply prefix_refl|auto]]]; auto.
    unfold fill_row, full. eapply emits_bind; [exact H1|]. rewrite <- Es.
    destruct (N.ltb_spec (min_col r + columns_of shown) (max_col r)).
    + assert (Eb : blanks row (min_col r + columns_of shown) (max_col r) st = [Put space (Pos row (min_col r + columns_of shown)) st false]).
      { unfold blanks. rewrite range_cons by lia. pose proof (columns_bounds ch). rewrite range_nil by lia. reflexivity. }
      rewrite Eb. apply emits_put.
    + unfold blanks. rewrite range_nil by lia. apply emits_ret.
Qed.

Lemma rows_cells r rows fulls (chs : N -> list (char * Sty)) blank : (min_col r <= max_col r)%N ->
  Forall2 (fun row full => row_shows r row (chs row) blank full) rows fulls ->
  all_cells (concat fulls) = flat_map (row_cells r) rows.
Proof.
  intros Hr. induction 1 as [|row full rows fulls H _ IH]; simpl; [reflexivity|].
  rewrite flat_map_app, IH, (row_shows_cells Hr H). reflexivity.
Qed.

Lemma fill_spec fuel ch st r : rect_ok r ->
  exists cs res fulls, emits (display_fill fuel ch st r) cs res /\
    Forall2 (fun row full => row_shows r row (repeat (ch, st) (N.to_nat (max_col r - min_col r))) st full)
      (range (min_row r) (max_row r)) fulls /\
    prefix cs (concat fulls) /\ (res = Ok tt -> cs = concat fulls) /\
    (res = Fail FFuel \/ res = Ok tt) /\
    (N.to_nat (max_col r - min_col r) < fuel -> res = Ok tt).
Proof.
  intros Hr.
  destruct (@rows_spec pd WE sz (fun row full => row_shows r row (repeat (ch, st) (N.to_nat (max_col r - min_col r))) st full)
    (fill_row fuel ch st r) (N.to_nat (max_col r - min_col r) < fuel) (range (min_row r) (max_row r))) as (cs & res & fulls & H1 & H2 & H3 & H4 & H5).
  - intros row _. destruct (@fill_row_spec fuel ch st r row Hr) as (cs & res & full & H1 & H2 & H3 & H4 & H5).
    exists cs, res, full. split; auto. split; auto. split; auto. split; auto.
    intros ->. destruct H4 as [H4|[_ H4]]; [discriminate|auto].
  - exists cs, res, fulls. split; auto. split; auto. split; auto. split; auto. split; auto.
    clear - H1 Hr. unfold display_fill in H1. revert cs H1. induction (range (min_row r) (max_row r)) as [|row rows IH]; intros cs H1.
    + right. eapply emits_det; [exact H1|apply emits_ret].
    + destruct (@fill_row_spec fuel ch st r row Hr) as (cs1 & res1 & full & J1 & _ & _ & [->|[-> _]] & _).
      * left. eapply emits_det; [exact H1|]. apply emits_bind_fail. exact J1.
      * destruct (@rows_spec pd WE sz (fun _ _ => True) (fill_row fuel ch st r) False rows) as (cs2 & res2 & _ & K & _).
        { intros row' _. destruct (@fill_row_spec fuel ch st r row' Hr) as (a & b & c & A1 & A2 & A3 & A4 & _).
          exists a, b, c. split; auto. split; auto. split; auto. split; [|tauto]. intros ->. destruct A4 as [A4|[_ A4]]; [discriminate|auto]. }
        destruct (emits_det H1 (emits_bind _ J1 K)) as [_ ->]. eapply IH. exact K.
Qed.

(** ** Documents *)
Lemma emits_bind_any {A B} (m : M A) (k : A -> M B) cs r :
  emits m cs r -> (forall a, r = Ok a -> draws (k a)) -> draws (mbind m k).
Proof.
  intros H1 H2. destruct r as [a|f].
  - destruct (H2 a eq_refl) as (cs2 & r2 & H3). eexists _, _. eapply emits_bind; eauto.
  - eexists _, _. apply emits_bind_fail. eauto.
Qed.

(** A row of a document pane, whatever is displayed. *)
Lemma doc_row_spec fuel p r a b rel : rect_ok r -> (min_row r + rel < max_row r)%N ->
  exists cs res full, emits (display_row fuel p r a b rel) cs res /\
    all_cells full = row_cells r (min_row r + rel) /\ prefix cs full /\
    (res = Ok tt -> cs = full).
Proof.
  intros Hr Hrel. unfold display_row. pose proof Hr as (R1 & R2 & R3 & R4).
  assert (Hb : all_cells (blanks (min_row r + rel) (min_col r) (max_col r) (pd_blank_style p)) = row_cells r (min_row r + rel)) by apply blanks_cells.
  destruct ((a <=? rel) && (rel <? b))%N eqn:E.
  - destruct (nth_error (pd_lines p) (N.to_nat (rel - a))) as [l|].
    + destruct (@line_spec pd env WE sz fuel l rel r (pd_blank_style p) Hr Hrel) as (cs & res & full & H1 & H2 & H3 & H4 & _).
      exists cs, res, full. split; auto. split; [eapply row_shows_cells; eauto|]. split; auto.
      intros ->. destruct H4 as [H4|[_ H4]]; [discriminate|auto].
    + exists [], (Fail (FPanic PIndex)), (blanks (min_row r + rel) (min_col r) (max_col r) (pd_blank_style p)).
      split; [apply emits_fail|]. split; auto. split; [eexists; reflexivity|discriminate].
  - eexists _, _, _. split; [apply blank_spec; auto|]. split; [exact Hb|]. split; [apply prefix_refl|auto].
Qed.

Lemma doc_rows_spec fuel p r a b : rect_ok r ->
  exists cs res, emits (forM (range 0 (max_row r - min_row r)) (display_row fuel p r a b)) cs res /\
    tidy r cs /\ (res = Ok tt -> covers r cs).
Proof.
  intros Hr. pose proof Hr as (R1 & R2 & R3 & R4).
  destruct (@rows_spec pd WE sz (fun rel full => all_cells full = row_cells r (min_row r + rel))
     (display_row fuel p r a b) False (range 0 (max_row r - min_row r))) as (cs & res & fulls & H1 & H2 & H3 & H4 & _).
  - intros rel Hrel. apply range_in in Hrel. destruct (@doc_row_spec fuel p r a b rel Hr) as (cs & res & full & H1 & H2 & H3 & H4); [lia|].
    exists cs, res, full. split; auto. split; auto. split; auto. split; auto. tauto.
  - assert (E : all_cells (concat fulls) = rect_cells r).
    { unfold rect_cells. assert (Er : range (min_row r) (max_row r) = map (fun rel => min_row r + rel)%N (range 0 (max_row r - min_row r))).
      { unfold range. rewrite map_map. rewrite N.sub_0_r. apply map_ext. intros; lia. }
      rewrite Er. clear - H2. induction H2; simpl; [reflexivity|]. rewrite flat_map_app, H, IHForall2. reflexivity. }
    exists cs, res. split; auto. split.
    + apply tidy_prefix. rewrite <- E. apply cells_prefix. auto.
    + intros Hres. rewrite (H4 Hres). apply covers_eq. auto.
Qed.

Lemma emits_pure_fail {A B} (r : res (pane_err WE Er) A) f (k : A -> M B) :
  r = Fail f -> emits (mbind (pure r) k) [] (Fail f).
Proof. intros ->. apply emits_bind_fail, emits_pure. Qed.

Lemma doc_spec fuel p r : rect_ok r ->
  exists cs res, emits (display_doc fuel p r) cs res /\ tidy r cs /\ (res = Ok tt -> covers r cs).
Proof.
  intros Hr. pose proof Hr as (R1 & R2 & R3 & R4). unfold display_doc.
  set (rest := fun _ : unit => _).
  assert (Hrest : exists cs res, emits (rest tt) cs res /\ tidy r cs /\ (res = Ok tt -> covers r cs)).
  { unfold rest.
    destruct (sub32 (X := pane_err WE Er) (pd_focus_line_row p) (castM U32 (N.of_nat (pd_focus_line_index p)))) as [a|f] eqn:Ea.
    2:{ exists [], (Fail f). split; [eapply emits_pure_fail; exact Ea|]. split; [apply tidy_nil|discriminate]. }
    destruct (add32 (X := pane_err WE Er) a (castM U32 (N.of_nat (length (pd_lines p))))) as [b|f] eqn:Eb.
    2:{ exists [], (Fail f). split; [|split; [apply tidy_nil|discriminate]].
        eapply emits_pure_bind; [exact Ea|]. eapply emits_pure_fail; exact Eb. }
    destruct (@doc_rows_spec fuel p r a b Hr) as (cs & res & H1 & H2 & H3).
    exists cs, res. split; auto. eapply emits_pure_bind; [exact Ea|]. eapply emits_pure_bind; [exact Eb|].
    eapply emits_pure_bind; [unfold rect_size, rect_height, rect_width; rewrite sub32_exact, sub16_exact by lia; reflexivity|].
    exact H1. }
  destruct Hrest as (cs & res & H1 & H2 & H3).
  destruct (pd_focus_point p) as [fp|].
  - destruct (add32 (X := pane_err WE Er) (p_row fp) (min_row r)) as [row|f] eqn:Er1.
    2:{ exists [], (Fail f). split; [|split; [apply tidy_nil|discriminate]]. apply emits_bind_fail. eapply emits_pure_fail; exact Er1. }
    destruct (add16 (X := pane_err WE Er) ovf (p_col fp) (min_col r)) as [col|f] eqn:Er2.
    2:{ exists [], (Fail f). split; [|split; [apply tidy_nil|discriminate]]. apply emits_bind_fail.
        eapply emits_pure_bind; [exact Er1|]. eapply emits_pure_fail; exact Er2. }
    exists (SetFocus (Pos row col) :: cs), res. split; [|split; [apply tidy_focus; auto|exact H3]].
    change (SetFocus (Pos row col) :: cs) with ([SetFocus (Pos row col)] ++ cs). eapply emits_bind with (a := tt); [|exact H1].
    eapply emits_pure_bind; [exact Er1|]. eapply emits_pure_bind; [exact Er2|]. apply emits_focus.
  - exists cs, res. split; auto.
Qed.

End Draws.
