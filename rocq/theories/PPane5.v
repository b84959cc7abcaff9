(** Nested panes: everything is drawn inside, no cell twice, all of it. *)
From Verif Require Export PPane4.

Set Implicit Arguments.

Section Draws.
Context {pd : PrettyDoc} {env : Env} {WE : Type} {sz : size}.
Local Instance rwin5 : PrettyWindow Sty := recorder Sty WE sz.
Local Notation emits := (@PPane.emits pd WE sz _).
Local Notation M := (@Pane.M pd rwin5).
Notation all_cells := (flat_map (@cells Sty)).
Context {L : Type}.
Variable get_content : L -> option (D * printing_options).
Notation pane := (pane L Sty).

Lemma rect_in_ok r : window_size sz -> rect_in sz r -> rect_ok r.
Proof. intros [W1 W2] [R1 R2]. unfold rect_ok. lia. Qed.

Lemma emits_printing {A} (x : pres A) : exists res, emits (from_printing x) [] res /\
  forall a, res = Ok a <-> x = Ok a.
Proof.
  eexists. split; [intros l; rewrite app_nil_r; reflexivity|].
  intros a. destruct x as [b|[e|p|]]; split; intros H; try discriminate; injection H as ->; reflexivity.
Qed.

(** ** The dynamic panes *)
Lemma dynamic_emits fuel l av st : exists res, emits (dynamic_doc get_content fuel l av st) [] res.
Proof.
  unfold dynamic_doc. destruct (get_content l) as [[doc o]|].
  - destruct (emits_printing (printed_doc_new fuel doc o av st)) as (res & H & _). eauto.
  - eexists. apply emits_ret.
Qed.

Lemma emits_nil_bind {A B} (m : M A) (k : A -> M B) r1 r :
  emits m [] r1 -> (forall a, r1 = Ok a -> emits (k a) [] (r a)) ->
  emits (mbind m k) [] (match r1 with Ok a => r a | Fail f => Fail f end).
Proof.
  intros H1 H2. destruct r1 as [a|f].
  - change (@nil (call Sty)) with (@nil (call Sty) ++ []). eapply emits_bind; eauto.
  - apply emits_bind_fail. auto.
Qed.

Lemma horz_spec fuel st ps : forall av, (s_width av < U16)%N ->
  exists res, emits (horz_dynamic get_content fuel st ps av) [] res /\
    forall x, res = Ok x -> (total (fst x) <= s_width av)%N /\ length (fst x) = dynamic_count (map fst ps) /\
      length (snd x) = dynamic_count (map fst ps).
Proof.
  induction ps as [|[k c] ps IH]; intros av Hav.
  - eexists. split; [apply emits_ret|]. intros x [= <-]. simpl. split; [lia|auto].
  - destruct k; [apply IH; auto| |apply IH; auto].
    destruct (extract_doc c st) as [[l st']|f] eqn:Ex.
    2:{ exists (Fail f). split; [eapply emits_pure_fail; exact Ex|discriminate]. }
    destruct (dynamic_emits fuel l av st') as (res1 & H1). destruct res1 as [p|f].
    2:{ exists (Fail f). split; [|discriminate]. eapply emits_pure_bind; [exact Ex|]. apply emits_bind_fail. exact H1. }
    destruct (emits_printing (printed_doc_width p)) as (res2 & H2 & _). destruct res2 as [w|f].
    2:{ exists (Fail f). split; [|discriminate]. eapply emits_pure_bind; [exact Ex|].
        change (@nil (call Sty)) with (@nil (call Sty) ++ []). eapply emits_bind; [exact H1|]. apply emits_bind_fail. exact H2. }
    destruct (IH (Size (s_width av - N.min w (s_width av)) (s_height av))) as (res3 & H3 & Hx); [simpl; lia|].
    assert (Hm : forall res cs, emits (y <-- horz_dynamic get_content fuel st ps (Size (s_width av - N.min w (s_width av)) (s_height av)) ;;;
         ret (N.min w (s_width av) :: fst y, p :: snd y)) cs res ->
       emits (horz_dynamic get_content fuel st ((Dynamic, c) :: ps) av) cs res).
    { intros res cs H. cbn [horz_dynamic]. eapply emits_pure_bind; [exact Ex|]. cbn [fst snd].
      change cs with (@nil (call Sty) ++ cs). eapply emits_bind; [exact H1|].
      change cs with (@nil (call Sty) ++ cs). eapply emits_bind; [exact H2|].
      eapply emits_pure_bind; [apply sub16_exact; lia|]. exact H. }
    destruct res3 as [y|f].
    + exists (Ok (N.min w (s_width av) :: fst y, p :: snd y)). split.
      * apply Hm. change (@nil (call Sty)) with (@nil (call Sty) ++ []). eapply emits_bind; [exact H3|]. apply emits_ret.
      * intros x [= <-]. destruct (Hx y eq_refl) as (X1 & X2 & X3). cbn [fst snd map dynamic_count length s_width] in *.
        change (total (?a :: ?b)) with (a + total b)%N. split; [lia|split; congruence].
    + exists (Fail f). split; [|discriminate]. apply Hm. apply emits_bind_fail. exact H3.
Qed.

Lemma vert_spec fuel st ps : forall av,
  exists res, emits (vert_dynamic get_content fuel st ps av) [] res /\
    forall x, res = Ok x -> Forall (fun h => h < U32)%N (fst x) /\ length (fst x) = dynamic_count (map fst ps) /\
      length (snd x) = dynamic_count (map fst ps).
Proof.
  induction ps as [|[k c] ps IH]; intros av.
  - eexists. split; [apply emits_ret|]. intros x [= <-]. simpl. auto.
  - destruct k; [apply IH; auto| |apply IH; auto].
    destruct (extract_doc c st) as [[l st']|f] eqn:Ex.
    2:{ exists (Fail f). split; [eapply emits_pure_fail; exact Ex|discriminate]. }
    destruct (dynamic_emits fuel l av st') as (res1 & H1). destruct res1 as [p|f].
    2:{ exists (Fail f). split; [|discriminate]. eapply emits_pure_bind; [exact Ex|]. apply emits_bind_fail. exact H1. }
    destruct (sub32 (X := pane_err WE Er) (s_height av) (printed_doc_height p)) as [rest|f] eqn:Es.
    2:{ exists (Fail f). split; [|discriminate]. eapply emits_pure_bind; [exact Ex|].
        change (@nil (call Sty)) with (@nil (call Sty) ++ []). eapply emits_bind; [exact H1|]. eapply emits_pure_fail. exact Es. }
    destruct (IH (Size (s_width av) rest)) as (res3 & H3 & Hx).
    assert (Hm : forall res cs, emits (y <-- vert_dynamic get_content fuel st ps (Size (s_width av) rest) ;;;
         ret (printed_doc_height p :: fst y, p :: snd y)) cs res ->
       emits (vert_dynamic get_content fuel st ((Dynamic, c) :: ps) av) cs res).
    { intros res cs H. cbn [vert_dynamic]. eapply emits_pure_bind; [exact Ex|]. cbn [fst snd].
      change cs with (@nil (call Sty) ++ cs). eapply emits_bind; [exact H1|].
      eapply emits_pure_bind; [exact Es|]. exact H. }
    destruct res3 as [y|f].
    + exists (Ok (printed_doc_height p :: fst y, p :: snd y)). split.
      * apply Hm. change (@nil (call Sty)) with (@nil (call Sty) ++ []). eapply emits_bind; [exact H3|]. apply emits_ret.
      * intros x [= <-]. destruct (Hx y eq_refl) as (X1 & X2 & X3). cbn [fst snd map dynamic_count length] in *.
        split; [|split; congruence]. constructor; auto. unfold printed_doc_height, castM. apply N.mod_lt. discriminate.
    + exists (Fail f). split; [|discriminate]. apply Hm. apply emits_bind_fail. exact H3.
Qed.

Lemma total_bound l b : Forall (fun h => h < b)%N l -> (total l <= N.of_nat (length l) * b)%N.
Proof.
  induction 1 as [|x l H _ IH]; [simpl; lia|]. change (total (x :: l)) with (x + total l)%N. cbn [length].
  rewrite Nat2N.inj_succ, N.mul_succ_l. lia.
Qed.
Lemma dynamic_count_le s : dynamic_count s <= length s.
Proof. induction s as [|[] s IH]; simpl; lia. Qed.

(** ** Slices *)
Definition hslice (r : rectangle) (a b : N) : rectangle := Rectangle (min_row r) (max_row r) a b.
Definition vslice (r : rectangle) (a b : N) : rectangle := Rectangle a b (min_col r) (max_col r).

Lemma horz_eq fuel ps st r : display_pane_rec get_content fuel (Horz ps) st r =
  (w <-- pure (rect_width r) ;;;
   h <-- pure (rect_height r) ;;;
   x <-- horz_dynamic get_content fuel st ps (Size (castM U16 (remaining (divvier_new w (map fst ps)))) h) ;;;
   widths <-- pure (divvy ovf w (map fst ps) (fst x)) ;;;
   @kids pd env WE sz L U16 fuel (fun c rect => display_pane_rec get_content fuel c st rect) (hslice r) (add16 ovf) ps widths (snd x) (min_col r)).
Proof. reflexivity. Qed.
Lemma vert_eq fuel ps st r : display_pane_rec get_content fuel (Vert ps) st r =
  (h <-- pure (rect_height r) ;;;
   w <-- pure (rect_width r) ;;;
   x <-- vert_dynamic get_content fuel st ps (Size w (castM U32 (remaining (divvier_new h (map fst ps))))) ;;;
   heights <-- pure (divvy ovf h (map fst ps) (fst x)) ;;;
   @kids pd env WE sz L U32 fuel (fun c rect => display_pane_rec get_content fuel c st rect) (vslice r) add32 ps heights (snd x) (min_row r)).
Proof. reflexivity. Qed.

Lemma offset_slice_h r widths i : hslice r (offset (min_col r) widths i) (offset (min_col r) widths (S i)) = column_slice r widths i.
Proof. reflexivity. Qed.
Lemma offset_slice_v r widths i : vslice r (offset (min_row r) widths i) (offset (min_row r) widths (S i)) = row_slice r widths i.
Proof. reflexivity. Qed.

(** A Horz or Vert: nothing is drawn, or the available space is divided and
    the parts are drawn one after the other. *)
Definition horz_parts (fuel : nat) (ps : list (pane_size * pane)) (st : Sty) (r : rectangle) : Prop :=
  let m := display_pane_rec get_content fuel (Horz ps) st r in
  (exists f, emits m [] (Fail f)) \/
  exists dyn docs widths,
    emits (horz_dynamic get_content fuel st ps (Size (after_fixed (max_col r - min_col r) (map fst ps)) (max_row r - min_row r))) [] (Ok (dyn, docs)) /\
    divvy (X := pane_err WE Er) ovf (max_col r - min_col r) (map fst ps) dyn = Ok widths /\
    length widths = length ps /\ (total widths <= max_col r - min_col r)%N /\
    (weight_total (map fst ps) <> 0%N -> total widths = (max_col r - min_col r)%N) /\
    in_parts fuel (fun c rect => display_pane_rec get_content fuel c st rect) (hslice r) ps widths docs (min_col r) m.

Definition vert_parts (fuel : nat) (ps : list (pane_size * pane)) (st : Sty) (r : rectangle) : Prop :=
  let m := display_pane_rec get_content fuel (Vert ps) st r in
  (exists f, emits m [] (Fail f)) \/
  exists dyn docs heights,
    emits (vert_dynamic get_content fuel st ps (Size (max_col r - min_col r) (after_fixed (max_row r - min_row r) (map fst ps)))) [] (Ok (dyn, docs)) /\
    divvy (X := pane_err WE Er) ovf (max_row r - min_row r) (map fst ps) dyn = Ok heights /\
    length heights = length ps /\ (total heights <= max_row r - min_row r)%N /\
    (weight_total (map fst ps) <> 0%N -> total heights = (max_row r - min_row r)%N) /\
    in_parts fuel (fun c rect => display_pane_rec get_content fuel c st rect) (vslice r) ps heights docs (min_row r) m.

Hypothesis Hwin : window_size sz.

Lemma hslice_ok r a b : rect_in sz r -> (min_col r <= a)%N -> (a <= b)%N -> (b <= max_col r)%N -> rect_in sz (hslice r a b).
Proof. intros [R1 R2] ? ? ?. unfold rect_in, hslice. simpl. lia. Qed.
Lemma vslice_ok r a b : rect_in sz r -> (min_row r <= a)%N -> (a <= b)%N -> (b <= max_row r)%N -> rect_in sz (vslice r a b).
Proof. intros [R1 R2] ? ? ?. unfold rect_in, vslice. simpl. lia. Qed.

Lemma after_fixed_le a s : (after_fixed a s <= a)%N.
Proof. unfold after_fixed. lia. Qed.

Lemma rec_draws fuel p st r : @draws pd WE sz _ (display_pane_rec get_content fuel p st r).
Proof.
  destruct (@sim_rec pd env rwin5 sz L get_content fuel p st r) as (cs & res & H & _). exists cs, res. exact H.
Qed.

Lemma horz_in_parts fuel ps st r : sane_split sz ps -> rect_in sz r ->
  horz_parts fuel ps st r.
Proof.
  intros Hs Hr. pose proof (rect_in_ok Hwin Hr) as (R1 & R2 & R3 & R4). inversion Hs as [? S1 S2 S3 _]; subst.
  unfold horz_parts. rewrite horz_eq. set (w := (max_col r - min_col r)%N).
  assert (Ew : rect_width (X := pane_err WE Er) r = Ok w) by (apply sub16_exact; lia).
  assert (Eh : rect_height (X := pane_err WE Er) r = Ok (max_row r - min_row r)%N) by (apply sub32_exact; lia).
  assert (Erem : castM U16 (remaining (divvier_new w (map fst ps))) = after_fixed w (map fst ps)).
  { destruct (new_spec w (map fst ps)) as (_ & _ & N3 & _). unfold remaining. rewrite N3. apply N.mod_small.
    pose proof (after_fixed_le w (map fst ps)). lia. }
  destruct (@horz_spec fuel st ps (Size (after_fixed w (map fst ps)) (max_row r - min_row r))) as (res & H1 & Hx).
  { simpl. pose proof (after_fixed_le w (map fst ps)). lia. }
  destruct res as [[dyn docs]|f].
  2:{ left. exists f. eapply emits_pure_bind; [exact Ew|]. eapply emits_pure_bind; [exact Eh|]. rewrite Erem. apply emits_bind_fail. exact H1. }
  destruct (Hx _ eq_refl) as (X1 & X2 & X3). simpl in X1, X2, X3.
  assert (Wle : (w <= N.max (s_width sz) (s_height sz))%N) by (destruct Hr; lia).
  assert (Wlt : (w < U16)%N) by lia. assert (Hlt : (U16 < USIZE)%N) by reflexivity.
  assert (Pre : forall widths cs res', divvy (X := pane_err WE Er) ovf w (map fst ps) dyn = Ok widths ->
     emits (kids U16 fuel (fun c rect => display_pane_rec get_content fuel c st rect) (hslice r) (add16 ovf) ps widths docs (min_col r)) cs res' ->
     emits (display_pane_rec get_content fuel (Horz ps) st r) cs res').
  { intros widths cs res' Hd H. rewrite horz_eq. eapply emits_pure_bind; [exact Ew|]. eapply emits_pure_bind; [exact Eh|]. rewrite Erem.
    change cs with (@nil (call Sty) ++ cs). eapply emits_bind; [exact H1|]. eapply emits_pure_bind; [exact Hd|]. exact H. }
  destruct (divvy (X := pane_err WE Er) ovf w (map fst ps) dyn) as [widths|f] eqn:Ed.
  2:{ left. exists f. eapply emits_pure_bind; [exact Ew|]. eapply emits_pure_bind; [exact Eh|]. rewrite Erem.
      change (@nil (call Sty)) with (@nil (call Sty) ++ []). eapply emits_bind; [exact H1|]. eapply emits_pure_fail. exact Ed. }
  assert (Hmul : (w * weight_total (map fst ps) < USIZE)%N) by (eapply N.le_lt_trans; [apply N.mul_le_mono_r; exact Wle|exact S2]).
  destruct (@divvy_ok (pane_err WE Er) ovf w (map fst ps) dyn widths) as (D1 & D2 & D3 & _); auto; try lia.
  { pose proof (after_fixed_le w (map fst ps)). lia. }
  rewrite map_length in D1.
  right. exists dyn, docs, widths. split; [exact H1|]. split; [exact Ed|]. split; [exact D1|]. split; [exact D2|]. split; [exact D3|].
  destruct (@kids_parts pd env WE sz L U16 fuel (fun c rect => display_pane_rec get_content fuel c st rect) (hslice r) (add16 ovf) (min_col r) (max_col r)) with (ps := ps) (widths := widths) (docs := docs) (at_ := min_col r)
    as (parts & res & K1 & K2); try lia; auto.
  - intros a b Hab. apply add16_exact. exact Hab.
  - intros p a b _ _ _. apply rec_draws.
  - intros a b Ha Hb Hc. apply rect_in_ok; auto. apply hslice_ok; auto.
  - exists parts, res. split; [|exact K2]. eapply Pre; eauto.
Qed.

Lemma vert_in_parts fuel ps st r : sane_split sz ps -> rect_in sz r -> vert_parts fuel ps st r.
Proof.
  intros Hs Hr. pose proof (rect_in_ok Hwin Hr) as (R1 & R2 & R3 & R4). inversion Hs as [? S1 S2 S3 _]; subst.
  unfold vert_parts. rewrite vert_eq. set (h := (max_row r - min_row r)%N).
  assert (Ew : rect_width (X := pane_err WE Er) r = Ok (max_col r - min_col r)%N) by (apply sub16_exact; lia).
  assert (Eh : rect_height (X := pane_err WE Er) r = Ok h) by (apply sub32_exact; lia).
  assert (Erem : castM U32 (remaining (divvier_new h (map fst ps))) = after_fixed h (map fst ps)).
  { destruct (new_spec h (map fst ps)) as (_ & _ & N3 & _). unfold remaining. rewrite N3. apply N.mod_small.
    pose proof (after_fixed_le h (map fst ps)). lia. }
  destruct (@vert_spec fuel st ps (Size (max_col r - min_col r) (after_fixed h (map fst ps)))) as (res & H1 & Hx).
  destruct res as [[dyn docs]|f].
  2:{ left. exists f. eapply emits_pure_bind; [exact Eh|]. eapply emits_pure_bind; [exact Ew|]. rewrite Erem. apply emits_bind_fail. exact H1. }
  destruct (Hx _ eq_refl) as (X1 & X2 & X3). simpl in X1, X2, X3.
  assert (Wle : (h <= N.max (s_width sz) (s_height sz))%N) by (destruct Hr; lia).
  assert (Wlt : (h < U32)%N) by lia. assert (Hlt : (U32 < USIZE)%N) by reflexivity. assert (Hsq : (U32 * U32 = USIZE)%N) by reflexivity.
  assert (Hdyn : (total dyn < USIZE)%N).
  { apply total_bound in X1. rewrite X2 in X1. pose proof (dynamic_count_le (map fst ps)) as Hc. rewrite map_length in Hc.
    eapply N.le_lt_trans; [exact X1|]. rewrite <- Hsq. apply N.mul_lt_mono_pos_r; [reflexivity|lia]. }
  assert (Pre : forall heights cs res', divvy (X := pane_err WE Er) ovf h (map fst ps) dyn = Ok heights ->
     emits (kids U32 fuel (fun c rect => display_pane_rec get_content fuel c st rect) (vslice r) add32 ps heights docs (min_row r)) cs res' ->
     emits (display_pane_rec get_content fuel (Vert ps) st r) cs res').
  { intros heights cs res' Hd H. rewrite vert_eq. eapply emits_pure_bind; [exact Eh|]. eapply emits_pure_bind; [exact Ew|]. rewrite Erem.
    change cs with (@nil (call Sty) ++ cs). eapply emits_bind; [exact H1|]. eapply emits_pure_bind; [exact Hd|]. exact H. }
  destruct (divvy (X := pane_err WE Er) ovf h (map fst ps) dyn) as [heights|f] eqn:Ed.
  2:{ left. exists f. eapply emits_pure_bind; [exact Eh|]. eapply emits_pure_bind; [exact Ew|]. rewrite Erem.
      change (@nil (call Sty)) with (@nil (call Sty) ++ []). eapply emits_bind; [exact H1|]. eapply emits_pure_fail. exact Ed. }
  assert (Hmul : (h * weight_total (map fst ps) < USIZE)%N) by (eapply N.le_lt_trans; [apply N.mul_le_mono_r; exact Wle|exact S2]).
  destruct (@divvy_ok (pane_err WE Er) ovf h (map fst ps) dyn heights) as (D1 & D2 & D3 & _); auto; try lia.
  rewrite map_length in D1.
  right. exists dyn, docs, heights. split; [exact H1|]. split; [exact Ed|]. split; [exact D1|]. split; [exact D2|]. split; [exact D3|].
  destruct (@kids_parts pd env WE sz L U32 fuel (fun c rect => display_pane_rec get_content fuel c st rect) (vslice r) add32 (min_row r) (max_row r)) with (ps := ps) (widths := heights) (docs := docs) (at_ := min_row r)
    as (parts & res & K1 & K2); try lia; auto.
  - intros a b Hab. apply add32_exact. exact Hab.
  - intros p a b _ _ _. apply rec_draws.
  - intros a b Ha Hb Hc. apply rect_in_ok; auto. apply vslice_ok; auto.
  - exists parts, res. split; [|exact K2]. eapply Pre; eauto.
Qed.

(** ** C31-C33 *)
Definition proper (p : pane) (r : rectangle) (m : M unit) : Prop :=
  exists cs res, emits m cs res /\ tidy r cs /\ (res = Ok tt -> filled get_content p -> covers r cs).

Lemma nth_in_split {A B} (ps : list (A * B)) i k c : nth_error ps i = Some (k, c) -> In (k, c) ps.
Proof. apply nth_error_In. Qed.

Lemma offset_mono at_ widths i : (offset at_ widths i <= offset at_ widths (S i))%N.
Proof. unfold offset. revert i. induction widths as [|w ws IH]; intros [|i]; simpl; try lia. specialize (IH i). fold (total (firstn i ws)). destruct ws; simpl in *; lia. Qed.
Lemma offset_bound at_ widths i : (at_ <= offset at_ widths i <= at_ + total widths)%N.
Proof.
  unfold offset. rewrite <- (firstn_skipn i widths) at 3. rewrite total_app. lia.
Qed.

Lemma rec_spec fuel p : forall st r, sane sz p -> rect_in sz r -> proper p r (display_pane_rec get_content fuel p st r).
Proof.
  induction p as [ps IH|ps IH|l|ch|s p IH] using pane_ind'; intros st r Hs Hr; pose proof (rect_in_ok Hwin Hr) as Hok; pose proof Hok as (R1 & R2 & R3 & R4).
  - inversion Hs as [? Hs'| | | |]; subst. pose proof Hs' as Hs2. inversion Hs2 as [? _ _ _ Hkids]; subst.
    destruct (@horz_in_parts fuel ps st r Hs' Hr) as [(f & Hf)|(dyn & docs & widths & _ & _ & D1 & D2 & D3 & (parts & res & P1 & P2 & P3 & P4))].
    { exists [], (Fail f). split; [exact Hf|]. split; [apply tidy_nil|discriminate]. }
    assert (Hpart : forall i part, nth_error parts i = Some part -> let rect := column_slice r widths i in tidy rect part /\
       (res = Ok tt -> filled get_content (Horz ps) -> covers rect part)).
    { intros i part Hi rect. destruct (P4 _ _ Hi) as (res_i & (k & c & Hn & Hc) & Hres). rewrite offset_slice_h in Hc. fold rect in Hc.
      assert (Hri : res = Ok tt -> res_i = Ok tt) by (intros ->; destruct Hres as [|[_ ->]]; auto).
      assert (Hin : rect_in sz rect).
      { unfold rect. rewrite <- offset_slice_h. pose proof (offset_bound (min_col r) widths i). pose proof (offset_bound (min_col r) widths (S i)).
        apply hslice_ok; auto; try lia. apply offset_mono. }
      pose proof (nth_error_In _ _ Hn) as Hin2.
      assert (Hkid : k <> Dynamic -> emits (display_pane_rec get_content fuel c st rect) part res_i ->
         tidy rect part /\ (res = Ok tt -> filled get_content (Horz ps) -> covers rect part)).
      { intros Hk He. destruct (IH k c Hin2 st rect) as (cs & res' & I1 & I2 & I3); eauto.
        destruct (emits_det He I1) as [-> ->]. split; auto. intros Hrok Hf. apply I3; auto. inversion Hf; subst. eauto. }
      destruct k; [apply Hkid; auto; discriminate| |apply Hkid; auto; discriminate].
      destruct Hc as (doc & _ & He). destruct (@doc_spec pd env WE sz fuel doc rect) as (cs & res' & I1 & I2 & I3); [apply rect_in_ok; auto|].
      destruct (emits_det He I1) as [-> ->]. split; auto. }
    exists (concat parts), res. split; [exact P1|].
    assert (T : tidy (hslice r (min_col r) (min_col r + total widths)) (concat parts)).
    { eapply (@parts_tidy pd 1%N (hslice r) 0%N); [reflexivity|..].
      - unfold in_rect, hslice. simpl. intros. lia.
      - unfold in_rect, hslice. simpl. intros. lia.
      - rewrite D1. exact P2.
      - intros i part Hi. apply (Hpart i part Hi). }
    split.
    + destruct T as [T1 T2]. split; auto. intros c Hc. specialize (T2 c Hc). unfold in_rect, hslice in *. simpl in T2. lia.
    + intros Hres Hf. assert (Et : total widths = (max_col r - min_col r)%N) by (apply D3; inversion Hf; subst; lia).
      assert (C : covers (hslice r (min_col r) (min_col r + total widths)) (concat parts)).
      { eapply (@parts_cover pd 1%N (hslice r) 0%N); [reflexivity|..].
        - unfold in_rect, hslice. simpl. intros. lia.
        - unfold in_rect, hslice. simpl. intros. lia.
        - rewrite D1. apply P3. exact Hres.
        - intros i part Hi. apply (Hpart i part Hi); auto. }
      intros c Hc. apply C. rewrite Et. unfold in_rect, hslice in *. simpl. lia.
  - inversion Hs as [|? Hs'| | |]; subst. pose proof Hs' as Hs2. inversion Hs2 as [? _ _ _ Hkids]; subst.
    destruct (@vert_in_parts fuel ps st r Hs' Hr) as [(f & Hf)|(dyn & docs & widths & _ & _ & D1 & D2 & D3 & (parts & res & P1 & P2 & P3 & P4))].
    { exists [], (Fail f). split; [exact Hf|]. split; [apply tidy_nil|discriminate]. }
    assert (Hpart : forall i part, nth_error parts i = Some part -> let rect := row_slice r widths i in tidy rect part /\
       (res = Ok tt -> filled get_content (Vert ps) -> covers rect part)).
    { intros i part Hi rect. destruct (P4 _ _ Hi) as (res_i & (k & c & Hn & Hc) & Hres). rewrite offset_slice_v in Hc. fold rect in Hc.
      assert (Hri : res = Ok tt -> res_i = Ok tt) by (intros ->; destruct Hres as [|[_ ->]]; auto).
      assert (Hin : rect_in sz rect).
      { unfold rect. rewrite <- offset_slice_v. pose proof (offset_bound (min_row r) widths i). pose proof (offset_bound (min_row r) widths (S i)).
        apply vslice_ok; auto; try lia. apply offset_mono. }
      pose proof (nth_error_In _ _ Hn) as Hin2.
      assert (Hkid : k <> Dynamic -> emits (display_pane_rec get_content fuel c st rect) part res_i ->
         tidy rect part /\ (res = Ok tt -> filled get_content (Vert ps) -> covers rect part)).
      { intros Hk He. destruct (IH k c Hin2 st rect) as (cs & res' & I1 & I2 & I3); eauto.
        destruct (emits_det He I1) as [-> ->]. split; auto. intros Hrok Hf. apply I3; auto. inversion Hf; subst. eauto. }
      destruct k; [apply Hkid; auto; discriminate| |apply Hkid; auto; discriminate].
      destruct Hc as (doc & _ & He). destruct (@doc_spec pd env WE sz fuel doc rect) as (cs & res' & I1 & I2 & I3); [apply rect_in_ok; auto|].
      destruct (emits_det He I1) as [-> ->]. split; auto. }
    exists (concat parts), res. split; [exact P1|].
    assert (T : tidy (vslice r (min_row r) (min_row r + total widths)) (concat parts)).
    { eapply (@parts_tidy pd 1%N (vslice r) 0%N); [reflexivity|..].
      - unfold in_rect, vslice. simpl. intros. lia.
      - unfold in_rect, vslice. simpl. intros. lia.
      - rewrite D1. exact P2.
      - intros i part Hi. apply (Hpart i part Hi). }
    split.
    + destruct T as [T1 T2]. split; auto. intros c Hc. specialize (T2 c Hc). unfold in_rect, vslice in *. simpl in T2. lia.
    + intros Hres Hf. assert (Et : total widths = (max_row r - min_row r)%N) by (apply D3; inversion Hf; subst; lia).
      assert (C : covers (vslice r (min_row r) (min_row r + total widths)) (concat parts)).
      { eapply (@parts_cover pd 1%N (vslice r) 0%N); [reflexivity|..].
        - unfold in_rect, vslice. simpl. intros. lia.
        - unfold in_rect, vslice. simpl. intros. lia.
        - rewrite D1. apply P3. exact Hres.
        - intros i part Hi. apply (Hpart i part Hi); auto. }
      intros c Hc. apply C. rewrite Et. unfold in_rect, vslice in *. simpl. lia.
  - simpl. destruct (get_content l) as [[doc o]|] eqn:El.
    + assert (Esz : rect_size (X := pane_err WE Er) r = Ok (Size (max_col r - min_col r) (max_row r - min_row r))).
      { unfold rect_size, rect_height, rect_width. rewrite sub32_exact, sub16_exact by lia. reflexivity. }
      destruct (emits_printing (printed_doc_new fuel doc o (Size (max_col r - min_col r) (max_row r - min_row r)) st)) as (res1 & E1 & _).
      destruct res1 as [x|f].
      * destruct (@doc_spec pd env WE sz fuel x r Hok) as (cs & res & H1 & H2 & H3). exists cs, res. split; [|split; auto].
        eapply emits_pure_bind; [exact Esz|]. change cs with (@nil (call Sty) ++ cs). eapply emits_bind; [exact E1|exact H1].
      * exists [], (Fail f). split; [|split; [apply tidy_nil|discriminate]].
        eapply emits_pure_bind; [exact Esz|]. apply emits_bind_fail. exact E1.
    + exists [], (Ok tt). split; [apply emits_ret|]. split; [apply tidy_nil|]. intros _ Hf. inversion Hf; subst. congruence.
  - destruct (@fill_spec pd env WE sz fuel ch st r Hok) as (cs & res & fulls & H1 & H2 & H3 & H4 & _).
    exists cs, res. split; [exact H1|].
    assert (E : all_cells (concat fulls) = rect_cells r).
    { unfold rect_cells. apply (@rows_cells pd env r _ _ (fun _ => repeat (ch, st) (N.to_nat (max_col r - min_col r))) st R2 H2). }
    split; [apply tidy_prefix; rewrite <- E; apply cells_prefix; auto|].
    intros Hres _. rewrite (H4 Hres). apply covers_eq. exact E.
  - inversion Hs; subst. destruct (IH (style_combine st s) r) as (cs & res & H1 & H2 & H3); auto.
    exists cs, res. split; [exact H1|]. split; auto. intros Hres Hf. apply H3; auto. inversion Hf; subst. auto.
Qed.

End Draws.
