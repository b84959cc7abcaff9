(** The errors of display_pane, and where they come from. *)
From Verif Require Export PPane8.

Set Implicit Arguments.

(** ** Computations that may panic but return no error *)
Definition quiet {X A} (r : res X A) : Prop := forall e, r <> Err e.

Lemma quiet_bind {X A B} (m : res X A) (k : A -> res X B) : quiet m -> (forall a, quiet (k a)) -> quiet (bind m k).
Proof. intros H1 H2. destruct m as [a|[e|q|]]; simpl; [apply H2| | |]; intros e'; try discriminate. exfalso. apply (H1 e). reflexivity. Qed.
Lemma quiet_ok {X A} (a : A) : quiet (X := X) (Ok a).
Proof. intros e. discriminate. Qed.
Lemma quiet_panic {X A} q : quiet (X := X) (A := A) (Panic q).
Proof. intros e. discriminate. Qed.
Lemma quiet_add {X} m o a b : quiet (@addM X m o a b).
Proof. unfold addM. destruct (_ <? _)%N, o; intros e; discriminate. Qed.
Lemma quiet_sub {X} m o a b : quiet (@subM X m o a b).
Proof. unfold subM. destruct (_ <=? _)%N, o; intros e; discriminate. Qed.
Lemma quiet_mul {X} m o a b : quiet (@mulM X m o a b).
Proof. unfold mulM. destruct (_ <? _)%N, o; intros e; discriminate. Qed.
Lemma quiet_div {X} a b : quiet (@divM X a b).
Proof. unfold divM. destruct (_ =? _)%N; intros e; discriminate. Qed.
Lemma quiet_mod {X} a b : quiet (@modM X a b).
Proof. unfold modM. destruct (_ =? _)%N; intros e; discriminate. Qed.
Lemma quiet_sum {X} m o l : quiet (@sumM X m o l).
Proof.
  unfold sumM. generalize 0%N. induction l as [|x l IH]; intros acc; simpl; [apply quiet_ok|].
  apply quiet_bind; [apply quiet_add|]. intros a. apply IH.
Qed.
Lemma quiet_mapM {X A B} (f : A -> res X B) l : (forall a, quiet (f a)) -> quiet (mapM f l).
Proof.
  intros H. induction l as [|x l IH]; simpl; [apply quiet_ok|]. apply quiet_bind; [apply H|]. intros y. apply quiet_bind; [apply IH|]. intros. apply quiet_ok.
Qed.
Lemma quiet_give {X} sizes : forall al given, quiet (@give_dynamic X sizes al given).
Proof.
  induction sizes as [|[k| |h] sizes IH]; intros [|a al] given; simpl; try apply quiet_ok; try (apply quiet_bind; [apply IH|]; intros [? ?]; apply quiet_ok).
  destruct given; [apply quiet_panic|]. apply quiet_bind; [apply IH|]. intros [? ?]. apply quiet_ok.
Qed.
Lemma quiet_prop {X} o sizes : forall al c given, quiet (@give_proportional X o sizes al c given).
Proof.
  induction sizes as [|[k| |h] sizes IH]; intros [|a al] c given; simpl; try apply quiet_ok; try (apply quiet_bind; [apply IH|]; intros [? ?]; apply quiet_ok).
  destruct given; [apply quiet_panic|]. apply quiet_bind; [apply quiet_sub|]. intros. apply quiet_bind; [apply IH|]. intros [? ?]. apply quiet_ok.
Qed.
Lemma quiet_increment {X} o i : forall v, quiet (@increment X o i v).
Proof.
  induction i as [|i IH]; intros [|a v]; simpl; try apply quiet_panic.
  - apply quiet_bind; [apply quiet_add|]. intros. apply quiet_ok.
  - apply quiet_bind; [apply IH|]. intros. apply quiet_ok.
Qed.
Lemma quiet_increments {X} o is : forall v, quiet (@increment_all X o is v).
Proof. induction is as [|i is IH]; intros v; simpl; [apply quiet_ok|]. apply quiet_bind; [apply quiet_increment|]. intros. apply IH. Qed.
Lemma quiet_finish {X} o d l : quiet (@finish X o d l).
Proof.
  unfold finish, allocate_dynamic, allocate_proportional. apply quiet_bind.
  - apply quiet_bind; [apply quiet_sum|]. intros. destruct (_ <=? _)%N; [|apply quiet_panic]. apply quiet_bind; [apply quiet_give|].
    intros [? [|? ?]]; [apply quiet_ok|apply quiet_panic].
  - intros d'. apply quiet_bind; [|intros; apply quiet_ok].
    apply quiet_bind; [apply quiet_sum|]. intros. apply quiet_bind; [apply quiet_mapM; intros; apply quiet_bind; [apply quiet_mul|intros; apply quiet_div]|]. intros.
    apply quiet_bind; [apply quiet_sum|]. intros. apply quiet_bind; [apply quiet_sub|]. intros.
    apply quiet_bind; [apply quiet_mapM; intros; apply quiet_bind; [apply quiet_mul|intros; apply quiet_mod]|]. intros.
    apply quiet_bind; [apply quiet_increments|]. intros. apply quiet_bind; [apply quiet_prop|]. intros [? ?]. apply quiet_ok.
Qed.

Lemma quiet_sum16 {X} o l : quiet (@sum16 X o l).
Proof.
  unfold sum16. generalize 0%N. induction l as [|x l IH]; intros acc; simpl; [apply quiet_ok|].
  apply quiet_bind; [|intros a; apply IH]. unfold add16. destruct (_ <? _)%N, o; intros e; discriminate.
Qed.

Section Errors.
Context {pd : PrettyDoc} {env : Env} {pw : PrettyWindow Sty} {L : Type}.
Variable get_content : L -> option (D * printing_options).
Notation pane := (pane L Sty).

(** All the errors of [m] satisfy [P]. *)
Definition errs {A} (P : pane_err WErr Er -> Prop) (m : M A) : Prop := forall w w' e, m w = (w', Err e) -> P e.

Section Generic.
Variable P : pane_err WErr Er -> Prop.
Lemma errs_ret {A} (a : A) : errs P (ret a).
Proof. intros w w' e. discriminate. Qed.
Lemma errs_panic {A} q : errs P (@fail _ _ A (FPanic q)).
Proof. intros w w' e. discriminate. Qed.
Lemma errs_fuel {A} : errs P (@fail _ _ A FFuel).
Proof. intros w w' e. discriminate. Qed.
Lemma errs_bind {A B} (m : M A) (k : A -> M B) : errs P m -> (forall a, errs P (k a)) -> errs P (mbind m k).
Proof.
  intros H1 H2 w w' e H. unfold mbind in H. destruct (m w) as [w1 [a|f]] eqn:E; [eapply H2; eauto|]. injection H as -> ->. eapply H1; eauto.
Qed.
Lemma errs_bind' {A B} (r : res (pane_err WErr Er) A) (k : A -> M B) : quiet r -> (forall a, r = Ok a -> errs P (k a)) -> errs P (mbind (pure r) k).
Proof.
  intros H1 H2 w w' e H. unfold mbind, pure in H. destruct r as [a|f]; [eapply H2; eauto|]. injection H as <- ->. exfalso. eapply H1; reflexivity.
Qed.
Lemma errs_pure {A} (r : res (pane_err WErr Er) A) : quiet r -> errs P (pure r).
Proof. intros H w w' e E. injection E as _ E. exfalso. eapply H; eauto. Qed.
Lemma errs_forM {A} (l : list A) f : (forall a, errs P (f a)) -> errs P (forM l f).
Proof. intros H. induction l as [|a l IH]; simpl; [apply errs_ret|]. apply errs_bind; auto. Qed.
Lemma errs_mloop {St R} n (f : St -> M (step St R)) : (forall s, errs P (f s)) -> forall s, errs P (mloop n f s).
Proof.
  intros H. induction n as [|n IH]; intros s; simpl; [apply errs_fuel|]. apply errs_bind; auto. intros [s'|r]; [apply IH|apply errs_ret].
Qed.

Hypothesis Hput : forall w ch p st fw w' e, w_display_char w ch p st fw = (w', MErr e) -> P (PrettyWindowError e).
Hypothesis Hfocus : forall w p w' e, w_set_focus w p = (w', MErr e) -> P (PrettyWindowError e).

Lemma errs_put ch p st fw : errs P (put ch p st fw).
Proof.
  intros w w' e H. unfold put in H. destruct (w_display_char w ch p st fw) as [w1 r] eqn:E. injection H as <- H.
  destruct r; try discriminate. injection H as <-. eauto.
Qed.
Lemma errs_focus p : errs P (focus p).
Proof.
  intros w w' e H. unfold focus in H. destruct (w_set_focus w p) as [w1 r] eqn:E. injection H as <- H.
  destruct r; try discriminate. injection H as <-. eauto.
Qed.

Lemma errs_fill fuel ch st r : errs P (display_fill fuel ch st r).
Proof.
  apply errs_forM. intros row. unfold fill_row. apply errs_bind.
  - apply errs_mloop. intros col. unfold fill_body. apply errs_bind; [apply errs_pure, quiet_add|]. intros a. destruct (_ <=? _)%N; [|apply errs_ret].
    apply errs_bind; [apply errs_put|]. intros _. apply errs_bind; [apply errs_pure, quiet_add|]. intros. apply errs_ret.
  - intros col. destruct (_ <? _)%N; [apply errs_put|apply errs_ret].
Qed.
Lemma errs_chars r row st chs : forall col, errs P (display_chars r row st chs col).
Proof.
  induction chs as [|ch chs IH]; intros col; simpl; [apply errs_ret|]. apply errs_bind; [apply errs_pure, quiet_add|]. intros a.
  destruct (_ <? _)%N; [apply errs_ret|]. apply errs_bind; [apply errs_put|]. intros _. apply errs_bind; [apply errs_pure, quiet_add|]. intros. apply IH.
Qed.
Lemma errs_segments r row segs : forall col, errs P (display_segments r row segs col).
Proof.
  induction segs as [|s segs IH]; intros col; simpl; [apply errs_ret|]. apply errs_bind; [apply errs_chars|]. intros [c [|]]; [apply errs_ret|apply IH].
Qed.
Lemma errs_blank row r st : errs P (display_blank_line row r st).
Proof.
  unfold display_blank_line. apply errs_bind; [apply errs_pure, quiet_add|]. intros a. destruct (_ <=? _)%N; [apply errs_ret|]. apply errs_forM. intros. apply errs_put.
Qed.
Lemma errs_line fuel l row r st : errs P (display_line fuel l row r st).
Proof.
  unfold display_line. apply errs_bind; [apply errs_pure, quiet_add|]. intros a. destruct (_ <=? _)%N; [apply errs_ret|].
  apply errs_bind; [apply errs_segments|]. intros. apply errs_mloop. intros s. unfold pad_body. destruct (_ <? _)%N; [|apply errs_ret].
  apply errs_bind; [apply errs_put|]. intros _. apply errs_bind; [apply errs_pure, quiet_add|]. intros. apply errs_ret.
Qed.
Lemma errs_doc fuel p r : errs P (display_doc fuel p r).
Proof.
  unfold display_doc. apply errs_bind.
  - destruct (pd_focus_point p); [|apply errs_ret]. apply errs_bind; [apply errs_pure, quiet_add|]. intros. apply errs_bind; [apply errs_pure, quiet_add|]. intros. apply errs_focus.
  - intros _. apply errs_bind; [apply errs_pure, quiet_sub|]. intros. apply errs_bind; [apply errs_pure, quiet_add|]. intros.
    apply errs_bind; [apply errs_pure; unfold rect_size; apply quiet_bind; [apply quiet_sub|intros; apply quiet_bind; [apply quiet_sub|intros; apply quiet_ok]]|].
    intros s. apply errs_forM. intros row. unfold display_row. destruct (_ && _)%bool; [|apply errs_blank].
    destruct (nth_error _ _); [apply errs_line|apply errs_panic].
Qed.
End Generic.

(** Printing *)
Lemma new_error fuel doc o s st e : printed_doc_new fuel doc o s st = Err e -> print_error fuel doc o e.
Proof.
  unfold printed_doc_new. destruct (_ || _)%bool; [discriminate|].
  destruct (choose_focus_line_row o (s_height s)) as [row|f] eqn:Erow; cbn [bind].
  2:{ intros [= ->]. exfalso. revert Erow. unfold choose_focus_line_row. destruct (f32_le f32_zero _); [|discriminate]. destruct (f32_le _ _); [|discriminate].
      apply (@quiet_bind (perr Er) N N); [apply quiet_sub|]. intros. apply quiet_ok. }
  intros H. exists (s_width s), st. rewrite <- choose_width_asked. cbv zeta.
  destruct (pretty_print fuel doc (choose_width o (s_width s)) (o_focus_path o) (o_focus_target o) (Some st)) as [[[up fl] down]|f]; cbn [bind] in H.
  2:{ injection H as ->. left. reflexivity. }
  right. exists up, fl, down.
  assert (Hq : quiet (if o_set_focus o then col <- left_width fl ;; Ok (Some (Pos row col)) else Ok None)).
  { destruct (o_set_focus o); [|apply quiet_ok]. apply quiet_bind; [apply quiet_sum16|]. intros. apply quiet_ok. }
  destruct (if o_set_focus o then _ else _) as [fp|f]; cbn [bind] in H; [|injection H as ->; exfalso; eapply Hq; reflexivity].
  destruct (take_lines (up_next fuel) (N.to_nat row) up) as [[p1 above]|f] eqn:E1; cbn [bind] in H.
  2:{ injection H as ->. exists (N.to_nat row). split; auto. }
  destruct (add32 row 1) as [next|f] eqn:E2; cbn [bind] in H; [|injection H as ->; exfalso; eapply (@quiet_add (perr Er) U32); exact E2].
  destruct (take_lines (down_next fuel) (N.to_nat (s_height s - next)) down) as [[p2 below]|f] eqn:E3; cbn [bind] in H; [discriminate|].
  injection H as ->. exists (N.to_nat (s_height s - next)). split; auto.
Qed.

Lemma extract_styled (p : pane) : forall st e, @extract_doc pd pw L p st = Err e -> e = InvalidUseOfDynamic /\ ~ styled_doc p.
Proof.
  induction p as [ps|ps|l|ch|s p IH]; intros st e H; simpl in H; try discriminate; try (injection H as <-; split; [reflexivity|]; intros X; inversion X).
  destruct (IH _ _ H) as [-> Hn]. split; auto. intros X. inversion X. auto.
Qed.
Lemma extract_label (p : pane) : forall st l st', @extract_doc pd pw L p st = Ok (l, st') -> label_in l p /\ styled_doc p.
Proof.
  induction p as [ps|ps|l0|ch|s p IH]; intros st l st' H; simpl in H; try discriminate.
  - injection H as <- <-. split; constructor.
  - destruct (IH _ _ _ H). split; constructor; auto.
Qed.

Section Dynamic.
Variable P : pane_err WErr Er -> Prop.
Variable fuel : nat.
Variable good : L -> Prop.
Hypothesis Hprint : forall l doc o e, good l -> get_content l = Some (doc, o) -> print_error fuel doc o e -> P (PrintingErr e).

Lemma errs_dynamic l av st : good l -> errs P (dynamic_doc get_content fuel l av st).
Proof.
  intros Hl w w' e H. unfold dynamic_doc in H. destruct (get_content l) as [[doc o]|] eqn:E; [|discriminate].
  unfold from_printing in H. injection H as _ H.
  destruct (printed_doc_new fuel doc o av st) as [p|[e0|q|]] eqn:En; try discriminate. injection H as <-. eapply Hprint; eauto. eapply new_error; eauto.
Qed.
Lemma errs_width p : errs P (from_printing (printed_doc_width p)).
Proof.
  intros w w' e H. unfold from_printing in H. injection H as _ H.
  destruct (printed_doc_width p) as [x|[e0|q|]] eqn:En; try discriminate. exfalso. revert En.
  unfold printed_doc_width. apply quiet_bind; [apply quiet_mapM; intros; apply quiet_sum16|]. intros; apply quiet_ok.
Qed.

Lemma errs_extract (p : pane) st : (~ styled_doc p -> P InvalidUseOfDynamic) -> errs P (pure (extract_doc p st)).
Proof. intros H w w' e E. injection E as _ E. destruct (extract_styled _ _ E) as [-> Hn]. auto. Qed.

Lemma errs_extract_bind {A} (p : pane) st (k : L * Sty -> M A) : (~ styled_doc p -> P InvalidUseOfDynamic) ->
  (forall l st', label_in l p -> errs P (k (l, st'))) -> errs P (mbind (pure (extract_doc p st)) k).
Proof.
  intros H1 H2. destruct (@extract_doc pd pw L p st) as [[l st']|f] eqn:E.
  - destruct (extract_label _ _ E) as [Hl _]. exact (H2 l st' Hl).
  - intros w w' e H. unfold mbind, pure in H. injection H as _ ->. destruct (extract_styled _ _ E) as [-> Hn]. auto.
Qed.

Lemma errs_horz st ps : (forall p, In (Dynamic, p) ps -> ~ styled_doc p -> P InvalidUseOfDynamic) ->
  (forall k p l, In (k, p) ps -> label_in l p -> good l) -> forall av, errs P (horz_dynamic get_content fuel st ps av).
Proof.
  induction ps as [|[k p] ps IH]; intros H1 H2 av; [apply errs_ret|].
  assert (IH' : forall av, errs P (horz_dynamic get_content fuel st ps av)) by (apply IH; [intros; eapply H1; [right; eauto|auto]|intros; eapply H2; [right; eauto|auto]]).
  destruct k; [apply IH'| |apply IH']. cbn [horz_dynamic].
  apply errs_extract_bind; [apply H1; left; reflexivity|]. intros l st' Hl. cbn [fst snd].
  apply errs_bind; [apply errs_dynamic; eapply H2; [left; reflexivity|exact Hl]|]. intros d.
  apply errs_bind; [apply errs_width|]. intros wd. cbv zeta. apply errs_bind; [apply errs_pure, quiet_sub|]. intros rest.
  apply errs_bind; [apply IH'|]. intros. apply errs_ret.
Qed.
Lemma errs_vert st ps : (forall p, In (Dynamic, p) ps -> ~ styled_doc p -> P InvalidUseOfDynamic) ->
  (forall k p l, In (k, p) ps -> label_in l p -> good l) -> forall av, errs P (vert_dynamic get_content fuel st ps av).
Proof.
  induction ps as [|[k p] ps IH]; intros H1 H2 av; [apply errs_ret|].
  assert (IH' : forall av, errs P (vert_dynamic get_content fuel st ps av)) by (apply IH; [intros; eapply H1; [right; eauto|auto]|intros; eapply H2; [right; eauto|auto]]).
  destruct k; [apply IH'| |apply IH']. cbn [vert_dynamic].
  apply errs_extract_bind; [apply H1; left; reflexivity|]. intros l st' Hl. cbn [fst snd].
  apply errs_bind; [apply errs_dynamic; eapply H2; [left; reflexivity|exact Hl]|]. intros d.
  cbv zeta. apply errs_bind; [apply errs_pure, quiet_sub|]. intros rest.
  apply errs_bind; [apply IH'|]. intros. apply errs_ret.
Qed.
End Dynamic.

Lemma errs_rec fuel p : forall st r, errs (error_cause get_content fuel p) (display_pane_rec get_content fuel p st r).
Proof.
  induction p as [ps IH|ps IH|l|ch|s p IH] using pane_ind'; intros st r.
  - set (Q := error_cause get_content fuel (Horz ps)).
    assert (Hput : forall w ch p st fw w' e, w_display_char w ch p st fw = (w', MErr e) -> Q (PrettyWindowError e)) by (intros; eapply cause_char; eauto).
    assert (Hfoc : forall w p w' e, w_set_focus w p = (w', MErr e) -> Q (PrettyWindowError e)) by (intros; eapply cause_focus; eauto).
    assert (Hkid : forall k p st r, In (k, p) ps -> k <> Dynamic -> errs Q (display_pane_rec get_content fuel p st r)).
    { intros k p st' r' Hin Hk w w' e H. apply (IH _ _ Hin) in H. destruct H as [H|w0 e H|w0 c0 p0 st0 fw w1 e H|w0 p0 w1 e H|l doc o e H1 H2 H3].
      - apply cause_dynamic. eapply misused_in_horz; eauto.
      - eapply cause_size; eauto.
      - eapply cause_char; eauto.
      - eapply cause_focus; eauto.
      - eapply cause_printing; eauto. eapply label_horz; eauto. }
    cbn [display_pane_rec]. apply errs_bind; [apply errs_pure, quiet_sub|]. intros w. apply errs_bind; [apply errs_pure, quiet_sub|]. intros h.
    apply errs_bind.
    { eapply errs_horz with (good := fun l => label_in l (Horz ps)).
      - intros; eapply cause_printing; eauto.
      - intros; apply cause_dynamic; eapply misused_horz; eauto.
      - intros; eapply label_horz; eauto. }
    intros x. apply errs_bind; [apply errs_pure, quiet_finish|]. intros widths. generalize (snd x) (min_col r).
    clear IH. revert widths. assert (Hsub : forall k p, In (k, p) ps -> In (k, p) ps) by auto. revert Hsub. generalize ps at 1 3.
    intros qs. induction qs as [|[k q] qs IHq]; intros Hsub [|wd widths] docs col; try apply errs_ret.
    assert (Hsub' : forall k p, In (k, p) qs -> In (k, p) ps) by (intros; apply Hsub; right; auto).
    apply errs_bind; [apply errs_pure, quiet_add|]. intros next. cbv zeta.
    destruct k; [|destruct docs; [apply errs_panic|]|]; (apply errs_bind; [|intros; apply IHq; exact Hsub']).
    + eapply Hkid; [apply Hsub; left; reflexivity|discriminate].
    + apply errs_doc; auto.
    + eapply Hkid; [apply Hsub; left; reflexivity|discriminate].
  - set (Q := error_cause get_content fuel (Vert ps)).
    assert (Hput : forall w ch p st fw w' e, w_display_char w ch p st fw = (w', MErr e) -> Q (PrettyWindowError e)) by (intros; eapply cause_char; eauto).
    assert (Hfoc : forall w p w' e, w_set_focus w p = (w', MErr e) -> Q (PrettyWindowError e)) by (intros; eapply cause_focus; eauto).
    assert (Hkid : forall k p st r, In (k, p) ps -> k <> Dynamic -> errs Q (display_pane_rec get_content fuel p st r)).
    { intros k p st' r' Hin Hk w w' e H. apply (IH _ _ Hin) in H. destruct H as [H|w0 e H|w0 c0 p0 st0 fw w1 e H|w0 p0 w1 e H|l doc o e H1 H2 H3].
      - apply cause_dynamic. eapply misused_in_vert; eauto.
      - eapply cause_size; eauto.
      - eapply cause_char; eauto.
      - eapply cause_focus; eauto.
      - eapply cause_printing; eauto. eapply label_vert; eauto. }
    cbn [display_pane_rec]. apply errs_bind; [apply errs_pure, quiet_sub|]. intros h. apply errs_bind; [apply errs_pure, quiet_sub|]. intros w.
    apply errs_bind.
    { eapply errs_vert with (good := fun l => label_in l (Vert ps)).
      - intros; eapply cause_printing; eauto.
      - intros; apply cause_dynamic; eapply misused_vert; eauto.
      - intros; eapply label_vert; eauto. }
    intros x. apply errs_bind; [apply errs_pure, quiet_finish|]. intros widths. generalize (snd x) (min_row r).
    clear IH. revert widths. assert (Hsub : forall k p, In (k, p) ps -> In (k, p) ps) by auto. revert Hsub. generalize ps at 1 3.
    intros qs. induction qs as [|[k q] qs IHq]; intros Hsub [|wd widths] docs col; try apply errs_ret.
    assert (Hsub' : forall k p, In (k, p) qs -> In (k, p) ps) by (intros; apply Hsub; right; auto).
    apply errs_bind; [apply errs_pure, quiet_add|]. intros next. cbv zeta.
    destruct k; [|destruct docs; [apply errs_panic|]|]; (apply errs_bind; [|intros; apply IHq; exact Hsub']).
    + eapply Hkid; [apply Hsub; left; reflexivity|discriminate].
    + apply errs_doc; auto.
    + eapply Hkid; [apply Hsub; left; reflexivity|discriminate].
  - cbn [display_pane_rec]. destruct (get_content l) as [[doc o]|] eqn:E; [|apply errs_ret].
    apply errs_bind; [apply errs_pure; unfold rect_size; apply quiet_bind; [apply quiet_sub|intros; apply quiet_bind; [apply quiet_sub|intros; apply quiet_ok]]|].
    intros s. apply errs_bind.
    + intros w w' e H. unfold from_printing in H. injection H as _ H.
      destruct (printed_doc_new fuel doc o s st) as [p|[e0|q|]] eqn:En; try discriminate. injection H as <-.
      eapply cause_printing; [constructor|exact E|]. eapply new_error; eauto.
    + intros d. apply errs_doc; intros; [eapply cause_char; eauto|eapply cause_focus; eauto].
  - cbn [display_pane_rec]. apply errs_fill; intros; eapply cause_char; eauto.
  - cbn [display_pane_rec]. intros w w' e H. apply IH in H. destruct H as [H|w0 e H|w0 c0 p0 st0 fw w1 e H|w0 p0 w1 e H|l doc o e H1 H2 H3].
    + apply cause_dynamic. constructor. auto.
    + eapply cause_size; eauto.
    + eapply cause_char; eauto.
    + eapply cause_focus; eauto.
    + eapply cause_printing; eauto. constructor. auto.
Qed.

End Errors.

(** ** Dynamic panes that are not documents *)
Section Misuse.
Context {pd : PrettyDoc} {env : Env} {pw : PrettyWindow Sty} {L : Type}.
Variable get_content : L -> option (D * printing_options).
Notation pane := (pane L Sty).

Lemma extract_not (p : pane) st : ~ styled_doc p -> @extract_doc pd pw L p st = Err InvalidUseOfDynamic.
Proof.
  intros H. destruct (@extract_doc pd pw L p st) as [[l st']|f] eqn:E.
  - destruct (extract_label _ _ E) as [_ Hs]. contradiction.
  - revert st E. induction p as [ps|ps|l|ch|s p IH]; intros st E; simpl in E; try discriminate; try (injection E as <-; reflexivity).
    eapply IH; eauto. intros Hs. apply H. constructor. exact Hs.
Qed.

Lemma horz_misuse fuel st ps p : In (Dynamic, p) ps -> ~ styled_doc p ->
  forall av w, exists f, horz_dynamic get_content fuel st ps av w = (w, Fail f).
Proof.
  intros Hin Hn. induction ps as [|[k q] ps IH]; [destruct Hin|]. intros av w.
  assert (Hother : k <> Dynamic -> exists f, horz_dynamic get_content fuel st ((k, q) :: ps) av w = (w, Fail f)).
  { intros Hk. destruct Hin as [E|Hin]; [congruence|]. destruct k; [exact (IH Hin av w)|congruence|exact (IH Hin av w)]. }
  destruct k; [apply Hother; discriminate| |apply Hother; discriminate]. cbn [horz_dynamic].
  destruct (@extract_doc pd pw L q st) as [[l st']|f] eqn:E; [|eexists; reflexivity].
  destruct Hin as [[= ->]|Hin]; [rewrite (extract_not st Hn) in E; discriminate|].
  unfold mbind, pure at 1. cbn [fst snd].
  assert (Hdyn : exists r, dynamic_doc get_content fuel l av st' w = (w, r)).
  { unfold dynamic_doc. destruct (get_content l) as [[doc o]|]; eexists; reflexivity. }
  destruct Hdyn as [[d|f] ->]; [|eauto]. unfold from_printing, pure.
  destruct (printed_doc_width d) as [wd|[e|q0|]]; eauto.
  destruct (sub16 (X := pane_err WErr Er) (s_width av) _) as [rest|f]; eauto.
  destruct (IH Hin (Size rest (s_height av)) w) as (f & ->). eauto.
Qed.
Lemma vert_misuse fuel st ps p : In (Dynamic, p) ps -> ~ styled_doc p ->
  forall av w, exists f, vert_dynamic get_content fuel st ps av w = (w, Fail f).
Proof.
  intros Hin Hn. induction ps as [|[k q] ps IH]; [destruct Hin|]. intros av w.
  assert (Hother : k <> Dynamic -> exists f, vert_dynamic get_content fuel st ((k, q) :: ps) av w = (w, Fail f)).
  { intros Hk. destruct Hin as [E|Hin]; [congruence|]. destruct k; [exact (IH Hin av w)|congruence|exact (IH Hin av w)]. }
  destruct k; [apply Hother; discriminate| |apply Hother; discriminate]. cbn [vert_dynamic].
  destruct (@extract_doc pd pw L q st) as [[l st']|f] eqn:E; [|eexists; reflexivity].
  destruct Hin as [[= ->]|Hin]; [rewrite (extract_not st Hn) in E; discriminate|].
  unfold mbind, pure at 1. cbn [fst snd].
  assert (Hdyn : exists r, dynamic_doc get_content fuel l av st' w = (w, r)).
  { unfold dynamic_doc. destruct (get_content l) as [[doc o]|]; eexists; reflexivity. }
  destruct Hdyn as [[d|f] ->]; [|eauto]. unfold pure.
  destruct (sub32 (X := pane_err WErr Er) (s_height av) _) as [rest|f]; eauto.
  destruct (IH Hin (Size (s_width av) rest) w) as (f & ->). eauto.
Qed.

Lemma misuse_fails fuel ps p st r w : In (Dynamic, p) ps -> ~ styled_doc p ->
  (exists f, display_pane_rec get_content fuel (Horz ps) st r w = (w, Fail f)) /\ (exists f, display_pane_rec get_content fuel (Vert ps) st r w = (w, Fail f)).
Proof.
  intros Hin Hn. split; cbn [display_pane_rec].
  - unfold mbind at 1, pure at 1. destruct (rect_width r) as [wd|f]; [|eauto]. unfold mbind at 1, pure at 1. destruct (rect_height r) as [h|f]; [|eauto].
    unfold mbind at 1. destruct (@horz_misuse fuel st ps p Hin Hn (Size (castM U16 (remaining (divvier_new wd (map fst ps)))) h) w) as (f & ->). eauto.
  - unfold mbind at 1, pure at 1. destruct (rect_height r) as [h|f]; [|eauto]. unfold mbind at 1, pure at 1. destruct (rect_width r) as [wd|f]; [|eauto].
    unfold mbind at 1. destruct (@vert_misuse fuel st ps p Hin Hn (Size wd (castM U32 (remaining (divvier_new h (map fst ps))))) w) as (f & ->). eauto.
Qed.

End Misuse.
