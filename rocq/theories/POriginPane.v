(** Whatever is written to a window comes from its panes. *)
From Verif Require Export SpecOriginPane POrigin2 PPane.

Set Implicit Arguments.

Section OriginPane.
Context {pd : PrettyDoc} {env : Env} {L : Type}.
Variable get_content : L -> option (D * printing_options).
Variables (WE : Type) (sz : size).
Local Instance rwo : PrettyWindow Sty := recorder Sty WE sz.
Notation pane := (pane L Sty).

Section Calls.
Variable I : call Sty -> Prop.
Definition writes {A} (m : @M pd rwo A) (J : A -> Prop) : Prop :=
  forall w, Forall I w -> Forall I (fst (m w)) /\ good (snd (m w)) J.

Lemma w_ret {A} (a : A) (J : A -> Prop) : J a -> writes (ret a) J.
Proof. intros H w Hw. split; [exact Hw|apply good_ok; exact H]. Qed.
Lemma w_fail {A} f (J : A -> Prop) : writes (fail f) J.
Proof. intros w Hw. split; [exact Hw|apply good_fail]. Qed.
Lemma w_pure {A} r (J : A -> Prop) : good r J -> writes (pure r) J.
Proof. intros H w Hw. split; [exact Hw|exact H]. Qed.
Lemma w_any {A} r : writes (pure (A := A) r) (fun _ => True).
Proof. intros w Hw. split; [exact Hw|]. intros ? ?. exact Logic.I. Qed.
Lemma w_printing {A} (r : pres A) (J : A -> Prop) : good r J -> writes (from_printing r) J.
Proof.
  intros H w Hw. split; [exact Hw|]. unfold from_printing. cbn [snd]. destruct r as [a|[e|q|]]; [|apply good_fail|apply good_fail|apply good_fail].
  apply good_ok. exact (H a eq_refl).
Qed.
Lemma w_bind {A B} (m : M A) (k : A -> M B) (J : A -> Prop) (J2 : B -> Prop) :
  writes m J -> (forall a, J a -> writes (k a) J2) -> writes (mbind m k) J2.
Proof.
  intros H Hk w Hw. unfold mbind. destruct (H w Hw) as [H1 H2]. destruct (m w) as [w' [a|f]]; cbn [fst snd] in *.
  - apply Hk; [exact (H2 a eq_refl)|exact H1].
  - split; [exact H1|apply good_fail].
Qed.
Lemma w_then {A B} (m : M A) (k : A -> M B) (J2 : B -> Prop) :
  writes m (fun _ => True) -> (forall a, writes (k a) J2) -> writes (mbind m k) J2.
Proof. intros H Hk. eapply w_bind; [exact H|]. intros a _. apply Hk. Qed.
Lemma w_put ch p st fw : I (Put ch p st fw) -> writes (put ch p st fw) (fun _ => True).
Proof.
  intros H w Hw. unfold put, rwo, recorder. cbn. split; [apply Forall_app; split; [exact Hw|constructor; auto]|]. intros ? ?. exact Logic.I.
Qed.
Lemma w_focus p : I (SetFocus p) -> writes (focus p) (fun _ => True).
Proof.
  intros H w Hw. unfold focus, rwo, recorder. cbn. split; [apply Forall_app; split; [exact Hw|constructor; auto]|]. intros ? ?. exact Logic.I.
Qed.
Lemma w_for {A} (l : list A) body : (forall x, In x l -> writes (body x) (fun _ => True)) -> writes (forM l body) (fun _ => True).
Proof.
  induction l as [|x l IH]; intros H; cbn [forM]; [apply w_ret; exact Logic.I|]. apply w_then; [apply H; left; reflexivity|]. intros _. apply IH. intros y Hy. apply H. right. exact Hy.
Qed.
Lemma w_loop {S R} (body : S -> M (step S R)) : (forall s, writes (body s) (fun _ => True)) -> forall n s, writes (mloop n body s) (fun _ => True).
Proof.
  intros Hb. induction n as [|n IH]; intros s; cbn [mloop]; [apply w_fail|]. apply w_then; [apply Hb|]. intros [s'|r]; [apply IH|apply w_ret; exact Logic.I].
Qed.

Section Leaf.
Variables (st : Sty).
Hypothesis Hpad : forall p, I (Put space p st false).

Lemma fill_writes n ch r : (forall p, I (Put ch p st (char_full_width ch))) -> writes (display_fill n ch st r) (fun _ => True).
Proof.
  intros Hch. unfold display_fill. apply w_for. intros row _. unfold fill_row. apply w_then.
  - apply w_loop. intros col. unfold fill_body. cbv zeta. apply w_then; [apply w_any|]. intros nx. destruct (_ <=? _)%N; [|apply w_ret; exact Logic.I].
    apply w_then; [apply w_put; apply Hch|]. intros _. apply w_then; [apply w_any|]. intros nx2. apply w_ret. exact Logic.I.
  - intros col. destruct (_ <? _)%N; [apply w_put; apply Hpad|apply w_ret; exact Logic.I].
Qed.
Lemma blank_writes row r : writes (display_blank_line row r st) (fun _ => True).
Proof.
  unfold display_blank_line. apply w_then; [apply w_any|]. intros rw0. destruct (_ <=? _)%N; [apply w_ret; exact Logic.I|].
  apply w_for. intros col _. apply w_put. apply Hpad.
Qed.

Variable okg : segment -> Prop.
Hypothesis Hseg : forall g ch p, okg g -> In ch (seg_str g) -> I (Put ch p (seg_style g) (char_full_width ch)).

Lemma chars_writes r row sty chs : (forall ch p, In ch chs -> I (Put ch p sty (char_full_width ch))) -> forall col,
  writes (display_chars r row sty chs col) (fun _ => True).
Proof.
  induction chs as [|ch chs IH]; intros Hc col; cbn [display_chars]; [apply w_ret; exact Logic.I|]. cbv zeta.
  apply w_then; [apply w_any|]. intros nx. destruct (_ <? _)%N; [apply w_ret; exact Logic.I|].
  apply w_then; [apply w_put; apply Hc; left; reflexivity|]. intros _. apply w_then; [apply w_any|]. intros nx2. apply IH. intros c p Hin. apply Hc. right. exact Hin.
Qed.
Lemma segments_writes r row segs : Forall okg segs -> forall col, writes (display_segments r row segs col) (fun _ => True).
Proof.
  induction segs as [|s segs IH]; intros Hs col; cbn [display_segments]; [apply w_ret; exact Logic.I|]. inversion Hs; subst.
  apply w_then; [apply chars_writes; intros ch p; apply Hseg; assumption|]. intros [c [|]]; [apply w_ret; exact Logic.I|apply IH; assumption].
Qed.
Lemma line_writes n l row r : Forall okg l -> writes (display_line n l row r st) (fun _ => True).
Proof.
  intros Hl. unfold display_line. apply w_then; [apply w_any|]. intros rw0. destruct (_ <=? _)%N; [apply w_ret; exact Logic.I|].
  apply w_then; [apply segments_writes; exact Hl|]. intros col. apply w_loop. intros c. unfold pad_body. destruct (_ <? _)%N; [|apply w_ret; exact Logic.I].
  apply w_then; [apply w_put; apply Hpad|]. intros _. apply w_then; [apply w_any|]. intros nx. apply w_ret. exact Logic.I.
Qed.
Lemma doc_writes n p r : pd_blank_style p = st -> Forall (Forall okg) (pd_lines p) -> (pd_focus_point p <> None -> forall q, I (SetFocus q)) ->
  writes (display_doc n p r) (fun _ => True).
Proof.
  intros Hst Hl Hf. unfold display_doc. apply w_then.
  - destruct (pd_focus_point p) as [fp|]; [|apply w_ret; exact Logic.I]. apply w_then; [apply w_any|]. intros row. apply w_then; [apply w_any|]. intros col.
    apply w_focus. apply Hf. discriminate.
  - intros _. apply w_then; [apply w_any|]. intros fr. apply w_then; [apply w_any|]. intros lr. apply w_then; [apply w_any|]. intros s.
    apply w_for. intros row _. unfold display_row. rewrite Hst. destruct (_ && _)%N; [|apply blank_writes].
    destruct (nth_error _ _) as [l|] eqn:E; [|apply w_fail]. apply line_writes. apply nth_error_In in E. apply (proj1 (Forall_forall _ _) Hl _ E).
Qed.
End Leaf.
End Calls.

(** ** Printed documents *)
Definition pd_ok (doc : D) (o : printing_options) (st : Sty) (p : printed_doc) : Prop :=
  pd_blank_style p = st /\ Forall (Forall (from_document doc (o_focus_target o) (Some st))) (pd_lines p) /\ (pd_focus_point p <> None -> o_set_focus o = true).

Lemma take_good (okp : printer -> Prop) (okg : segment -> Prop) next : (forall p p' ol, okp p -> next p = Ok (p', ol) -> okp p' /\ forall l : line, ol = Some l -> Forall okg l) ->
  forall k p p' ls, okp p -> Pane.take_lines next k p = Ok (p', ls) -> Forall (Forall okg) ls.
Proof.
  intros Hn. induction k as [|k IH]; intros p p' ls Hp H; cbn [Pane.take_lines] in H; [injection H as <- <-; constructor|].
  apply bind_ok in H. destruct H as ([p1 ol] & H1 & H). apply bind_ok in H. destruct H as ([p2 ls'] & H2 & H). injection H as <- <-.
  destruct (Hn _ _ _ Hp H1) as [Q1 Q2]. pose proof (IH _ _ _ Q1 H2). destruct ol; [constructor; [apply Q2; reflexivity|]|]; assumption.
Qed.
Lemma new_ok fuel doc o s st : good (printed_doc_new fuel doc o s st) (pd_ok doc o st).
Proof.
  unfold printed_doc_new. destruct (_ || _)%N.
  - apply good_ok. split; [reflexivity|]. split; [constructor|]. cbn. congruence.
  - cbv zeta. intros p H. apply bind_ok in H. destruct H as (row & _ & H). apply bind_ok in H. destruct H as ([[up fl] down] & Hp & H).
    apply bind_ok in H. destruct H as (fp & Hfp & H). apply bind_ok in H. destruct H as ([u' above] & Hu & H).
    apply bind_ok in H. destruct H as (nr & _ & H). apply bind_ok in H. destruct H as ([d' below] & Hd & H). injection H as <-.
    destruct (@pretty_print_origin pd env doc (o_focus_target o) (Some st) _ _ _ _ _ _ Hp) as (P1 & P2 & P3 & P4).
    split; [reflexivity|]. split; cbn [pd_lines pd_focus_point].
    + apply Forall_app. split; [apply Forall_rev|constructor].
      * eapply take_good; [|exact P1|exact Hu]. intros q q' ol. apply prev_line_origin.
      * apply Forall_app. split; assumption.
      * eapply take_good; [|exact P2|exact Hd]. intros q q' ol. apply next_line_origin.
    + destruct (o_set_focus o); [reflexivity|]. injection Hfp as <-. congruence.
Qed.

Section Panes.
Variable p0 : pane.
Variable st0 : Sty.
Notation I := (written_by get_content p0 st0).

(** A printed document that may be displayed by [p0]. *)
Definition shown (p : printed_doc) : Prop := exists l st, basic_pane p0 st0 (PDoc l) st /\
  match get_content l with Some (doc, o) => pd_ok doc o st p | None => p = printed_doc_empty st end.
Lemma shown_writes n p r : shown p -> writes I (display_doc n p r) (fun _ => True).
Proof.
  intros (l & st & Hb & Hp). destruct (get_content l) as [[doc o]|] eqn:E.
  - destruct Hp as (Q1 & Q2 & Q3). eapply (@doc_writes I st) with (okg := from_document doc (o_focus_target o) (Some st)); [| |exact Q1|exact Q2|].
    + intros q. exists (PDoc l), st. split; [exact Hb|]. left. auto.
    + intros g ch q Hg Hin. exists (PDoc l), st. split; [exact Hb|]. right. exists doc, o, g. auto.
    + intros Hf q. exists l, st, doc, o. auto.
  - subst p. eapply (@doc_writes I st) with (okg := fun _ => False); [|intros g ch q []|reflexivity|constructor|cbn; congruence].
    intros q. exists (PDoc l), st. split; [exact Hb|]. left. auto.
Qed.

Lemma extract_basic (p : pane) : forall st (l : L) st', extract_doc (pw := rwo) p st = Ok (l, st') -> basic_pane p st (PDoc l) st'.
Proof.
  induction p as [ps IH|ps IH|l0|ch|s p IH] using pane_ind'; intros st l st' H; cbn [extract_doc] in H; try discriminate.
  - injection H as <- <-. constructor.
  - constructor. apply IH. exact H.
Qed.
Lemma dynamic_ok n l s st : basic_pane p0 st0 (PDoc l) st -> writes I (dynamic_doc get_content n l s st) shown.
Proof.
  intros Hb. unfold dynamic_doc. destruct (get_content l) as [[doc o]|] eqn:E.
  - apply w_printing. eapply good_imp; [apply new_ok|]. intros p Hp. exists l, st. rewrite E. auto.
  - apply w_ret. exists l, st. rewrite E. auto.
Qed.
Lemma horz_ok n st ps : (forall size p x st', In (size, p) ps -> basic_pane p st x st' -> basic_pane p0 st0 x st') -> forall s,
  writes I (horz_dynamic get_content n st ps s) (fun y => Forall shown (snd y)).
Proof.
  induction ps as [|[size p] ps IH]; intros Hps s; cbn [horz_dynamic]; [apply w_ret; constructor|].
  assert (IH' : forall s, writes I (horz_dynamic get_content n st ps s) (fun y => Forall shown (snd y))).
  { apply IH. intros size' p' x st' Hin. apply (Hps size'). right. exact Hin. }
  destruct size; try apply IH'.
  apply w_bind with (J := fun x => basic_pane p0 st0 (PDoc (fst x)) (snd x)).
  { apply w_pure. intros [l st'] H. eapply Hps; [left; reflexivity|]. apply extract_basic. exact H. }
  intros [l st'] Hx. cbn [fst snd] in *. eapply w_bind; [apply dynamic_ok; exact Hx|]. intros q Hq.
  eapply w_bind with (J := fun _ => True); [apply w_printing; intros ? ?; exact Logic.I|]. intros w _. cbv zeta.
  apply w_then; [apply w_any|]. intros rest. eapply w_bind; [apply IH'|]. intros y Hy. apply w_ret. constructor; assumption.
Qed.
Lemma vert_ok n st ps : (forall size p x st', In (size, p) ps -> basic_pane p st x st' -> basic_pane p0 st0 x st') -> forall s,
  writes I (vert_dynamic get_content n st ps s) (fun y => Forall shown (snd y)).
Proof.
  induction ps as [|[size p] ps IH]; intros Hps s; cbn [vert_dynamic]; [apply w_ret; constructor|].
  assert (IH' : forall s, writes I (vert_dynamic get_content n st ps s) (fun y => Forall shown (snd y))).
  { apply IH. intros size' p' x st' Hin. apply (Hps size'). right. exact Hin. }
  destruct size; try apply IH'.
  apply w_bind with (J := fun x => basic_pane p0 st0 (PDoc (fst x)) (snd x)).
  { apply w_pure. intros [l st'] H. eapply Hps; [left; reflexivity|]. apply extract_basic. exact H. }
  intros [l st'] Hx. cbn [fst snd] in *. eapply w_bind; [apply dynamic_ok; exact Hx|]. intros q Hq. cbv zeta.
  apply w_then; [apply w_any|]. intros rest. eapply w_bind; [apply IH'|]. intros y Hy. apply w_ret. constructor; assumption.
Qed.

Lemma pane_writes n p : forall st r, (forall x st', basic_pane p st x st' -> basic_pane p0 st0 x st') ->
  writes I (display_pane_rec get_content n p st r) (fun _ => True).
Proof.
  induction p as [ps IH|ps IH|l|ch|s p IH] using pane_ind'; intros st r Hp; cbn [display_pane_rec].
  - assert (Hps : forall size p x st', In (size, p) ps -> basic_pane p st x st' -> basic_pane p0 st0 x st').
    { intros size p x st' Hin Hb. apply Hp. eapply basic_horz; eauto. }
    apply w_then; [apply w_any|]. intros w. cbv zeta. apply w_then; [apply w_any|]. intros h.
    eapply w_bind; [apply horz_ok; exact Hps|]. intros y Hy. apply w_then; [apply w_any|]. intros widths. destruct y as [ws docs]. cbn [fst snd] in *. clear ws.
    generalize (min_col r) as col. revert widths docs Hy. clear Hp. induction ps as [|[size p] ps IHps]; intros widths docs Hdocs col; [apply w_ret; exact Logic.I|].
    pose proof (IH _ _ (or_introl eq_refl)) as IH1. assert (IH2 := fun k' p' Hin => IH k' p' (or_intror Hin)).
    specialize (IHps IH2 (fun size' p' x st' Hin => Hps size' p' x st' (or_intror Hin))).
    destruct widths as [|wd widths]; [apply w_ret; exact Logic.I|]. apply w_then; [apply w_any|]. intros nx.
    destruct size; try (apply w_then; [apply IH1; intros x st' Hb; eapply Hps; [left; reflexivity|exact Hb]|]; intros _; apply IHps; exact Hdocs).
    destruct docs as [|dc docs]; [apply w_fail|]. inversion Hdocs; subst. apply w_then; [apply shown_writes; assumption|]. intros _. apply IHps. assumption.
  - assert (Hps : forall size p x st', In (size, p) ps -> basic_pane p st x st' -> basic_pane p0 st0 x st').
    { intros size p x st' Hin Hb. apply Hp. eapply basic_vert; eauto. }
    apply w_then; [apply w_any|]. intros h. cbv zeta. apply w_then; [apply w_any|]. intros w.
    eapply w_bind; [apply vert_ok; exact Hps|]. intros y Hy. apply w_then; [apply w_any|]. intros heights. destruct y as [ws docs]. cbn [fst snd] in *. clear ws.
    generalize (min_row r) as row. revert heights docs Hy. clear Hp. induction ps as [|[size p] ps IHps]; intros heights docs Hdocs row; [apply w_ret; exact Logic.I|].
    pose proof (IH _ _ (or_introl eq_refl)) as IH1. assert (IH2 := fun k' p' Hin => IH k' p' (or_intror Hin)).
    specialize (IHps IH2 (fun size' p' x st' Hin => Hps size' p' x st' (or_intror Hin))).
    destruct heights as [|wd heights]; [apply w_ret; exact Logic.I|]. apply w_then; [apply w_any|]. intros nx.
    destruct size; try (apply w_then; [apply IH1; intros x st' Hb; eapply Hps; [left; reflexivity|exact Hb]|]; intros _; apply IHps; exact Hdocs).
    destruct docs as [|dc docs]; [apply w_fail|]. inversion Hdocs; subst. apply w_then; [apply shown_writes; assumption|]. intros _. apply IHps. assumption.
  - destruct (get_content l) as [[doc o]|] eqn:E; [|apply w_ret; exact Logic.I].
    apply w_then; [apply w_any|]. intros s. eapply w_bind with (J := shown); [apply w_printing; eapply good_imp; [apply new_ok|]|intros x Hx; apply shown_writes; exact Hx].
    intros q Hq. exists l, st. rewrite E. split; [apply Hp; constructor|exact Hq].
  - apply fill_writes.
    + intros q. exists (PFill ch), st. split; [apply Hp; constructor|]. split; [reflexivity|]. right. auto.
    + intros q. exists (PFill ch), st. split; [apply Hp; constructor|]. split; [reflexivity|]. left. auto.
  - apply IH. intros x st' Hb. apply Hp. constructor. exact Hb.
Qed.
End Panes.

Theorem drawn_origin n p st : Forall (written_by get_content p st) (fst (drawn get_content WE sz n p st)).
Proof.
  unfold drawn, display_pane. cbn [w_size recorder].
  apply (@pane_writes p st n p st (rect_from_size sz) (fun x st' H => H) []). constructor.
Qed.
End OriginPane.
