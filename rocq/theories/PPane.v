(** Windows: displaying on any window is replaying the recorded calls. *)
From Verif Require Export SpecPane.

Set Implicit Arguments.

(** The printing width. *)
Lemma choose_width_asked o w : choose_width o w = asked_width o w.
Proof.
  unfold choose_width, asked_width. destruct (o_width_strategy o) as [|k|k]; auto.
  destruct (N.ltb_spec w k); lia.
Qed.


Lemma pane_ind' {L S} (P : pane L S -> Prop)
  (HH : forall ps, (forall k p, In (k, p) ps -> P p) -> P (Horz ps))
  (HV : forall ps, (forall k p, In (k, p) ps -> P p) -> P (Vert ps))
  (HD : forall l, P (PDoc l)) (HF : forall ch, P (PFill ch)) (HS : forall s p, P p -> P (PStyle s p))
  : forall p, P p.
Proof.
  fix IH 1. intros [ps|ps|l|ch|s p].
  - apply HH. induction ps as [|[k q] ps IHps]; intros k' p'; [intros []|].
    intros [E|H]; [injection E as <- <-; apply IH|eapply IHps; exact H].
  - apply HV. induction ps as [|[k q] ps IHps]; intros k' p'; [intros []|].
    intros [E|H]; [injection E as <- <-; apply IH|eapply IHps; exact H].
  - apply HD.
  - apply HF.
  - apply HS. apply IH.
Qed.

Section Sim.
Context {pd : PrettyDoc} {env : Env}.

(** *** Recording *)
Section Emits.
Context {WE : Type} {sz : size}.
Local Instance rw : PrettyWindow Sty := recorder Sty WE sz.

Definition emits {A} (m : M A) (cs : list (call Sty)) (r : res (pane_err WE Er) A) : Prop :=
  forall l, m l = (l ++ cs, r).

Lemma emits_det {A} (m : M A) cs1 r1 cs2 r2 : emits m cs1 r1 -> emits m cs2 r2 -> cs1 = cs2 /\ r1 = r2.
Proof. intros H1 H2. specialize (H1 []). specialize (H2 []). rewrite H1 in H2. injection H2 as -> ->. auto. Qed.

Lemma emits_ret {A} (a : A) : emits (ret a) [] (Ok a).
Proof. intros l. unfold ret. rewrite app_nil_r. reflexivity. Qed.
Lemma emits_fail {A} f : emits (@fail _ _ A f) [] (Fail f).
Proof. intros l. unfold fail. rewrite app_nil_r. reflexivity. Qed.
Lemma emits_pure {A} (r : res (pane_err WE Er) A) : emits (pure r) [] r.
Proof. intros l. unfold pure. rewrite app_nil_r. reflexivity. Qed.
Lemma emits_put ch p st fw : emits (put ch p st fw) [Put ch p st fw] (Ok tt).
Proof. intros l. reflexivity. Qed.
Lemma emits_focus p : emits (focus p) [SetFocus p] (Ok tt).
Proof. intros l. reflexivity. Qed.

Lemma emits_bind {A B} (m : M A) (k : A -> M B) cs1 a cs2 r :
  emits m cs1 (Ok a) -> emits (k a) cs2 r -> emits (mbind m k) (cs1 ++ cs2) r.
Proof. intros H1 H2 l. unfold mbind. rewrite H1, H2, app_assoc. reflexivity. Qed.
Lemma emits_bind_fail {A B} (m : M A) (k : A -> M B) cs f :
  emits m cs (Fail f) -> emits (mbind m k) cs (Fail f).
Proof. intros H l. unfold mbind. rewrite H. reflexivity. Qed.
End Emits.

(** *** Any window *)
Context {pw : PrettyWindow Sty}.
Variable sz : size.
Let rw := recorder Sty (@WErr _ pw) sz.

Definition sim {A} (m1 : @M pd rw A) (m2 : @M pd pw A) : Prop :=
  exists cs r, emits m1 cs r /\ forall w, m2 w = replay cs r w.

Lemma replay_app {A B} cs (a : A) cs' (r : res (pane_err WErr Er) B) (k : A -> M B) w :
  (forall w, k a w = replay cs' r w) ->
  mbind (replay cs (Ok a)) k w = replay (cs ++ cs') r w.
Proof.
  intros H. revert w. induction cs as [|c cs IH]; intros w; simpl.
  - unfold mbind, pure. apply H.
  - unfold mbind in *. destruct (perform c w) as [w' [[]|f]]; [|reflexivity]. apply IH.
Qed.

Lemma replay_fail {A B} cs f (k : A -> M B) w :
  mbind (replay cs (Fail f)) k w = replay cs (Fail f) w.
Proof.
  revert w. induction cs as [|c cs IH]; intros w; simpl.
  - reflexivity.
  - unfold mbind in *. destruct (perform c w) as [w' [[]|f']]; [|reflexivity]. apply IH.
Qed.

Lemma sim_bind {A B} (m1 : @M pd rw A) (m2 : @M pd pw A) (k1 : A -> @M pd rw B) (k2 : A -> @M pd pw B) :
  sim m1 m2 -> (forall a, sim (k1 a) (k2 a)) -> sim (mbind m1 k1) (mbind m2 k2).
Proof.
  intros (cs & [a|f] & H1 & H2) Hk.
  - destruct (Hk a) as (cs' & r & H3 & H4). exists (cs ++ cs'), r. split; [eapply emits_bind; eauto|].
    intros w. transitivity (mbind (replay cs (Ok a)) k2 w); [unfold mbind; rewrite H2; reflexivity|].
    apply replay_app. exact H4.
  - exists cs, (Fail f). split; [apply emits_bind_fail; auto|].
    intros w. transitivity (mbind (replay cs (Fail f)) k2 w); [unfold mbind; rewrite H2; reflexivity|].
    apply replay_fail.
Qed.

Lemma sim_ret {A} (a : A) : sim (ret a) (ret a).
Proof. exists [], (Ok a). split; [apply emits_ret|reflexivity]. Qed.
Lemma sim_fail {A} f : sim (@fail _ rw A f) (@fail _ pw A f).
Proof. exists [], (Fail f). split; [apply emits_fail|reflexivity]. Qed.
Lemma sim_pure {A} (r : res (pane_err WErr Er) A) : sim (@pure pd rw A r) (@pure pd pw A r).
Proof. exists [], r. split; [apply emits_pure|reflexivity]. Qed.
Lemma sim_printing {A} (r : pres A) : sim (from_printing r) (from_printing r).
Proof.
  eexists [], _. split; [|reflexivity].
  intros l. rewrite app_nil_r. reflexivity.
Qed.
Lemma sim_put ch p st fw : sim (put ch p st fw) (put ch p st fw).
Proof.
  exists [Put ch p st fw], (Ok tt). split; [apply emits_put|]. intros w. simpl. unfold mbind, pure.
  destruct (put ch p st fw w) as [w' [[]|f]]; reflexivity.
Qed.
Lemma sim_focus p : sim (focus p) (focus p).
Proof.
  exists [SetFocus p], (Ok tt). split; [apply emits_focus|]. intros w. simpl. unfold mbind, pure.
  destruct (focus p w) as [w' [[]|f]]; reflexivity.
Qed.

Hint Resolve sim_bind sim_ret sim_fail sim_pure sim_printing sim_put sim_focus : sim.

Lemma sim_forM {A} (l : list A) (f1 : A -> @M pd rw unit) (f2 : A -> @M pd pw unit) : (forall x, sim (f1 x) (f2 x)) -> sim (forM l f1) (forM l f2).
Proof. intros H. induction l; simpl; auto with sim. Qed.

Lemma sim_mloop {St R} fuel (f1 : St -> @M pd rw (step St R)) (f2 : St -> @M pd pw (step St R)) : (forall s, sim (f1 s) (f2 s)) -> forall s, sim (mloop fuel f1 s) (mloop fuel f2 s).
Proof. intros H. induction fuel; intros s; simpl; auto with sim. apply sim_bind; auto. intros []; auto with sim. Qed.

Lemma sim_fill fuel ch st r : sim (display_fill fuel ch st r) (display_fill fuel ch st r).
Proof.
  apply sim_forM. intros row. unfold fill_row. apply sim_bind.
  - apply sim_mloop. intros col. unfold fill_body. apply sim_bind; auto with sim. intros next. case (next <=? max_col r)%N; auto with sim.
  - intros col. case (col <? max_col r)%N; auto with sim.
Qed.

Lemma sim_chars r row st chs : forall col, sim (display_chars r row st chs col) (display_chars r row st chs col).
Proof.
  induction chs as [|ch chs IH]; intros col; simpl; auto with sim. apply sim_bind; auto with sim. intros next.
  case (max_col r <? next)%N; auto with sim.
Qed.
Lemma sim_segments r row segs : forall col, sim (display_segments r row segs col) (display_segments r row segs col).
Proof.
  induction segs as [|s segs IH]; intros col; simpl; auto with sim. apply sim_bind; [apply sim_chars|].
  intros [c []]; auto with sim.
Qed.

Lemma sim_line fuel l row r blank : sim (display_line fuel l row r blank) (display_line fuel l row r blank).
Proof.
  unfold display_line. apply sim_bind; [apply sim_pure|]. intros x. case (max_row r <=? x)%N; auto with sim.
  apply sim_bind; [apply sim_segments|]. intros col. apply sim_mloop. intros c. unfold pad_body.
  case (c <? max_col r)%N; auto with sim.
Qed.

Lemma sim_doc fuel p r : sim (display_doc fuel p r) (display_doc fuel p r).
Proof.
  unfold display_doc. apply sim_bind. { destruct (pd_focus_point p); auto with sim. }
  intros _. apply sim_bind; [apply sim_pure|]. intros a. apply sim_bind; [apply sim_pure|]. intros b.
  apply sim_bind; [apply sim_pure|]. intros s. apply sim_forM. intros row. unfold display_row.
  case ((a <=? row) && (row <? b))%N.
  - case (nth_error (pd_lines p) (N.to_nat (row - a))); [intros l; apply sim_line|apply sim_fail].
  - unfold display_blank_line. apply sim_bind; [apply sim_pure|]. intros x. case (max_row r <=? x)%N; auto with sim.
    apply sim_forM. intros c. apply sim_put.
Qed.

Section Content.
Context {L : Type}.
Variable get_content : L -> option (D * printing_options).

Lemma sim_dynamic fuel l av st : sim (dynamic_doc get_content fuel l av st) (dynamic_doc get_content fuel l av st).
Proof. unfold dynamic_doc. destruct (get_content l) as [[doc o]|]; auto with sim. Qed.

Lemma sim_horz fuel st ps : forall av, sim (horz_dynamic get_content fuel st ps av) (horz_dynamic get_content fuel st ps av).
Proof.
  induction ps as [|[[k| |h] c] ps IH]; intros av; simpl; auto with sim.
  apply sim_bind; [apply sim_pure|]. intros x. apply sim_bind; [apply sim_dynamic|]. intros p.
  apply sim_bind; [apply sim_printing|]. intros w. apply sim_bind; [apply sim_pure|]. intros rest. auto with sim.
Qed.
Lemma sim_vert fuel st ps : forall av, sim (vert_dynamic get_content fuel st ps av) (vert_dynamic get_content fuel st ps av).
Proof.
  induction ps as [|[[k| |h] c] ps IH]; intros av; simpl; auto with sim.
  apply sim_bind; [apply sim_pure|]. intros x. apply sim_bind; [apply sim_dynamic|]. intros p.
  apply sim_bind; [apply sim_pure|]. intros rest. auto with sim.
Qed.

Lemma sim_rec fuel p : forall st r,
  sim (display_pane_rec get_content fuel p st r) (display_pane_rec get_content fuel p st r).
Proof.
  induction p as [ps IH|ps IH|l|ch|s p IH] using pane_ind'; intros st r; simpl.
  - apply sim_bind; [apply sim_pure|]. intros w. apply sim_bind; [apply sim_pure|]. intros h.
    apply sim_bind; [apply sim_horz|]. intros x. apply sim_bind; [apply sim_pure|]. intros widths.
    generalize (snd x) as docs. generalize (min_col r) as col. revert widths.
    induction ps as [|[k c] ps IHps]; intros widths col docs; [apply sim_ret|].
    destruct widths as [|wd widths]; [apply sim_ret|]. apply sim_bind; [apply sim_pure|]. intros next.
    assert (IHps' : forall widths col docs, _) by (apply IHps; intros k' p' Hin; apply (IH k' p'); right; exact Hin).
    destruct k; try (apply sim_bind; [eapply IH; left; reflexivity|intros _; apply IHps']).
    destruct docs; [apply sim_fail|]. apply sim_bind; [apply sim_doc|]. intros _. apply IHps'.
  - apply sim_bind; [apply sim_pure|]. intros h. apply sim_bind; [apply sim_pure|]. intros w.
    apply sim_bind; [apply sim_vert|]. intros x. apply sim_bind; [apply sim_pure|]. intros heights.
    generalize (snd x) as docs. generalize (min_row r) as row. revert heights.
    induction ps as [|[k c] ps IHps]; intros heights row docs; [apply sim_ret|].
    destruct heights as [|hd heights]; [apply sim_ret|]. apply sim_bind; [apply sim_pure|]. intros next.
    assert (IHps' : forall heights row docs, _) by (apply IHps; intros k' p' Hin; apply (IH k' p'); right; exact Hin).
    destruct k; try (apply sim_bind; [eapply IH; left; reflexivity|intros _; apply IHps']).
    destruct docs; [apply sim_fail|]. apply sim_bind; [apply sim_doc|]. intros _. apply IHps'.
  - destruct (get_content l) as [[doc o]|]; [|apply sim_ret]. apply sim_bind; [apply sim_pure|]. intros s.
    apply sim_bind; [apply sim_printing|]. intros x. apply sim_doc.
  - apply sim_fill.
  - apply IH.
Qed.

(** Displaying on any window of size [sz]. *)
Theorem any_window fuel p st (w : Win) :
  w_size w = MOk sz ->
  display_pane get_content fuel p st w =
  replay (fst (drawn get_content (@WErr _ pw) sz fuel p st)) (snd (drawn get_content (@WErr _ pw) sz fuel p st)) w.
Proof.
  intros Hs. unfold display_pane at 1. rewrite Hs.
  destruct (sim_rec fuel p st (rect_from_size sz)) as (cs & r & H1 & H2).
  rewrite H2. unfold drawn, display_pane. simpl. specialize (H1 []). unfold emits in H1.
  match goal with |- _ = replay (fst ?x) (snd ?y) w => change x with (display_pane_rec (pw := recorder Sty WErr sz) get_content fuel p st (rect_from_size sz) []);
    change y with (display_pane_rec (pw := recorder Sty WErr sz) get_content fuel p st (rect_from_size sz) []) end.
  change (recorder Sty WErr sz) with rw. rewrite H1. reflexivity.
Qed.
End Content.
End Sim.
