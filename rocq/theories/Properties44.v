(** C76: a pane depends only on the answers of its documents and of its window. *)
From Verif Require Export Properties25 PSimPane.

Set Implicit Arguments.

Section Alike.
Context {pd1 pd2 : PrettyDoc} {env : Env}.
Variable T : likeness pd1 pd2.
Context {L1 L2 : Type}.
Variable RL : L1 -> L2 -> Prop.
Variable get1 : L1 -> option (@D pd1 * printing_options).
Variable get2 : L2 -> option (@D pd2 * printing_options).

(** C76.  Display a pane notation in a window, and a pane notation of the same
    shape in another window: with corresponding styles and labels, which stand for
    documents that behave alike, in windows that answer alike.  Then both
    windows are driven alike, to the same result. *)
Theorem C76_same_display {pw1 : PrettyWindow (@Sty pd1)} {pw2 : PrettyWindow (@Sty pd2)} (W : @window_likeness pd1 pd2 pw1 pw2) :
  behaves_like T -> windows_alike T W -> contents_like T RL get1 get2 ->
  forall p' p st' st w' w,
  pane_like T RL p' p -> lk_sty T st' st -> wl_win W w' w ->
  forall n, ran_alike T W (@display_pane pd1 env pw1 L1 get1 n p' st' w') (@display_pane pd2 env pw2 L2 get2 n p st w).
Proof.
  intros HR HW HL p' p st' st w' w Hp Hs Hw n.
  apply (@display_sim pd1 pd2 env T _ (behaves_lockstep HR) pw1 pw2 W HW L1 L2 RL get1 get2 HL); auto.
Qed.

(** The same calls, with corresponding styles. *)
Definition call_like (c' : call (@Sty pd1)) (c : call (@Sty pd2)) : Prop :=
  match c', c with
  | Put ch' p' s' full', Put ch p s full => ch' = ch /\ p' = p /\ lk_sty T s' s /\ full' = full
  | SetFocus p', SetFocus p => p' = p
  | _, _ => False
  end.

Definition recorders (WE : Type) (sz : size) :
  @window_likeness pd1 pd2 (recorder (@Sty pd1) WE sz) (recorder (@Sty pd2) WE sz) :=
  @WindowLikeness pd1 pd2 (recorder (@Sty pd1) WE sz) (recorder (@Sty pd2) WE sz) (Forall2 call_like) eq.

Lemma recorders_alike WE sz : windows_alike T (recorders WE sz).
Proof.
  split.
  - intros w' w _. reflexivity.
  - intros w' w ch p s' s full Hw Hs. split; [|reflexivity]. cbn in *. apply Forall2_app; [exact Hw|].
    constructor; [|constructor]. cbn. auto.
  - intros w' w p Hw. split; [|reflexivity]. cbn in *. apply Forall2_app; [exact Hw|]. constructor; [reflexivity|constructor].
Qed.

(** C76.  So a window is asked to display the same characters at the same
    positions, and to set the same focus. *)
Theorem C76_same_calls (WE : Type) (sz : size) :
  behaves_like T -> contents_like T RL get1 get2 ->
  forall p' p st' st, pane_like T RL p' p -> lk_sty T st' st ->
  forall n, ran_alike T (recorders WE sz) (drawn get1 WE sz n p' st') (drawn get2 WE sz n p st).
Proof.
  intros HR HL p' p st' st Hp Hs n. unfold drawn.
  apply C76_same_display; auto; [apply recorders_alike|cbn; constructor].
Qed.
End Alike.

(** ** Styles, ids and labels are opaque *)

(** The pane notation with other styles, and with other labels. *)
Fixpoint restyle {L S1 S2} (f : S1 -> S2) (p : pane L S1) : pane L S2 :=
  match p with
  | Horz ps => Horz (map (fun x => (fst x, restyle f (snd x))) ps)
  | Vert ps => Vert (map (fun x => (fst x, restyle f (snd x))) ps)
  | PDoc l => PDoc l
  | PFill ch => PFill ch
  | PStyle s p => PStyle (f s) (restyle f p)
  end.
Fixpoint relabel {L1 L2 S} (g : L1 -> L2) (p : pane L1 S) : pane L2 S :=
  match p with
  | Horz ps => Horz (map (fun x => (fst x, relabel g (snd x))) ps)
  | Vert ps => Vert (map (fun x => (fst x, relabel g (snd x))) ps)
  | PDoc l => PDoc (g l)
  | PFill ch => PFill ch
  | PStyle s p => PStyle s (relabel g p)
  end.
(** The call with another style. *)
Definition recolour {S1 S2} (f : S1 -> S2) (c : call S1) : call S2 :=
  match c with Put ch p s full => Put ch p (f s) full | SetFocus p => SetFocus p end.

Lemma Forall2_map_r {A B} (P : A -> B -> Prop) (f : A -> B) l : (forall x, In x l -> P x (f x)) -> Forall2 P l (map f l).
Proof. induction l as [|x l IH]; intros H; cbn; constructor; [apply H; left; reflexivity|apply IH; intros; apply H; right; assumption]. Qed.

Section Opaque.
Context {pd : PrettyDoc} {env : Env} {L : Type}.
Variable get : L -> option (@D pd * printing_options).

Lemma note_like_styles S combine f (m : @note pd) : note_like (@same_styles pd S combine f) m m.
Proof. induction m; simpl; auto. repeat split; auto. destruct label; simpl; auto. Qed.
Lemma note_like_ids I eqb f (m : @note pd) : note_like (@same_ids pd I eqb f) m m.
Proof. induction m; simpl; auto. repeat split; auto. destruct label; simpl; auto. Qed.

Lemma styles_behave S combine f : (forall s t, f (style_combine s t) = combine (f s) (f t)) ->
  behaves_like (@same_styles pd S combine f).
Proof.
  intros Hf. set (T := @same_styles pd S combine f).
  assert (Ha : forall A B (Q : A -> B -> Prop) (x' : mres Er A) (x : mres Er B),
    match x' with MOk a' => exists a, x = MOk a /\ Q a' a | MErr e => x = MErr e | MPanic => x = MPanic end ->
    answers_like T Q x' x).
  { intros A B Q [a|e|] x H; simpl; auto. right. exists e. split; [auto|reflexivity]. }
  assert (Hs : forall A (x : mres Er A), answers_like T eq x x) by (intros A x; apply Ha; destruct x; eauto).
  pose proof (@note_like_styles S combine f) as Hn.
  split.
  - intros i' i j' j -> ->. reflexivity.
  - intros s' s t' t -> ->. symmetry. apply Hf.
  - intros d' d2 E. cbn in E. subst d2. apply Hs.
  - intros d' d2 E. cbn in E. subst d2. apply Ha. cbn. destruct (m_notation d'); simpl; eauto.
  - intros d' d2 c' c E E2. cbn in E, E2. subst. apply Hs.
  - intros d' d2 c' c E E2. cbn in E, E2. subst d2 c. apply Ha. cbn. destruct (m_lookup_style d' c'); simpl; eauto.
  - intros d' d2 E. cbn in E. subst d2. apply Ha. cbn. destruct (m_node_style d'); simpl; eauto.
  - intros d' d2 E. cbn in E. subst. apply Hs.
  - intros d' d2 E. cbn in E. subst. apply Hs.
  - intros d' d2 i E. cbn in E. subst. apply Hs.
  - intros d' d2 E. cbn in E. subst. apply Hs.
  - intros d' d2 p' p i E E2. cbn in E, E2. subst. apply Hs.
Qed.
Lemma ids_behave I eqb f : (forall i j, eqb (f i) (f j) = id_eqb i j) -> behaves_like (@same_ids pd I eqb f).
Proof.
  intros Hf. set (T := @same_ids pd I eqb f).
  assert (Ha : forall A B (Q : A -> B -> Prop) (x' : mres Er A) (x : mres Er B),
    match x' with MOk a' => exists a, x = MOk a /\ Q a' a | MErr e => x = MErr e | MPanic => x = MPanic end ->
    answers_like T Q x' x).
  { intros A B Q [a|e|] x H; simpl; auto. right. exists e. split; [auto|reflexivity]. }
  assert (Hs : forall A (x : mres Er A), answers_like T eq x x) by (intros A x; apply Ha; destruct x; eauto).
  pose proof (@note_like_ids I eqb f) as Hn.
  split.
  - intros i' i j' j -> ->. symmetry. apply Hf.
  - intros s' s t' t -> ->. reflexivity.
  - intros d' d2 E. cbn in E. subst d2. apply Ha. cbn. destruct (m_id d'); simpl; eauto.
  - intros d' d2 E. cbn in E. subst d2. apply Ha. cbn. destruct (m_notation d'); simpl; eauto.
  - intros d' d2 c' c E E2. cbn in E, E2. subst. apply Hs.
  - intros d' d2 c' c E E2. cbn in E, E2. subst. apply Hs.
  - intros d' d2 E. cbn in E. subst. apply Hs.
  - intros d' d2 E. cbn in E. subst. apply Hs.
  - intros d' d2 E. cbn in E. subst. apply Hs.
  - intros d' d2 i E. cbn in E. subst. apply Hs.
  - intros d' d2 E. cbn in E. subst. apply Hs.
  - intros d' d2 p' p i E E2. cbn in E, E2. subst. apply Hs.
Qed.

Lemma restyle_like S combine f (p : pane L Sty) : pane_like (@same_styles pd S combine f) eq p (restyle f p).
Proof.
  induction p as [ps IH|ps IH|l|ch|s p IH] using pane_ind'; cbn [restyle]; constructor; auto.
  - apply Forall2_map_r. intros [z c] Hin. split; [reflexivity|]. cbn. apply (IH z c Hin).
  - apply Forall2_map_r. intros [z c] Hin. split; [reflexivity|]. cbn. apply (IH z c Hin).
  - reflexivity.
Qed.

(** C76.  Translating the styles of the documents, of the pane notation and of
    the root translates the styles of what is displayed, and changes nothing
    else. *)
Theorem C76_styles_are_opaque S combine f (WE : Type) (sz : size) :
  (forall s t, f (style_combine s t) = combine (f s) (f t)) ->
  forall n (p : pane L Sty) st,
  @drawn (@with_styles pd S combine f) env L get WE sz n (restyle f p) (f st) =
  (map (recolour f) (fst (drawn get WE sz n p st)), snd (drawn get WE sz n p st)).
Proof.
  intros Hf n p st. set (T := @same_styles pd S combine f).
  assert (HL : @contents_like pd (@with_styles pd S combine f) T L L eq get get).
  { intros l' l ->. destruct (get l) as [[d o]|]; [|exact I]. split; reflexivity. }
  pose proof (@C76_same_calls pd (@with_styles pd S combine f) env T L L eq get get WE sz (styles_behave combine f Hf) HL p (restyle f p) st (f st)
    (restyle_like combine f p) eq_refl n) as H.
  destruct H as [(e & _ & [])|[H1 H2]].
  destruct (drawn get WE sz n p st) as [cs r].
  destruct (@drawn (@with_styles pd S combine f) env L get WE sz n (restyle f p) (f st)) as [cs2 r2].
  cbn [fst snd recorders wl_win] in H1, H2 |- *. f_equal.
  - induction H1 as [|c' c cs cs2 Hc H1 IH]; [reflexivity|]. cbn [map]. f_equal; [|exact IH].
    destruct c', c; cbn in Hc; try contradiction; [|subst; reflexivity]. destruct Hc as (-> & -> & -> & ->). reflexivity.
  - destruct r as [[]|[e| |]], r2 as [[]|[e2| |]]; try contradiction; try reflexivity; [|cbn in H2; subst; reflexivity].
    apply (f_equal (fun z => Err z)). destruct e as [|x|x], e2 as [|y|y]; cbn in H2; try contradiction; try reflexivity; [subst; reflexivity|].
    apply (f_equal (fun z => PrintingErr z)). destruct x, y; cbn in H2; try contradiction; try reflexivity; try congruence; try (subst; reflexivity); destruct H2; subst; reflexivity.
Qed.

(** C76.  Renaming ids changes nothing that is displayed. *)
Theorem C76_ids_are_opaque I eqb f (WE : Type) (sz : size) : (forall i j, eqb (f i) (f j) = id_eqb i j) ->
  forall n (p : pane L Sty) st,
  @drawn (@with_ids pd I eqb f) env L get WE sz n p st = drawn get WE sz n p st.
Proof.
  intros Hf n p st. set (T := @same_ids pd I eqb f).
  assert (HL : @contents_like pd (@with_ids pd I eqb f) T L L eq get get).
  { intros l' l ->. destruct (get l) as [[d o]|]; [|exact Logic.I]. split; reflexivity. }
  assert (Hp : pane_like T eq p p).
  { clear. induction p as [ps IH|ps IH|l|ch|s p IH] using pane_ind'.
    - apply (@like_horz pd (@with_ids pd I eqb f) T L L eq). rewrite <- (map_id ps) at 2. apply Forall2_map_r. intros [z c] Hin. split; [reflexivity|]. apply (IH z c Hin).
    - apply (@like_vert pd (@with_ids pd I eqb f) T L L eq). rewrite <- (map_id ps) at 2. apply Forall2_map_r. intros [z c] Hin. split; [reflexivity|]. apply (IH z c Hin).
    - apply (@like_doc pd (@with_ids pd I eqb f) T L L eq). reflexivity.
    - apply (@like_fill pd (@with_ids pd I eqb f) T L L eq).
    - apply (@like_style pd (@with_ids pd I eqb f) T L L eq); [reflexivity|exact IH]. }
  pose proof (@C76_same_calls pd (@with_ids pd I eqb f) env T L L eq get get WE sz (ids_behave eqb f Hf) HL p p st st
    Hp eq_refl n) as H.
  destruct H as [(e & _ & [])|[H1 H2]].
  destruct (drawn get WE sz n p st) as [cs r].
  destruct (@drawn (@with_ids pd I eqb f) env L get WE sz n p st) as [cs2 r2].
  cbn [fst snd recorders wl_win] in H1, H2 |- *. f_equal.
  - induction H1 as [|c' c cs cs2 Hc H1 IH]; [reflexivity|]. f_equal; [|exact IH].
    destruct c', c; cbn in Hc; try contradiction; [|subst; reflexivity]. destruct Hc as (-> & -> & -> & ->). reflexivity.
  - destruct r as [[]|[e| |]], r2 as [[]|[e2| |]]; try contradiction; try reflexivity; [|cbn in H2; subst; reflexivity].
    apply (f_equal (fun z => Err z)). destruct e as [|x|x], e2 as [|y|y]; cbn in H2; try contradiction; try reflexivity; [subst; reflexivity|].
    apply (f_equal (fun z => PrintingErr z)). destruct x, y; cbn in H2; try contradiction; try reflexivity; try congruence; try (subst; reflexivity); destruct H2; subst; reflexivity.
Qed.

(** C76.  Which characters are displayed where does not depend on any style: two
    pane notations that differ only in their styles, with any root styles. *)
Theorem C76_styles_never_move (WE : Type) (sz : size) (p p' : pane L Sty) st st' :
  restyle (fun _ => tt) p' = restyle (fun _ => tt) p ->
  forall n,
  map (recolour (fun _ => tt)) (fst (drawn get WE sz n p' st')) = map (recolour (fun _ => tt)) (fst (drawn get WE sz n p st)) /\
  snd (drawn get WE sz n p' st') = snd (drawn get WE sz n p st).
Proof.
  intros E n. set (T := @but_styles pd).
  assert (HL : contents_like T eq get get).
  { intros l' l ->. destruct (get l) as [[d o]|]; [|exact I]. split; reflexivity. }
  assert (Hp : pane_like T eq p' p).
  { revert p E. clear. 
    assert (Hf : forall (ps' ps : list (pane_size * pane L (@Sty pd))),
      (forall z c, In (z, c) ps' -> forall q : pane L Sty, restyle (fun _ => tt) c = restyle (fun _ => tt) q -> pane_like T eq c q) ->
      map (fun x => (fst x, restyle (fun _ => tt) (snd x))) ps' = map (fun x => (fst x, restyle (fun _ => tt) (snd x))) ps ->
      Forall2 (fun x' x => fst x' = fst x /\ pane_like T eq (snd x') (snd x)) ps' ps).
    { induction ps' as [|[z' c'] ps' IH]; intros [|[z c] ps] H E; try discriminate E; constructor.
      - injection E as -> E _. split; [reflexivity|]. apply (H z c' (or_introl eq_refl)). exact E.
      - injection E as _ _ E. apply IH; [intros z0 c0 Hin; apply (H z0 c0 (or_intror Hin))|exact E]. }
    induction p' as [ps IH|ps IH|l|ch|s p' IH] using pane_ind'; intros [ps2|ps2|l2|ch2|s2 p2] E; try discriminate E; cbn [restyle] in E; injection E as E; subst; constructor; auto.
    exact I. }
  pose proof (@C76_same_calls pd pd env T L L eq get get WE sz but_styles_behaves HL p' p st' st Hp I n) as H.
  destruct H as [(e & _ & [])|[H1 H2]].
  destruct (drawn get WE sz n p' st') as [cs r].
  destruct (drawn get WE sz n p st) as [cs2 r2].
  cbn [fst snd recorders wl_win] in H1, H2 |- *. split.
  - induction H1 as [|c' c cs cs2 Hc H1 IH]; [reflexivity|]. cbn [map]. f_equal; [|exact IH].
    destruct c', c; cbn in Hc; try contradiction; [|subst; reflexivity]. destruct Hc as (-> & -> & _ & ->). reflexivity.
  - destruct r as [[]|[e| |]], r2 as [[]|[e2| |]]; try contradiction; try reflexivity; [|cbn in H2; subst; reflexivity].
    apply (f_equal (fun z => Err z)). destruct e as [|x|x], e2 as [|y|y]; cbn in H2; try contradiction; try reflexivity; [subst; reflexivity|].
    apply (f_equal (fun z => PrintingErr z)). destruct x, y; cbn in H2; try contradiction; try reflexivity; try congruence; try (subst; reflexivity); destruct H2; subst; reflexivity.
Qed.

(** C76.  Labels are opaque: a pane notation in which the labels are renamed,
    displayed with contents that know the new names, in any window. *)
Definition same_values : likeness pd pd := Likeness pd pd eq eq eq eq eq eq (fun _ => False).
Lemma same_values_behave : behaves_like same_values.
Proof.
  assert (Hm : forall A (Q : A -> A -> Prop) (x : mres Er A), (forall a, Q a a) -> answers_like same_values Q x x).
  { intros A Q [a|e|] H; simpl; eauto. }
  assert (Hn : forall m : @note pd, note_like same_values m m).
  { induction m; simpl; auto. repeat split; auto. destruct label; simpl; auto. }
  split; try (intros d' d2 E; cbn in E; subst d2; apply Hm; cbn; auto; fail).
  - intros i' i j' j -> ->. reflexivity.
  - intros s' s t' t -> ->. reflexivity.
  - intros d' d2 c' c E E2. cbn in E, E2. subst d2 c. apply Hm. reflexivity.
  - intros d' d2 c' c E E2. cbn in E, E2. subst d2 c. apply Hm. reflexivity.
  - intros d' d2 i E. cbn in E. subst d2. apply Hm. reflexivity.
  - intros d' d2 p' p i E E2. cbn in E, E2. subst d2 p. apply Hm. reflexivity.
Qed.

Theorem C76_labels_are_opaque {pw : PrettyWindow (@Sty pd)} {L2 : Type} (g : L -> L2) (get2 : L2 -> option (D * printing_options)) :
  (forall l, get2 (g l) = get l) ->
  forall n (p : pane L Sty) st w, display_pane get2 n (relabel g p) st w = display_pane get n p st w.
Proof.
  intros Hg n p st w. set (T := same_values).
  pose (W := @WindowLikeness pd pd pw pw eq eq).
  assert (HW : windows_alike T W).
  { split.
    - intros w1 w2 E. cbn in E. subst w2. unfold reply_like. destruct (w_size w1); reflexivity.
    - intros w1 w2 ch q s' s full E E2. cbn in E, E2. subst w2 s. split; [reflexivity|]. unfold reply_like.
      destruct (snd (w_display_char w1 ch q s' full)); reflexivity.
    - intros w1 w2 q E. cbn in E. subst w2. split; [reflexivity|]. unfold reply_like. destruct (snd (w_set_focus w1 q)); reflexivity. }
  assert (HL : contents_like T (fun l1 l2 => l2 = g l1) get get2).
  { intros l1 l2 ->. rewrite Hg. destruct (get l1) as [[d o]|]; [|exact I]. split; reflexivity. }
  assert (Hp : pane_like T (fun l1 l2 => l2 = g l1) p (relabel g p)).
  { clear. induction p as [ps IH|ps IH|l|ch|s p IH] using pane_ind'; cbn [relabel]; constructor; auto; try reflexivity.
    - apply Forall2_map_r. intros [z c] Hin. split; [reflexivity|]. apply (IH z c Hin).
    - apply Forall2_map_r. intros [z c] Hin. split; [reflexivity|]. apply (IH z c Hin). }
  pose proof (@C76_same_display pd pd env T L L2 _ get get2 pw pw W same_values_behave HW HL p (relabel g p) st st w w Hp eq_refl eq_refl n) as H.
  destruct H as [(e & _ & [])|[H1 H2]].
  destruct (display_pane get n p st w) as [cs r].
  destruct (display_pane get2 n (relabel g p) st w) as [cs2 r2].
  cbn in H1. cbn [snd] in H2. subst cs2. f_equal.
  - destruct r as [[]|[e| |]], r2 as [[]|[e2| |]]; try contradiction; try reflexivity; [|cbn in H2; subst; reflexivity].
    apply (f_equal (fun z => Err z)). destruct e as [|x|x], e2 as [|y|y]; cbn in H2; try contradiction; try reflexivity; [subst; reflexivity|].
    apply (f_equal (fun z => PrintingErr z)). destruct x, y; cbn in H2; try contradiction; try reflexivity; try congruence; try (subst; reflexivity); destruct H2; subst; reflexivity.
Qed.
End Opaque.
