(** C59: only the methods of a document matter, not how it is represented. *)
From Verif Require Export PSim PSimCost PSimFull.

Set Implicit Arguments.

Section Alike.
Context {pd1 pd2 : PrettyDoc} {env : Env}.
Variable T : likeness pd1 pd2.

(** C59.  Let [d'] and [d] be documents, of any two types, whose methods give
    corresponding answers (SpecSim.v).  Then every window of [d'] is printed as
    that of [d] is: the same texts, corresponding styles, or a corresponding
    error; unless a method of [d'] refused to answer. *)
Theorem C59_same_window d' d st' st : behaves_like T -> lk_doc T d' d -> root_style_like T st' st ->
  forall n w path ft ku kd,
  same_result T (window_like T) (window n d' w path ft st' ku kd) (window n d w path ft st ku kd).
Proof. intros HR Hd Hst n w path ft ku kd. apply rr_same. apply (window_sim (behaves_lockstep HR)); auto. Qed.

Theorem C59_same_string d' d : behaves_like T -> lk_doc T d' d ->
  forall n w, same_result T eq (pretty_print_to_string n d' w) (pretty_print_to_string n d w).
Proof. intros HR Hd n w. apply rr_same. apply (to_string_sim (behaves_lockstep HR)); auto. Qed.

(** C59.  If all of [d'] is printed without error, so is all of [d]: as many
    lines above and below the focus, with the same texts. *)
Theorem C59_same_print d' d st' st : behaves_like T -> lk_doc T d' d -> root_style_like T st' st ->
  forall w path ft ups' fl' downs', printed d' w path ft st' ups' fl' downs' ->
  exists ups fl downs, printed d w path ft st ups fl downs /\
    Forall2 (line_like T) ups' ups /\ focused_like T fl' fl /\ Forall2 (line_like T) downs' downs.
Proof. intros HR Hd Hst w path ft ups' fl' downs' Hp. eapply (printed_sim (behaves_lockstep HR)); eauto. Qed.

(** C59.  It takes the same number of steps, too. *)
Theorem C59_same_work d' d st' st : behaves_like T -> lk_doc T d' d -> root_style_like T st' st ->
  forall n w path ft ku kd,
  refused T (window n d' w path ft st' ku kd) \/
  window_cost n d' w path ft st' ku kd = window_cost n d w path ft st ku kd.
Proof. intros HR Hd Hst n w path ft ku kd. apply (window_cost_sim (behaves_lockstep HR)); auto. Qed.

Theorem C59_same_string_work d' d : behaves_like T -> lk_doc T d' d ->
  forall n w, refused T (pretty_print_to_string n d' w) \/ to_string_cost n d' w = to_string_cost n d w.
Proof. intros HR Hd n w. apply (to_string_cost_sim (behaves_lockstep HR)); auto. Qed.

(** If no method refuses, the two print the same string in the same cases. *)
Theorem C59_string_iff d' d : behaves_like T -> lk_doc T d' d -> (forall e, ~ lk_off T e) ->
  forall n w s, pretty_print_to_string n d' w = Ok s <-> pretty_print_to_string n d w = Ok s.
Proof.
  intros HR Hd Ho n w s. pose proof (@C59_same_string _ _ HR Hd n w) as H. unfold same_result in H.
  destruct (pretty_print_to_string n d' w) as [a|f].
  - destruct H as (b & -> & ->). split; intros E; injection E as ->; reflexivity.
  - destruct H as [(e & _ & He)|(g & -> & _)]; [destruct (Ho _ He)|]. split; discriminate.
Qed.
End Alike.

(** ** Ids, styles, labels and conditions are opaque *)
Section Renaming.
Context {pd : PrettyDoc} {env : Env}.

Definition mmap {E A B} (f : A -> B) (x : mres E A) : mres E B :=
  match x with MOk a => MOk (f a) | MErr e => MErr e | MPanic => MPanic end.

(** The document with other ids. *)
Definition with_ids (I : Type) (eqb : I -> I -> bool) (f : Id -> I) : PrettyDoc := {|
  D := D; Id := I; Sty := Sty; Lbl := Lbl; Cnd := Cnd; Er := Er;
  id_eqb := eqb; style_combine := style_combine;
  m_id := fun d => mmap f (m_id d);
  m_notation := m_notation; m_condition := m_condition; m_lookup_style := m_lookup_style;
  m_node_style := m_node_style; m_num_children := m_num_children; m_unwrap_text := m_unwrap_text;
  m_unwrap_child := m_unwrap_child; m_unwrap_last_child := m_unwrap_last_child;
  m_unwrap_prev_sibling := m_unwrap_prev_sibling |}.

Definition same_ids I eqb f : likeness pd (@with_ids I eqb f) :=
  @Likeness pd (with_ids eqb f) eq (fun i' i => i = f i') eq eq eq eq (fun _ => False).


(** Renaming ids, in such a way that they are still told apart, changes nothing. *)
Theorem C59_ids_are_opaque I eqb f (d : D) (st : option Sty) : (forall i j, eqb (f i) (f j) = id_eqb i j) ->
  let T := @same_ids I eqb f in
  forall n w path ft ku kd,
  same_result T (window_like T) (window n d w path ft st ku kd)
    (@window (with_ids eqb f) env n d w path ft st ku kd).
Proof.
  intros Hf T n w path ft ku kd.
  assert (Ha : forall A B (Q : A -> B -> Prop) (x' : mres Er A) (x : mres Er B),
    match x' with MOk a' => exists a, x = MOk a /\ Q a' a | MErr e => x = MErr e | MPanic => x = MPanic end ->
    answers_like T Q x' x).
  { intros A B Q [a|e|] x H; simpl; auto. right. exists e. split; [auto|reflexivity]. }
  assert (Hs : forall A (x : mres Er A), answers_like T eq x x).
  { intros A x. apply Ha. destruct x; eauto. }
  assert (Hn : forall m : @note pd, note_like T m m).
  { induction m; simpl; auto. repeat split; auto. destruct label; simpl; auto. }
  apply C59_same_window; [|reflexivity|intros s1 s2 E; cbn in E |- *; rewrite <- E; destruct st; reflexivity].
  split.
  - intros i' i j' j -> ->. symmetry. apply Hf.
  - intros s' s t' t -> ->. reflexivity.
  - intros d' d2 E. cbn in E. subst d2. apply Ha. cbn. destruct (m_id d'); simpl; eauto.
  - intros d' d2 E. cbn in E. subst d2. apply Ha. cbn. destruct (m_notation d'); simpl; eauto.
  - intros d' d2 c' c E E2. cbn in E, E2. subst. apply Hs.
  - intros d' d2 c' c E E2. cbn in E, E2. subst. apply Hs.
  - intros d' d2 E. cbn in E. subst. apply Hs.
  - intros d' d2 E. cbn in E. subst. apply Hs.
  - intros d' d2 E. cbn in E. subst. apply Hs.
  - intros d' d2 i E. cbn in E. subst. apply Hs.
  - intros d' d2 E. cbn in E. subst. apply Hs.
  - intros d' d2 p' p i E E2. cbn in E, E2. subst. apply Hs.
Qed.

(** The document with other styles. *)
Definition with_styles (S : Type) (combine : S -> S -> S) (f : Sty -> S) : PrettyDoc := {|
  D := D; Id := Id; Sty := S; Lbl := Lbl; Cnd := Cnd; Er := Er;
  id_eqb := id_eqb; style_combine := combine;
  m_id := m_id; m_notation := m_notation; m_condition := m_condition;
  m_lookup_style := fun d l => mmap f (m_lookup_style d l);
  m_node_style := fun d => mmap f (m_node_style d);
  m_num_children := m_num_children; m_unwrap_text := m_unwrap_text;
  m_unwrap_child := m_unwrap_child; m_unwrap_last_child := m_unwrap_last_child;
  m_unwrap_prev_sibling := m_unwrap_prev_sibling |}.

Definition same_styles S combine f : likeness pd (@with_styles S combine f) :=
  @Likeness pd (with_styles combine f) eq eq (fun s' s => s = f s') eq eq eq (fun _ => False).

(** Translating the styles of the document translates the styles of the output,
    and changes nothing else: styles never influence the layout. *)
Theorem C59_styles_are_opaque S combine f (d : D) (st : option Sty) :
  (forall s t, f (style_combine s t) = combine (f s) (f t)) ->
  let T := @same_styles S combine f in
  forall n w path ft ku kd,
  same_result T (window_like T) (window n d w path ft st ku kd)
    (@window (with_styles combine f) env n d w path ft (option_map f st) ku kd).
Proof.
  intros Hf T n w path ft ku kd.
  assert (Ha : forall A B (Q : A -> B -> Prop) (x' : mres Er A) (x : mres Er B),
    match x' with MOk a' => exists a, x = MOk a /\ Q a' a | MErr e => x = MErr e | MPanic => x = MPanic end ->
    answers_like T Q x' x).
  { intros A B Q [a|e|] x H; simpl; auto. right. exists e. split; [auto|reflexivity]. }
  assert (Hs : forall A (x : mres Er A), answers_like T eq x x).
  { intros A x. apply Ha. destruct x; eauto. }
  assert (Hn : forall m : @note pd, note_like T m m).
  { induction m; simpl; auto. repeat split; auto. destruct label; simpl; auto. }
  apply C59_same_window; [|reflexivity|intros s1 s2 E; cbn in E |- *; rewrite E; destruct st; simpl; [symmetry; apply Hf|reflexivity]].
  split.
  - intros i' i j' j -> ->. reflexivity.
  - intros s' s t' t -> ->. symmetry. apply Hf.
  - intros d' d2 E. cbn in E. subst d2. apply Hs.
  - intros d' d2 E. cbn in E. subst d2. apply Ha. cbn. destruct (m_notation d'); simpl; eauto.
  - intros d' d2 c' c E E2. cbn in E, E2. subst. apply Hs.
  - intros d' d2 c' c E E2. cbn in E, E2. subst d2 c. apply Ha. cbn. destruct (m_lookup_style d' c'); simpl; eauto.
  - intros d' d2 E. cbn in E. subst d2. apply Ha. cbn. destruct (m_node_style d'); simpl; eauto.
  - intros d' d2 E. cbn in E. subst. apply Hs.
  - intros d' d2 E. cbn in E. subst. apply Hs.
  - intros d' d2 i E. cbn in E. subst. apply Hs.
  - intros d' d2 E. cbn in E. subst. apply Hs.
  - intros d' d2 p' p i E E2. cbn in E, E2. subst. apply Hs.
Qed.

(** C59.  The root style has no influence on the lines: with different ones, or
    none, the results differ in their styles only. *)
Definition but_styles : likeness pd pd := Likeness pd pd eq eq (fun _ _ => True) eq eq eq (fun _ => False).
Lemma but_styles_behaves : behaves_like but_styles.
Proof.
  assert (Hm : forall A (Q : A -> A -> Prop) (x : mres Er A), (forall a, Q a a) -> answers_like but_styles Q x x).
  { intros A Q [a|e|] H; simpl; eauto. }
  assert (Hn : forall m : @note pd, note_like but_styles m m).
  { induction m; simpl; auto. repeat split; auto. destruct label; simpl; auto. }
  split; try (intros; exact I); try (intros d' d2 E; cbn in E; subst d2; apply Hm; cbn; auto; fail).
  - intros i' i j' j -> ->. reflexivity.
  - intros d' d2 c' c E E2. cbn in E, E2. subst d2 c. apply Hm. reflexivity.
  - intros d' d2 c' c E E2. cbn in E, E2. subst d2 c. apply Hm. intros; exact I.
  - intros d' d2 i E. cbn in E. subst d2. apply Hm. reflexivity.
  - intros d' d2 p' p i E E2. cbn in E, E2. subst d2 p. apply Hm. reflexivity.
Qed.
Theorem C59_root_style (d : D) (st st' : option Sty) n w path ft ku kd :
  same_result but_styles (window_like but_styles) (window n d w path ft st ku kd) (window n d w path ft st' ku kd).
Proof. apply C59_same_window; [exact but_styles_behaves|reflexivity|intros s1 s2 _; exact I]. Qed.
Theorem C59_root_style_print (d : D) (st st' : option Sty) w path ft ups fl downs :
  printed d w path ft st ups fl downs ->
  exists ups' fl' downs', printed d w path ft st' ups' fl' downs' /\
    Forall2 (line_like but_styles) ups ups' /\ focused_like but_styles fl fl' /\ Forall2 (line_like but_styles) downs downs'.
Proof. apply C59_same_print; [exact but_styles_behaves|reflexivity|intros s1 s2 _; exact I]. Qed.

End Renaming.
