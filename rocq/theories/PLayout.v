(** Facts about the layout specification, and the ghost state used to relate
    the printer's blocks to pieces of the layout. *)
From Verif Require Export SpecLayout.

Set Implicit Arguments.

Section PLayout.
Context {pd : PrettyDoc} {env : Env}.

(** ** Options *)

Lemma obind_assoc {A B C} (o : option A) (f : A -> option B) (g : B -> option C) :
  obind (obind o f) g = obind o (fun a => obind (f a) g).
Proof. destruct o; reflexivity. Qed.

Lemma obind_some {A B} (o : option A) (f : A -> option B) b :
  obind o f = Some b -> exists a, o = Some a /\ f a = Some b.
Proof. destruct o; simpl; [eauto|discriminate]. Qed.

Lemma obind_none {A B} (o : option A) (f : A -> option B) :
  (forall a, f a = None) -> obind o f = None.
Proof. destruct o; simpl; auto. Qed.

Definition oapp {A} (a b : option (list A)) : option (list A) :=
  obind a (fun x => obind b (fun y => Some (x ++ y))).

Lemma oapp_assoc {A} (a b c : option (list A)) : oapp a (oapp b c) = oapp (oapp a b) c.
Proof. destruct a, b, c; simpl; try reflexivity. rewrite app_assoc. reflexivity. Qed.

Lemma oapp_nil_r {A} (a : option (list A)) : oapp a (Some []) = a.
Proof. destruct a; simpl; [rewrite app_nil_r|]; reflexivity. Qed.

Lemma oapp_nil_l {A} (a : option (list A)) : oapp (Some []) a = a.
Proof. destruct a; reflexivity. Qed.

Lemma oapp_some {A} (a b : option (list A)) l :
  oapp a b = Some l -> exists x y, a = Some x /\ b = Some y /\ l = x ++ y.
Proof.
  unfold oapp. destruct a as [x|]; simpl; [|discriminate].
  destruct b as [y|]; simpl; [|discriminate]. intros [= <-]. eauto.
Qed.

Lemma oapp_none_r {A} (a : option (list A)) : oapp a None = None.
Proof. destruct a; reflexivity. Qed.

Lemma oapp_none_l {A} (a : option (list A)) : oapp None a = None.
Proof. reflexivity. Qed.

(** ** Running events *)

(** The position after an event. *)
Definition pstep (p : pos) (e : event) : option pos :=
  match e with
  | EText _ t => text_pos p t
  | EEol => Some (fst p, true)
  | ENewline ind => indent_pos ind
  | _ => Some p
  end.

Fixpoint prun (p : pos) (es : list event) : option pos :=
  match es with
  | [] => Some p
  | e :: es' => obind (pstep p e) (fun p' => prun p' es')
  end.

Lemma prun_app p a b : prun p (a ++ b) = obind (prun p a) (fun p' => prun p' b).
Proof.
  revert p; induction a as [|e a IH]; intros p; simpl; [reflexivity|].
  rewrite obind_assoc. destruct (pstep p e); simpl; auto.
Qed.

Lemma rend_prun w s : forall j k p es p',
  rend w s j k p = Some (es, p') -> prun p es = Some p'.
Proof.
  induction s as [f| | |ind|t|a IHa b IHb|a IHa b IHb|n i s IH|]; intros j k p es p'; simpl.
  - discriminate.
  - intros [= <- <-]. reflexivity.
  - intros [= <- <-]. reflexivity.
  - intros H. apply obind_some in H as [q [Hq [= <- <-]]]. simpl. rewrite Hq. reflexivity.
  - intros H. apply obind_some in H as [q [Hq [= <- <-]]]. simpl. rewrite Hq. reflexivity.
  - intros H. apply obind_some in H as [[e1 p1] [H1 H]].
    apply obind_some in H as [[e2 p2] [H2 [= <- <-]]].
    rewrite prun_app, (IHa _ _ _ _ _ H1). simpl. eauto.
  - destruct (head_fails a); [discriminate|].
    intros H. apply obind_some in H as [f [_ H]]. destruct f; eauto.
  - destruct i as [j'|f]; [|discriminate].
    intros H. apply obind_some in H as [[e1 p1] [H1 [= <- <-]]]. simpl.
    rewrite prun_app, (IH _ _ _ _ _ H1). reflexivity.
  - intros [= <- <-]. reflexivity.
Qed.

(** ** Lookahead depends on [k] only pointwise *)

Lemma fits_s_ext s : forall k k',
  (forall r e, k r e = k' r e) -> forall r e, fits_s s k r e = fits_s s k' r e.
Proof.
  induction s as [f| | |ind|t|a IHa b IHb|a IHa b IHb|n i s IH|]; intros k k' E r e; simpl; auto.
  - destruct e; auto. destruct (_ <=? _)%N; auto.
  - destruct (head_fails b); auto.
Qed.

Lemma rend_ext w s : forall j k k' p,
  (forall r e, k r e = k' r e) -> rend w s j k p = rend w s j k' p.
Proof.
  induction s as [f| | |ind|t|a IHa b IHb|a IHa b IHb|n i s IH|]; intros j k k' p E; simpl; auto.
  - erewrite IHa by (apply fits_s_ext; eassumption).
    destruct (rend w a j (fits_s b k') p) as [[e1 p1]|]; simpl; auto.
    erewrite IHb by eassumption. reflexivity.
  - destruct (head_fails a); auto.
    assert (Ep : picks_first w a k p = picks_first w a k' p).
    { unfold picks_first. destruct p as [len eol]. destruct (_ <=? _)%N; auto.
      apply fits_s_ext; auto. }
    rewrite Ep. destruct (picks_first w a k' p) as [[]|]; simpl; auto.
  - destruct i as [j'|]; auto. erewrite IH by eassumption. reflexivity.
Qed.

(** ** Items: what remains to be laid out *)

(** [GI j s]: a piece [s] of the notation of node [j].  [GE e]: an event to be
    emitted (used for EExit). *)
Inductive item : Type :=
| GI (j : Id) (s : shape)
| GE (e : event).

Fixpoint fits_its (its : list item) (k : look) : look :=
  match its with
  | [] => k
  | GI _ s :: its' => fits_s s (fits_its its' k)
  | GE _ :: its' => fits_its its' k
  end.

Fixpoint rend_its (w : N) (its : list item) (k : look) (p : pos) : option (list event * pos) :=
  match its with
  | [] => Some ([], p)
  | it :: its' =>
      obind (match it with
             | GI j s => rend w s j (fits_its its' k) p
             | GE e => obind (pstep p e) (fun p' => Some ([e], p'))
             end) (fun '(e1, p1) =>
      obind (rend_its w its' k p1) (fun '(e2, p2) => Some (e1 ++ e2, p2)))
  end.

Lemma fits_its_app a b k : fits_its (a ++ b) k = fits_its a (fits_its b k).
Proof.
  induction a as [|[j s|e] a IH]; simpl; auto. rewrite IH. reflexivity.
Qed.

Lemma rend_its_app w a b k p :
  rend_its w (a ++ b) k p =
  obind (rend_its w a (fits_its b k) p) (fun '(e1, p1) =>
  obind (rend_its w b k p1) (fun '(e2, p2) => Some (e1 ++ e2, p2))).
Proof.
  revert p; induction a as [|it a IH]; intros p; simpl.
  - destruct (rend_its w b k p) as [[e p']|]; reflexivity.
  - rewrite fits_its_app.
    destruct (match it with GI j s => _ | GE e => _ end) as [[e1 p1]|]; simpl; auto.
    rewrite IH. rewrite !obind_assoc.
    destruct (rend_its w a (fits_its b k) p1) as [[e2 p2]|]; simpl; auto.
    destruct (rend_its w b k p2) as [[e3 p3]|]; simpl; auto.
    rewrite app_assoc. reflexivity.
Qed.

Lemma rend_its_prun w its : forall k p es p',
  rend_its w its k p = Some (es, p') -> prun p es = Some p'.
Proof.
  induction its as [|it its IH]; intros k p es p'; simpl.
  - intros [= <- <-]. reflexivity.
  - intros H. apply obind_some in H as [[e1 p1] [H1 H]].
    apply obind_some in H as [[e2 p2] [H2 [= <- <-]]].
    rewrite prun_app.
    assert (Hp : prun p e1 = Some p1).
    { destruct it as [j s|e].
      - eapply rend_prun; eauto.
      - apply obind_some in H1 as [q [Hq [= <- <-]]]. simpl. rewrite Hq. reflexivity. }
    rewrite Hp. simpl. eauto.
Qed.

Lemma fits_its_ext its k k' :
  (forall r e, k r e = k' r e) -> forall r e, fits_its its k r e = fits_its its k' r e.
Proof.
  intros E. induction its as [|[j s|ev] its IH]; intros r e; simpl; auto.
  apply fits_s_ext. auto.
Qed.

Lemma rend_its_ext w its : forall k k' p,
  (forall r e, k r e = k' r e) -> rend_its w its k p = rend_its w its k' p.
Proof.
  induction its as [|it its IH]; intros k k' p E; simpl; auto.
  assert (E1 : match it with
               | GI j s => rend w s j (fits_its its k) p
               | GE e => obind (pstep p e) (fun p' => Some ([e], p'))
               end = match it with
               | GI j s => rend w s j (fits_its its k') p
               | GE e => obind (pstep p e) (fun p' => Some ([e], p'))
               end).
  { destruct it; auto. apply rend_ext. apply fits_its_ext. auto. }
  rewrite E1. clear E1.
  destruct (match it with GI j s => _ | GE e => _ end) as [[e1 p1]|]; simpl; auto.
  erewrite IH by eassumption. reflexivity.
Qed.

(** The events, without the final position. *)
Definition evs (o : option (list event * pos)) : option (list event) := option_map fst o.

(** ** Ghost blocks

    A ghost block: the indentation of the newline that starts it ([None] for the
    first line of the document), the events already laid out on it, and the
    items that remain. *)
Record gblock : Type := GBlock {
  g_head : option indentation; g_body : list event; g_items : list item }.

Definition g_done (g : gblock) : list event :=
  match g_head g with Some ind => [ENewline ind] | None => [] end ++ g_body g.

Definition is_newline (e : event) : bool :=
  match e with ENewline _ => true | _ => false end.
Definition no_newline (es : list event) : Prop := forallb (fun e => negb (is_newline e)) es = true.

(** Value of a block: all the events it stands for, with what follows it on
    its last line given by [k]. *)
Definition vfront (w : N) (done : list event) (its : list item) (k : look)
  : option (list event) :=
  obind (prun pos0 done) (fun p =>
  obind (rend_its w its k p) (fun '(es, _) => Some (done ++ es))).

Definition vblock (w : N) (g : gblock) : option (list event) :=
  vfront w (g_done g) (g_items g) look_end.

Fixpoint vblocks (w : N) (gs : list gblock) : option (list event) :=
  match gs with
  | [] => Some []
  | g :: gs' => oapp (vblock w g) (vblocks w gs')
  end.

Lemma vblocks_app w a b : vblocks w (a ++ b) = oapp (vblocks w a) (vblocks w b).
Proof.
  induction a as [|g a IH]; cbn [vblocks app].
  - rewrite oapp_nil_l. reflexivity.
  - rewrite IH, oapp_assoc. reflexivity.
Qed.

(** Moving a piece of layout between the items and the done part. *)

Lemma vfront_app w done a b k :
  vfront w done (a ++ b) k =
  obind (vfront w done a (fits_its b k)) (fun d => vfront w d b k).
Proof.
  unfold vfront. rewrite !obind_assoc.
  destruct (prun pos0 done) as [p|] eqn:Ep; simpl; auto.
  rewrite rend_its_app, !obind_assoc.
  destruct (rend_its w a (fits_its b k) p) as [[e1 p1]|] eqn:E1; simpl; auto.
  rewrite prun_app, Ep. simpl. rewrite (rend_its_prun _ _ _ _ E1). simpl.
  destruct (rend_its w b k p1) as [[e2 p2]|]; simpl; auto.
  rewrite app_assoc. reflexivity.
Qed.

Lemma vfront_nil w done k p : prun pos0 done = Some p -> vfront w done [] k = Some done.
Proof. intros H. unfold vfront. rewrite H. simpl. rewrite app_nil_r. reflexivity. Qed.

Lemma vfront_prun w done its k d : vfront w done its k = Some d ->
  exists p, prun pos0 d = Some p.
Proof.
  unfold vfront. intros H. apply obind_some in H as [p [Hp H]].
  apply obind_some in H as [[es p'] [H [= <-]]].
  rewrite prun_app, Hp. simpl. rewrite (rend_its_prun _ _ _ _ H). eauto.
Qed.

Lemma vfront_incl w done its k d : vfront w done its k = Some d ->
  exists es, d = done ++ es.
Proof.
  unfold vfront. intros H. apply obind_some in H as [p [Hp H]].
  apply obind_some in H as [[es p'] [H [= <-]]]. eauto.
Qed.

Lemma vfront_ext w done its k k' :
  (forall r e, k r e = k' r e) -> vfront w done its k = vfront w done its k'.
Proof.
  intros E. unfold vfront. destruct (prun pos0 done); simpl; auto.
  erewrite rend_its_ext by eassumption. reflexivity.
Qed.

(** Head item lemmas: one step of layout. *)

Lemma vfront_event w done e its k :
  vfront w done (GE e :: its) k = vfront w (done ++ [e]) its k.
Proof.
  unfold vfront. rewrite prun_app. rewrite obind_assoc.
  destruct (prun pos0 done) as [p|]; simpl; auto.
  destruct (pstep p e) as [p'|]; simpl; auto.
  destruct (rend_its w its k p') as [[es q]|]; simpl; auto.
  rewrite <- app_assoc. reflexivity.
Qed.

Lemma vfront_empty w done j its k : vfront w done (GI j SEmpty :: its) k = vfront w done its k.
Proof.
  unfold vfront. destruct (prun pos0 done) as [p|]; simpl; auto.
  destruct (rend_its w its k p) as [[es q]|]; reflexivity.
Qed.

Lemma vfront_mark w done j its k :
  vfront w done (GI j SMark :: its) k = vfront w (done ++ [EMark j]) its k.
Proof. rewrite <- vfront_event. reflexivity. Qed.

Lemma vfront_eol w done j its k :
  vfront w done (GI j SEol :: its) k = vfront w (done ++ [EEol]) its k.
Proof. rewrite <- vfront_event. reflexivity. Qed.

Lemma vfront_text w done j t its k :
  vfront w done (GI j (SText t) :: its) k = vfront w (done ++ [EText j t]) its k.
Proof. rewrite <- vfront_event. reflexivity. Qed.

Lemma vfront_fail w done j f its k : vfront w done (GI j (SFail f) :: its) k = None.
Proof. unfold vfront. destruct (prun pos0 done); reflexivity. Qed.

Lemma vfront_child_ok w done j n j' s its k :
  vfront w done (GI j (SChild n (Ok j') s) :: its) k =
  vfront w (done ++ [EEnter j n]) (GI j' s :: GE (EExit j n) :: its) k.
Proof.
  rewrite <- vfront_event. unfold vfront.
  destruct (prun pos0 done) as [p|]; cbn [obind]; auto.
  cbn [rend_its rend fits_its pstep obind].
  destruct (rend w s j' (fits_its its k) p) as [[e1 p1]|]; cbn [obind]; auto.
  destruct (rend_its w its k p1) as [[e2 p2]|]; cbn [obind]; auto.
  cbn [app]. rewrite <- app_assoc. reflexivity.
Qed.

Lemma vfront_child_fail w done j n f s its k :
  vfront w done (GI j (SChild n (Fail f) s) :: its) k = None.
Proof. unfold vfront. destruct (prun pos0 done); reflexivity. Qed.

Lemma fits_its_concat a b j its k r e :
  head_fails b = false ->
  fits_its (GI j (SConcat a b) :: its) k r e = fits_its (GI j a :: GI j b :: its) k r e.
Proof. intros H. simpl. rewrite H. reflexivity. Qed.

Lemma vfront_concat w done j a b its k :
  vfront w done (GI j (SConcat a b) :: its) k =
  vfront w done (GI j a :: GI j b :: its) k.
Proof.
  unfold vfront. destruct (prun pos0 done) as [p|]; simpl; auto.
  destruct (rend w a j (fits_s b (fits_its its k)) p) as [[e1 p1]|]; simpl; auto.
  destruct (rend w b j (fits_its its k) p1) as [[e2 p2]|]; simpl; auto.
  destruct (rend_its w its k p2) as [[e3 p3]|]; simpl; auto.
  rewrite <- app_assoc. reflexivity.
Qed.

(** Replacing a concatenation inside the items, its head being fine. *)
Lemma vfront_concat_mid w done pre j a b its k :
  vfront w done (pre ++ GI j (SConcat a b) :: its) k =
  vfront w done (pre ++ GI j a :: GI j b :: its) k.
Proof.
  destruct (head_fails b) eqn:Hb.
  - destruct b; try discriminate.
    rewrite !vfront_app.
    assert (E : forall d x, vfront w d (GI j (SConcat a (SFail x)) :: its) k = None).
    { intros d x. rewrite vfront_concat. unfold vfront. destruct (prun pos0 d); simpl; auto.
      destruct (rend w a j _ p) as [[e1 p1]|]; reflexivity. }
    assert (E' : forall d x, vfront w d (GI j a :: GI j (SFail x) :: its) k = None).
    { intros d x. rewrite <- vfront_concat. apply E. }
    rewrite !obind_none by (intros; auto). reflexivity.
  - rewrite !vfront_app. erewrite vfront_ext; [|intros; apply fits_its_concat; eassumption].
    destruct (vfront w done pre _); simpl; auto. apply vfront_concat.
Qed.

Lemma vfront_empty_mid w done pre j its k :
  vfront w done (pre ++ GI j SEmpty :: its) k = vfront w done (pre ++ its) k.
Proof.
  rewrite !vfront_app. erewrite vfront_ext with (k := fits_its (GI j SEmpty :: its) k)
    by (intros; reflexivity).
  destruct (vfront w done pre _); simpl; auto. apply vfront_empty.
Qed.

Lemma vfront_fail_mid w done pre j f its k :
  vfront w done (pre ++ GI j (SFail f) :: its) k = None.
Proof.
  rewrite vfront_app. destruct (vfront w done pre _); simpl; auto. apply vfront_fail.
Qed.

(** A newline splits the line: what is before it does not depend on what is
    after it, and conversely. *)
Lemma vfront_newline w done pre j ind its k :
  vfront w done (pre ++ GI j (SNewline ind) :: its) k =
  oapp (vfront w done pre look_end) (vfront w [ENewline ind] its k).
Proof.
  rewrite vfront_app.
  erewrite vfront_ext with (k' := look_end) by (intros; reflexivity).
  destruct (vfront w done pre look_end) as [d|] eqn:Ed; simpl; auto.
  destruct (vfront_prun _ _ _ _ Ed) as [p Hp].
  unfold vfront at 1 2. rewrite Hp. simpl.
  destruct (indent_pos ind) as [q|]; simpl; auto.
  destruct (rend_its w its k q) as [[es q']|]; simpl; auto.
Qed.

(** Choice. *)
Lemma vfront_choice w done p j a b its k :
  prun pos0 done = Some p ->
  vfront w done (GI j (SChoice a b) :: its) k =
  if head_fails a then None else
  match picks_first w a (fits_its its k) p with
  | None => None
  | Some true => vfront w done (GI j a :: its) k
  | Some false => vfront w done (GI j b :: its) k
  end.
Proof.
  intros Hp. unfold vfront. rewrite Hp. simpl.
  destruct (head_fails a); simpl; auto.
  destruct (picks_first w a (fits_its its k) p) as [[]|]; simpl; auto.
Qed.

(** Sizes, for termination. *)
Fixpoint size (s : shape) : nat :=
  match s with
  | SConcat a b | SChoice a b => S (size a + size b)
  | SChild _ _ s' => S (size s')
  | _ => 1
  end.

Definition isize (it : item) : nat := match it with GI _ s => size s | GE _ => 0 end.
Fixpoint its_size (its : list item) : nat :=
  match its with [] => 0 | it :: its' => isize it + its_size its' end.
Fixpoint gs_size (gs : list gblock) : nat :=
  match gs with [] => 0 | g :: gs' => S (its_size (g_items g)) + gs_size gs' end.

Lemma its_size_app a b : its_size (a ++ b) = its_size a + its_size b.
Proof. induction a; simpl; lia. Qed.
Lemma gs_size_app a b : gs_size (a ++ b) = gs_size a + gs_size b.
Proof. induction a; simpl; lia. Qed.
Lemma size_pos s : 1 <= size s.
Proof. destruct s; simpl; lia. Qed.

End PLayout.
