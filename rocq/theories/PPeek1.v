(** Facts about partial layouts. *)
From Verif Require Export SpecPeek PPrint.

Set Implicit Arguments.

Section PPeek1.
Context {pd : PrettyDoc} {env : Env}.

(** ** Running a partial layout *)
Definition ppstep (p : option pos) (e : pev) : option pos :=
  match e with
  | Gap _ => None
  | Ev (ENewline ind) => indent_pos ind
  | Ev e => obind p (fun q => pstep q e)
  end.

Fixpoint pprun (p : option pos) (l : list pev) : option pos :=
  match l with
  | [] => p
  | e :: l' => pprun (ppstep p e) l'
  end.

Lemma pprun_app p a b : pprun p (a ++ b) = pprun (pprun p a) b.
Proof. revert p; induction a; simpl; auto. Qed.

Lemma pprun_ev es : forall p, prun p es <> None -> pprun (Some p) (map Ev es) = prun p es.
Proof.
  induction es as [|e es IH]; intros p H; simpl in *; auto.
  destruct (pstep p e) as [q|] eqn:E; [|elim H; reflexivity].
  destruct e; simpl in *; rewrite ?E; try apply IH; auto.
Qed.

Lemma pprun_prun es p q : prun p es = Some q -> pprun (Some p) (map Ev es) = Some q.
Proof. intros H. rewrite pprun_ev; congruence. Qed.

Lemma peek_pprun w s : forall j k p, snd (peek w s j k p) = pprun p (fst (peek w s j k p)).
Proof.
  induction s as [f| | |ind|t|a IHa b IHb|a IHa b IHb|n i s IH|]; intros j k p; cbn [peek].
  - reflexivity.
  - reflexivity.
  - destruct p; reflexivity.
  - destruct (indent_pos ind) eqn:E; simpl; rewrite ?E; reflexivity.
  - destruct p as [q|]; simpl; auto. destruct (text_pos q t) eqn:E; simpl; rewrite ?E; reflexivity.
  - cbv zeta. cbn [fst snd]. rewrite pprun_app, <- IHa. apply IHb.
  - destruct p as [q|]; [|reflexivity]. destruct (head_fails a); [reflexivity|].
    destruct (picks_first w a k q) as [[]|]; [destruct (opens a)|destruct (opens b)|]; auto.
  - destruct p as [q|]; [|reflexivity]. destruct i as [j'|]; [|reflexivity].
    destruct (opens s); [|reflexivity]. cbv zeta. cbn [fst snd pprun ppstep pstep obind].
    rewrite pprun_app, <- IH. simpl. destruct (snd _); reflexivity.
  - destruct p; reflexivity.
Qed.

Lemma peek_ext w s : forall j k k' p, (forall r e, k r e = k' r e) -> peek w s j k p = peek w s j k' p.
Proof.
  induction s as [f| | |ind|t|a IHa b IHb|a IHa b IHb|n i s IH|]; intros j k k' p E; cbn [peek]; auto.
  - rewrite (IHa j _ _ p (fits_s_ext b _ _ E)). cbv zeta. erewrite IHb by eassumption. reflexivity.
  - destruct p as [q|]; [|reflexivity]. destruct (head_fails a); [reflexivity|].
    assert (Ep : picks_first w a k q = picks_first w a k' q).
    { unfold picks_first. destruct q as [len eol]. destruct (_ <=? _)%N; auto. apply fits_s_ext; auto. }
    rewrite Ep. destruct (picks_first w a k' q) as [[]|]; [destruct (opens a)|destruct (opens b)|]; auto.
  - destruct p as [q|]; [|reflexivity]. destruct i as [j'|]; [|reflexivity].
    destruct (opens s); [|reflexivity]. erewrite IH by eassumption. reflexivity.
Qed.

(** ** Items *)
Fixpoint peek_its (w : N) (its : list item) (k : look) (p : option pos) : list pev :=
  match its with
  | [] => []
  | GI j s :: its' =>
      let e := fst (peek w s j (fits_its its' k) p) in e ++ peek_its w its' k (pprun p e)
  | GE e :: its' => Ev e :: peek_its w its' k (ppstep p (Ev e))
  end.

Lemma peek_its_app w a : forall b k p,
  peek_its w (a ++ b) k p =
  peek_its w a (fits_its b k) p ++ peek_its w b k (pprun p (peek_its w a (fits_its b k) p)).
Proof.
  induction a as [|[j s|e] a IH]; intros b k p; cbn [peek_its app]; auto.
  - rewrite fits_its_app. cbv zeta. rewrite IH, pprun_app, app_assoc. reflexivity.
  - rewrite IH. reflexivity.
Qed.

Lemma peek_its_ext w its : forall k k' p, (forall r e, k r e = k' r e) -> peek_its w its k p = peek_its w its k' p.
Proof.
  induction its as [|[j s|e] its IH]; intros k k' p E; cbn [peek_its]; auto.
  - rewrite (@peek_ext w s j _ _ p (fits_its_ext its _ _ E)). cbv zeta. erewrite IH by eassumption. reflexivity.
  - erewrite IH by eassumption. reflexivity.
Qed.

(** ** Values of blocks *)
Definition vp (w : N) (d : list pev) (its : list item) (k : look) : list pev :=
  d ++ peek_its w its k (pprun (Some pos0) d).
Definition vf (w : N) (done : list event) (its : list item) (k : look) : list pev := vp w (map Ev done) its k.
Definition vb (w : N) (g : gblock) : list pev := vf w (g_done g) (g_items g) look_end.
Definition vbs (w : N) (gs : list gblock) : list pev := flat_map (vb w) gs.

Lemma vbs_app w a b : vbs w (a ++ b) = vbs w a ++ vbs w b.
Proof. apply flat_map_app. Qed.

Lemma vp_app w d a b k : vp w d (a ++ b) k = vp w (vp w d a (fits_its b k)) b k.
Proof. unfold vp. rewrite peek_its_app, pprun_app, <- app_assoc. reflexivity. Qed.

Lemma vp_nil w d k : vp w d [] k = d.
Proof. unfold vp. simpl. apply app_nil_r. Qed.

Lemma vf_nil w done k : vf w done [] k = map Ev done.
Proof. apply vp_nil. Qed.

Lemma vp_ext w d its k k' : (forall r e, k r e = k' r e) -> vp w d its k = vp w d its k'.
Proof. intros E. unfold vp. erewrite peek_its_ext by eassumption. reflexivity. Qed.

Lemma vp_ge w d e its k : vp w d (GE e :: its) k = vp w (d ++ [Ev e]) its k.
Proof. unfold vp. rewrite pprun_app, <- app_assoc. reflexivity. Qed.

Lemma vf_event w done e its k : vf w done (GE e :: its) k = vf w (done ++ [e]) its k.
Proof. unfold vf. rewrite map_app. apply vp_ge. Qed.

Lemma vf_events w es : forall done its k, vf w done (map GE es ++ its) k = vf w (done ++ es) its k.
Proof.
  induction es as [|e es IH]; intros done its k; simpl.
  - rewrite app_nil_r. reflexivity.
  - rewrite vf_event, IH, <- app_assoc. reflexivity.
Qed.

Lemma vp_one w d j s its k : vp w d (GI j s :: its) k =
  vp w (d ++ fst (peek w s j (fits_its its k) (pprun (Some pos0) d))) its k.
Proof. unfold vp. cbn [peek_its]. cbv zeta. rewrite pprun_app, <- app_assoc. reflexivity. Qed.

Lemma vp_empty w d j its k : vp w d (GI j SEmpty :: its) k = vp w d its k.
Proof. rewrite vp_one. simpl. rewrite app_nil_r. reflexivity. Qed.

Lemma vf_mark w done j its k : vf w done (GI j SMark :: its) k = vf w (done ++ [EMark j]) its k.
Proof. unfold vf. rewrite vp_one, map_app. reflexivity. Qed.

Lemma vf_eol w done j its k : vf w done (GI j SEol :: its) k = vf w (done ++ [EEol]) its k.
Proof. unfold vf. rewrite vp_one, map_app. reflexivity. Qed.

Lemma vf_text w done j t its k p : prun pos0 (done ++ [EText j t]) = Some p ->
  vf w done (GI j (SText t) :: its) k = vf w (done ++ [EText j t]) its k.
Proof.
  intros H. unfold vf. rewrite vp_one, map_app. cbn [peek].
  rewrite prun_app in H. apply obind_some in H as (q & Hq & H). rewrite (pprun_prun _ _ Hq).
  simpl in H. apply obind_some in H as (q' & H & _). cbn [obind]. rewrite H. reflexivity.
Qed.

Lemma vf_child w done p j n j' s its k : prun pos0 done = Some p -> opens s = true ->
  vf w done (GI j (SChild n (Ok j') s) :: its) k =
  vf w (done ++ [EEnter j n]) (GI j' s :: GE (EExit j n) :: its) k.
Proof.
  intros Hp Ho. unfold vf. rewrite vp_one, map_app. cbn [peek].
  rewrite (pprun_prun _ _ Hp), Ho. cbv zeta. cbn [fst].
  rewrite vp_one, vp_ge. cbn [fits_its]. cbn [map].
  rewrite pprun_app. cbn [pprun]. rewrite (pprun_prun _ _ Hp). cbn [ppstep obind pstep].
  cbn [app]. rewrite <- !app_assoc. reflexivity.
Qed.

Lemma vp_concat w d j a b its k :
  vp w d (GI j (SConcat a b) :: its) k = vp w d (GI j a :: GI j b :: its) k.
Proof.
  rewrite !vp_one. cbn [peek fits_its]. cbv zeta. cbn [fst].
  rewrite peek_pprun, pprun_app, <- app_assoc. reflexivity.
Qed.

Lemma vp_concat_mid w d pre j a b its k : head_fails b = false ->
  vp w d (pre ++ GI j (SConcat a b) :: its) k = vp w d (pre ++ GI j a :: GI j b :: its) k.
Proof.
  intros Hb. rewrite !vp_app. rewrite (@vp_ext w d pre (fits_its (GI j (SConcat a b) :: its) k)
    (fits_its (GI j a :: GI j b :: its) k)).
  - apply vp_concat.
  - intros. apply fits_its_concat. exact Hb.
Qed.

Lemma vp_empty_mid w d pre j its k : vp w d (pre ++ GI j SEmpty :: its) k = vp w d (pre ++ its) k.
Proof. rewrite !vp_app. rewrite vp_empty. reflexivity. Qed.

Lemma pprun_newline p ind l q : indent_pos ind = Some q -> pprun p (Ev (ENewline ind) :: l) = pprun (Some q) l.
Proof. intros H. simpl. rewrite H. reflexivity. Qed.

Lemma vp_newline w d pre j ind its k q : indent_pos ind = Some q ->
  vp w d (pre ++ GI j (SNewline ind) :: its) k =
  vp w d pre look_end ++ vf w [ENewline ind] its k.
Proof.
  intros Hq. rewrite vp_app, vp_one.
  rewrite (@vp_ext w d pre _ look_end) by (intros; reflexivity).
  cbn [peek]. rewrite Hq. cbn [fst]. unfold vf. unfold vp at 1 3. rewrite <- app_assoc. f_equal.
  cbn [map app]. f_equal. rewrite pprun_app. cbn [pprun ppstep]. reflexivity.
Qed.

Lemma vf_choice w done p j a b its k f :
  prun pos0 done = Some p -> head_fails a = false -> picks_first w a (fits_its its k) p = Some f ->
  opens (if f : bool then a else b) = true ->
  vf w done (GI j (SChoice a b) :: its) k = vf w done (GI j (if f then a else b) :: its) k.
Proof.
  intros Hp Ha Hf Ho. unfold vf. rewrite !vp_one. cbn [peek]. rewrite (pprun_prun _ _ Hp), Ha, Hf.
  destruct f; rewrite Ho; reflexivity.
Qed.

(** ** Known lines *)

Definition pnl (e : pev) : bool := match e with Ev (ENewline _) => true | _ => false end.

(** No gap before the first newline. *)
Fixpoint fk (l : list pev) : Prop :=
  match l with
  | [] => True
  | Gap _ :: _ => False
  | Ev e :: l' => is_newline e = true \/ fk l'
  end.
(** No gap after the last newline. *)
Definition lk (l : list pev) : Prop := fk (rev l).

Definition snl (l : list pev) : Prop := match l with Ev (ENewline _) :: _ => True | _ => False end.
Definition nsnl (l : list pev) : Prop := l = [] \/ snl l.

Lemma snl_app a b : snl a -> snl (a ++ b).
Proof. destruct a as [|[[]|] a]; simpl; auto; contradiction. Qed.

Lemma nsnl_app a b : nsnl a -> nsnl b -> nsnl (a ++ b).
Proof. intros [->|Ha] Hb; auto. right. apply snl_app. auto. Qed.

Lemma fk_app_nsnl a b : nsnl b -> fk (a ++ b) <-> fk a.
Proof.
  intros Hb. induction a as [|[e|] a IH]; simpl; [|rewrite IH; reflexivity|reflexivity].
  destruct Hb as [->|Hb]; [simpl; tauto|]. destruct b as [|[[]|] b]; simpl in *; try contradiction. tauto.
Qed.

Lemma fk_app_nonl es b : no_newline es -> fk (map Ev es ++ b) <-> fk b.
Proof.
  unfold no_newline. induction es as [|e es IH]; simpl; [reflexivity|]. intros H.
  apply andb_true_iff in H as [H1 H2]. rewrite IH by auto. destruct (is_newline e); [discriminate|].
  intuition congruence.
Qed.

Lemma fk_app_l a b : fk (a ++ b) -> fk a.
Proof. induction a as [|[e|] a IH]; simpl; tauto. Qed.

Lemma lk_app_r a b : lk (a ++ b) -> lk b.
Proof. unfold lk. rewrite rev_app_distr. apply fk_app_l. Qed.

Lemma lk_gap a g b : (forall e, In e b -> pnl e = false) -> ~ lk (a ++ Gap g :: b).
Proof.
  intros Hb. unfold lk. rewrite rev_app_distr. simpl. rewrite <- app_assoc. simpl.
  assert (H : forall l, (forall e, In e l -> pnl e = false) -> ~ fk (l ++ Gap g :: rev a)).
  { induction l as [|[e|] l IH]; simpl; auto. intros Hl [H|H].
    - specialize (Hl (Ev e) (or_introl eq_refl)). simpl in Hl. destruct e; discriminate.
    - apply IH; auto. }
  apply H. intros e He. apply Hb. apply in_rev. exact He.
Qed.

(** Expanded items at an unknown position: no newline. *)
Definition exp_item (it : item) : Prop :=
  match it with GI _ s => expanded s | GE e => is_exit e = true end.

Lemma peek_its_none w its : forall k, Forall exp_item its ->
  (forall e, In e (peek_its w its k None) -> pnl e = false) /\ pprun None (peek_its w its k None) = None.
Proof.
  induction its as [|[j s|e] its IH]; intros k H; inversion H as [|? ? Hit Hits]; subst; cbn [peek_its].
  - split; [intros e []|reflexivity].
  - assert (E : (forall e, In e (fst (peek w s j (fits_its its k) None)) -> pnl e = false) /\
                pprun None (fst (peek w s j (fits_its its k) None)) = None).
    { destruct s; simpl in Hit; try contradiction; simpl; split; auto; intros e [<-|[]]; reflexivity. }
    destruct E as [E1 E2]. cbv zeta. rewrite E2. destruct (IH k Hits) as [H1 H2]. split.
    + intros e Hin. apply in_app_or in Hin as [Hin|Hin]; auto.
    + rewrite pprun_app, E2. exact H2.
  - simpl in Hit. destruct e; try discriminate. cbn [ppstep obind pprun].
    destruct (IH k Hits) as [H1 H2]. split; auto. intros e [<-|Hin]; auto.
Qed.

Lemma vp_prefix w x d its k : (x = [] \/ snl d) -> vp w (x ++ d) its k = x ++ vp w d its k.
Proof.
  intros H. unfold vp. rewrite pprun_app, <- app_assoc. do 2 f_equal.
  destruct H as [->|H]; [reflexivity|]. destruct d as [|[[]|] d]; try contradiction. reflexivity.
Qed.

Lemma vp_incl w d its k : exists l, vp w d its k = d ++ l.
Proof. unfold vp. eauto. Qed.

Lemma snl_done g : has_head g -> snl (map Ev (g_done g)).
Proof. unfold has_head, g_done. destruct (g_head g); simpl; auto. intros H. elim H. reflexivity. Qed.

Lemma vb_snl w g : has_head g -> snl (vb w g).
Proof. intros H. unfold vb, vf, vp. apply snl_app. apply snl_done. exact H. Qed.

Lemma vbs_nsnl w gs : Forall has_head gs -> nsnl (vbs w gs).
Proof.
  induction 1; simpl; [left; reflexivity|]. right. apply snl_app. apply vb_snl. auto.
Qed.

End PPeek1.
