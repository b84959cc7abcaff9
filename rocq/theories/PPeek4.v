(** Seeking the focus in documents with holes. *)
From Verif Require Export PPeek3 PSeek2.

Set Implicit Arguments.

Section PPeek4.
Context {pd : PrettyDoc} {env : Env} {ideq : IdEq pd}.

Variable Q : Id -> shape -> Prop.
Hypothesis Q_concat : forall j a b, Q j (SConcat a b) -> Q j a /\ Q j b.
Hypothesis Q_choice : forall j a b, Q j (SChoice a b) -> Q j a /\ Q j b.
Hypothesis Q_child : forall j n j' s, Q j (SChild n (Ok j') s) -> Q j' s.
Variable w : N.

Notation pritems := (pritems Q).
Notation prblock := (prblock Q).
Notation pstepF := (pstepF Q w).
Notation vbs := (vbs w).
Notation vb := (vb w).

(** The printer stands for these blocks. *)
Record prp (p : printer) (gp gn : list gblock) : Prop := {
  prp_w : pr_width p = w;
  prp_prev : Forall2 prblock (pr_prev p) gp;
  prp_next : Forall2 prblock (pr_next p) gn;
  prp_heads : heads_ok None (rev gp ++ gn);
  prp_fresh : Forall fresh (tl gn)
}.

Lemma pstepF_rp p b gp g gn es p' b' :
  prp (push_next p b) gp (g :: gn) -> pstepF p g es (p', b') ->
  exists g' gnb, prp (push_next p' b') gp (g' :: gnb ++ gn) /\
    vbs (rev gp ++ g' :: gnb ++ gn) = vbs (rev gp ++ g :: gn) /\
    g_head g' = g_head g /\ g_body g' = g_body g ++ es /\
    its_size (g_items g') + gs_size (gnb ++ gn) < its_size (g_items g) + gs_size gn /\
    pr_prev p' = pr_prev p /\ pr_width p' = pr_width p /\ Forall fresh gnb /\ pnewF g g' gnb.
Proof.
  intros [Hw Hp Hn Hh Hf] (g' & nbs & gnb & Ep & Hb' & Hnb & Hfr & Hh' & Hbd & Hv & Hz & Hnew).
  simpl in *. subst p'.
  inversion Hn as [|? ? ? ? Hb Hn' Eq1 Eq2]; subst.
  exists g', gnb. split.
  - constructor; simpl; auto.
    + constructor; auto. apply Forall2_app; auto.
    + apply heads_ok_insert; [|apply fresh_heads; auto].
      eapply heads_ok_replace; eauto.
    + apply Forall_app. auto.
  - split.
    + change (g' :: gnb ++ gn) with ((g' :: gnb) ++ gn). rewrite !vbs_app.
      change (g :: gn) with ([g] ++ gn). rewrite !vbs_app. cbn [flat_map PPeek1.vbs]. rewrite app_nil_r.
      fold vbs. rewrite <- Hv, <- !app_assoc. reflexivity.
    + repeat (split; [solve [auto]|]). split; [rewrite gs_size_app; lia|]. auto 8.
Qed.

Lemma pseek_start p c j s gp g gn :
  prp p gp (g :: gn) -> pcden c j s -> Q j s -> opens s = true ->
  exists p' g' gnb, ev (fun n => seek_start n p c) (Ok p') /\ prp p' gp (g' :: gnb ++ gn) /\
    g_head g' = g_head g /\ g_body g' = g_body g /\ Forall fresh gnb /\
    vbs (rev gp ++ g' :: gnb ++ gn) = vbs (rev gp ++ set_items g (GI j s :: g_items g) :: gn) /\
    (exists new, g_items g' ++ flat gnb = new ++ g_items g /\ forall R, closedR R -> R j s -> Forall (rit R) new).
Proof.
  intros [Hw Hp Hn Hh Hf] Hc Ho Hop.
  inversion Hn as [|b ? bs ? Hb Hn' Eq1 Eq2]. symmetry in Eq1.
  destruct (@pexpand_first _ _ Q Q_concat w (set_next p bs) b c j s (g_items g) Hc Ho Hop (prb_items Hb))
    as (its' & cs' & nbs & gnb & Hev & Hi & Hnb & Hfr & Hv & Hz & new & E1 & E2).
  eexists. exists (set_items g its'), gnb. split.
  { unfold seek_start. rewrite Eq1.
    eapply (ev_bind_ok (fun n x => match x with (p, b) => _ end)); [exact Hev|]. ev_now. }
  split.
  { constructor; simpl; auto.
    - constructor; [apply prblock_items; auto|]. apply Forall2_app; auto.
    - apply heads_ok_insert; [|apply fresh_heads; auto]. eapply heads_ok_replace; eauto.
    - apply Forall_app; auto. }
  split; [reflexivity|]. split; [reflexivity|]. split; [auto|]. split.
  - rewrite !vbs_app. f_equal. change (set_items g its' :: gnb ++ gn) with ((set_items g its' :: gnb) ++ gn).
    change (set_items g (GI j s :: g_items g) :: gn) with ([set_items g (GI j s :: g_items g)] ++ gn).
    rewrite !vbs_app. f_equal. cbn [PPeek1.vbs flat_map]. rewrite app_nil_r.
    specialize (Hv (map Ev (g_done g))). exact Hv.
  - exists new. auto.
Qed.

(** ** Labels *)

(** The nodes of the tree are where [ids] says. *)
Fixpoint plab (ids : list nat -> option Id) (q : list nat) (s : shape) : Prop :=
  match s with
  | SConcat a b | SChoice a b => plab ids q a /\ plab ids q b
  | SChild n i s' =>
      (head_fails s' = true \/ forall j, i = Ok j -> ids (q ++ [n]) = Some j) /\ plab ids (q ++ [n]) s'
  | _ => True
  end.

Variable ids : list nat -> option Id.
Hypothesis ids_inj : forall q q' j, ids q = Some j -> ids q' = Some j -> q = q'.

(** A part of the node at [q]. *)
Definition ownR (q : list nat) (j : Id) (s : shape) : Prop :=
  exists r, ids (q ++ r) = Some j /\ plab ids (q ++ r) s.

Lemma ownR_closed q : closedR (ownR q).
Proof.
  constructor.
  - intros j a b (r & H1 & H2). simpl in H2. destruct H2. split; exists r; auto.
  - intros j a b (r & H1 & H2). simpl in H2. destruct H2. split; exists r; auto.
  - intros j n j' s (r & H1 & H2) Hop. simpl in H2. destruct H2 as [H2 H3].
    exists (r ++ [n]). rewrite app_assoc. split; auto.
    destruct H2 as [H2|H2]; auto. rewrite (opens_head _ Hop) in H2. discriminate.
Qed.

Lemma app_nil_id (A : Type) (x y : list A) : x = x ++ y -> y = [].
Proof. intros H. rewrite <- (app_nil_r x) in H at 1. apply app_inv_head in H. auto. Qed.

(** ** The search for child [i] of the node [pid] at [q] *)

Section Child.
Variables (q : list nat) (pid : Id) (i : nat) (omk : option event).
Hypothesis Hq : ids q = Some pid.
(** The node ends with this event, which is not part of the node. *)
Hypothesis Hmk : forall e, omk = Some e ->
  exists pp n, e = EExit pp n /\ forall j s, ownR q j s -> j <> pp.

Definition relp (e : pev) : Prop :=
  e = Ev (EEnter pid i) \/ e = Gap (GapChild pid i) \/ e = Gap (GapChoice pid).
Definition S2 (e : pev) : Prop := relp e \/ exists x, omk = Some x /\ e = Ev x.
Definition free (l : list pev) : Prop := forall e, In e l -> ~ S2 e.

Lemma free_app a b : free (a ++ b) <-> free a /\ free b.
Proof.
  unfold free. split.
  - intros H. split; intros e He; apply H; apply in_or_app; auto.
  - intros [H1 H2] e He. apply in_app_or in He as []; auto.
Qed.

Lemma free_nil : free [].
Proof. intros e []. Qed.

Lemma free_cons e l : ~ S2 e -> free l -> free (e :: l).
Proof. intros H1 H2 x [<-|Hx]; auto. Qed.

Lemma mk_enter x j n : omk = Some x -> x <> EEnter j n.
Proof. intros H. destruct (Hmk H) as (pp & n' & -> & _). discriminate. Qed.

(** What parts of the node produce. *)
Lemma own_no_mk j s x : ownR q j s -> omk = Some x -> forall n, x <> EExit j n.
Proof. intros Ho H n E. destruct (Hmk H) as (pp & n' & -> & Hn). injection E as -> ->. exact (Hn _ _ Ho eq_refl). Qed.

(** Strictly inside the node: nothing relevant. *)
Lemma inner_free s : forall j r k p, r <> [] -> ids (q ++ r) = Some j -> plab ids (q ++ r) s ->
  free (fst (peek w s j k p)).
Proof.
  assert (Hne : forall j r, r <> [] -> ids (q ++ r) = Some j -> j <> pid).
  { intros j r Hr Hj ->. apply Hr. eapply app_nil_id; exact (ids_inj Hq Hj). }
  assert (Hmk' : forall e, (forall pp n, e <> EExit pp n) -> ~ exists x, omk = Some x /\ Ev e = Ev x).
  { intros e He (x & Hx & E). injection E as ->. destruct (Hmk Hx) as (pp & n & Ex & _). exact (He _ _ Ex). }
  assert (Hgap : forall g, ~ exists x, omk = Some x /\ Gap g = Ev x) by (intros g (x & _ & E); discriminate).
  assert (H1 : forall e, ~ S2 e -> free [e]) by (intros e He; apply free_cons; auto using free_nil).
  induction s as [f| | |ind|t|a IHa b IHb|a IHa b IHb|n ci s IH|]; intros j r k p Hr Hj Hl; cbn [peek].
  - apply H1. intros [[E|[E|E]]|E]; try discriminate. eapply Hgap; eauto.
  - apply free_nil.
  - apply H1. intros [[E|[E|E]]|E]; try discriminate. eapply Hmk'; [|eauto]. discriminate.
  - destruct (indent_pos ind); apply H1; intros [[E|[E|E]]|E]; try discriminate; try (eapply Hgap; eassumption).
    eapply Hmk'; [|eauto]. discriminate.
  - destruct (obind p _); apply H1; intros [[E|[E|E]]|E]; try discriminate; try (eapply Hgap; eassumption).
    eapply Hmk'; [|eauto]. discriminate.
  - simpl in Hl. destruct Hl. cbv zeta. cbn [fst]. apply free_app. split; eauto.
  - simpl in Hl. destruct Hl as [Hla Hlb].
    assert (Hg : free [Gap (GapChoice j)]).
    { apply H1. intros [[E|[E|E]]|E]; try discriminate; try (eapply Hgap; eassumption).
      injection E as E. eapply Hne; eauto. }
    destruct p as [pp|]; auto. destruct (head_fails a); auto.
    destruct (picks_first w a k pp) as [[]|]; [destruct (opens a)|destruct (opens b)|]; auto; eauto.
  - simpl in Hl. destruct Hl as [Hc Hl].
    assert (Hg : free [Gap (GapChild j n)]).
    { apply H1. intros [[E|[E|E]]|E]; try discriminate; try (eapply Hgap; eassumption).
      injection E as E _. eapply Hne; eauto. }
    destruct p as [pp|]; auto. destruct ci as [j'|f]; auto. destruct (opens s) eqn:Eo; auto.
    destruct Hc as [Hc|Hc]; [rewrite (opens_head _ Eo) in Hc; discriminate|].
    cbv zeta. cbn [fst]. apply free_cons.
    { intros [[E|[E|E]]|E]; try discriminate.
      - injection E as E _. eapply Hne; eauto.
      - eapply Hmk'; [|eauto]. discriminate. }
    apply free_app. split.
    + apply IH with (r := r ++ [n]).
      * destruct r; discriminate.
      * rewrite app_assoc. auto.
      * rewrite app_assoc. auto.
    + apply H1. intros [[E|[E|E]]|(x & Hx & E)]; try discriminate. injection E as <-.
      eapply (own_no_mk (j := j) (s := SEmpty)); eauto. exists r. simpl. auto.
  - apply H1. intros [[E|[E|E]]|E]; try discriminate. eapply Hmk'; [|eauto]. discriminate.
Qed.

(** The content of the node does not contain the end of the node. *)
Lemma content_no_mk s : forall j r k p x, omk = Some x -> ids (q ++ r) = Some j -> plab ids (q ++ r) s ->
  ~ In (Ev x) (fst (peek w s j k p)).
Proof.
  induction s as [f| | |ind|t|a IHa b IHb|a IHa b IHb|n ci s IH|]; intros j r k p x Hx Hj Hl Hin;
    destruct (Hmk Hx) as (pp & n0 & -> & Hn); cbn [peek] in Hin.
  - destruct Hin as [Hin|[]]; discriminate.
  - destruct Hin.
  - destruct Hin as [Hin|[]]; discriminate.
  - destruct (indent_pos ind); destruct Hin as [Hin|[]]; discriminate.
  - destruct (obind p _); destruct Hin as [Hin|[]]; discriminate.
  - simpl in Hl. destruct Hl. cbv zeta in Hin. cbn [fst] in Hin. apply in_app_or in Hin as [Hin|Hin].
    + eapply IHa in Hin; eauto.
    + eapply IHb in Hin; eauto.
  - simpl in Hl. destruct Hl as [Hla Hlb].
    assert (Hg : ~ In (Ev (EExit pp n0)) [Gap (GapChoice j)]) by (intros [E|[]]; discriminate).
    destruct p as [p0|]; auto. destruct (head_fails a); auto.
    destruct (picks_first w a k p0) as [[]|]; [destruct (opens a)|destruct (opens b)|]; auto.
    + eapply IHa in Hin; eauto.
    + eapply IHb in Hin; eauto.
  - simpl in Hl. destruct Hl as [Hc Hl].
    assert (Hg : ~ In (Ev (EExit pp n0)) [Gap (GapChild j n)]) by (intros [E|[]]; discriminate).
    destruct p as [p0|]; auto. destruct ci as [j'|f]; auto. destruct (opens s) eqn:Eo; auto.
    destruct Hc as [Hc|Hc]; [rewrite (opens_head _ Eo) in Hc; discriminate|].
    cbv zeta in Hin. cbn [fst] in Hin. destruct Hin as [Hin|Hin]; [discriminate|].
    apply in_app_or in Hin as [Hin|[Hin|[]]].
    + eapply (IH j' (r ++ [n])) in Hin; eauto; rewrite app_assoc; auto.
    + injection Hin as -> ->. eapply (Hn pp SEmpty); auto. exists r. simpl. auto.
  - destruct Hin as [Hin|[]]; discriminate.
Qed.

(** An item that cannot lead to the child produces nothing relevant. *)
Lemma irr_free it k p : rit (ownR q) it -> exp_item it -> irr_item pid i it ->
  free (peek_its w [it] k p).
Proof.
  intros Hr He Hi.
  assert (H1 : forall e, ~ S2 e -> free [e]) by (intros e H0; apply free_cons; auto using free_nil).
  assert (Hmk' : forall e, (forall pp n, e <> EExit pp n) -> ~ exists x, omk = Some x /\ Ev e = Ev x).
  { intros e H0 (x & Hx & E). injection E as ->. destruct (Hmk Hx) as (pp & n & Ex & _). exact (H0 _ _ Ex). }
  assert (Hgap : forall g, ~ exists x, omk = Some x /\ Gap g = Ev x) by (intros g (x & _ & E); discriminate).
  destruct it as [j s|e]; cbn [peek_its].
  - cbv zeta. rewrite app_nil_r. cbn [fits_its]. destruct Hr as (r & Hj & Hl).
    destruct r as [|r0 r].
    2: { eapply inner_free with (r := r0 :: r); eauto. discriminate. }
    assert (j = pid). { rewrite app_nil_r in Hj. congruence. }
    subst j.
    destruct s as [f| | |ind|t|a b|a b|n ci s|]; simpl in He, Hi; try contradiction; cbn [peek].
    + apply H1. intros [[E|[E|E]]|E]; try discriminate. eapply Hmk'; [|eauto]. discriminate.
    + destruct (obind p _); apply H1; intros [[E|[E|E]]|E]; try discriminate; try (eapply Hgap; eassumption).
      eapply Hmk'; [|eauto]. discriminate.
    + simpl in Hl. destruct Hl as [Hc Hl]. rewrite app_nil_r in *.
      assert (Hni : n <> i) by tauto.
      assert (Hg : free [Gap (GapChild pid n)]).
      { apply H1. intros [[E|[E|E]]|E]; try discriminate; try (eapply Hgap; eassumption).
        injection E as E. auto. }
      destruct p as [pp|]; auto. destruct ci as [j'|f]; auto. destruct (opens s) eqn:Eo; auto.
      destruct Hc as [Hc|Hc]; [rewrite (opens_head _ Eo) in Hc; discriminate|].
      cbv zeta. cbn [fst]. apply free_cons.
      { intros [[E|[E|E]]|E]; try discriminate.
        - injection E as E. auto.
        - eapply Hmk'; [|eauto]. discriminate. }
      apply free_app. split.
      * eapply inner_free with (r := [n]); eauto. discriminate.
      * apply H1. intros [[E|[E|E]]|(x & Hx & E)]; try discriminate. injection E as <-.
        eapply (own_no_mk (j := pid) (s := SEmpty)); eauto. exists []. rewrite app_nil_r. simpl. auto.
    + apply H1. intros [[E|[E|E]]|E]; try discriminate. eapply Hmk'; [|eauto]. discriminate.
  - destruct e; simpl in Hr; try contradiction. destruct Hr as (s & Hs).
    apply H1. intros [[E|[E|E]]|(x & Hx & E)]; try discriminate. injection E as <-.
    eapply (own_no_mk (j := j) (s := s)); eauto.
Qed.

Lemma irr_free_its its : forall k p, Forall (rit (ownR q)) its -> Forall exp_item its ->
  Forall (irr_item pid i) its -> free (peek_its w its k p).
Proof.
  induction its as [|it its IH]; intros k p H1 H2 H3; [apply free_nil|].
  inversion H1; inversion H2; inversion H3; subst.
  change (it :: its) with ([it] ++ its). rewrite peek_its_app. apply free_app. split; auto.
  apply irr_free; auto.
Qed.

(** The first relevant thing in the layout. *)
Lemma first_free a x r m t : a ++ x ++ r = m ++ Ev (EEnter pid i) :: t -> free a -> free m ->
  ~ In (Ev (EEnter pid i)) x -> free x.
Proof.
  intros E Ha Hm Hx.
  assert (HE : S2 (Ev (EEnter pid i))) by (left; left; reflexivity).
  rewrite app_assoc in E.
  assert (G : forall (y m0 : list pev), y ++ r = m0 ++ Ev (EEnter pid i) :: t ->
    ~ In (Ev (EEnter pid i)) y -> free m0 -> free y).
  { induction y as [|e y IH]; intros m0 E0 Hy Hm0; [apply free_nil|].
    destruct m0 as [|e0 m0]; simpl in E0.
    - injection E0 as -> E0. elim Hy. left. reflexivity.
    - injection E0 as -> E0. apply free_cons.
      + apply Hm0. left. reflexivity.
      + eapply IH; eauto. { intros Hin. apply Hy. right. exact Hin. }
        intros e He. apply Hm0. right. exact He. }
  assert (Hax : free (a ++ x)).
  { eapply G; eauto. intros Hin. apply in_app_or in Hin as [Hin|Hin]; auto. eapply Ha; eauto. }
  apply free_app in Hax as [_ Hax]. exact Hax.
Qed.

Lemma first_enter a r m t : a ++ Ev (EEnter pid i) :: r = m ++ Ev (EEnter pid i) :: t -> free a -> free m ->
  a = m /\ r = t.
Proof.
  assert (HE : S2 (Ev (EEnter pid i))) by (left; left; reflexivity).
  revert m; induction a as [|e a IH]; intros m E Ha Hm; destruct m as [|e0 m]; simpl in E.
  - injection E as ->. auto.
  - injection E as <- E. elim (Hm (Ev (EEnter pid i))); simpl; auto.
  - injection E as -> E. elim (Ha (Ev (EEnter pid i))); simpl; auto.
  - injection E as -> E. destruct (IH m E) as [-> ->]; auto.
    + intros x Hx. apply Ha. right. auto.
    + intros x Hx. apply Hm. right. auto.
Qed.

(** Nothing is entered where the position is not known. *)
Lemma none_no_enter its k : Forall exp_item its -> ~ In (Ev (EEnter pid i)) (peek_its w its k None).
Proof.
  induction its as [|[j s|e] its IH]; intros H; inversion H as [|? ? He H']; subst; cbn [peek_its]; auto.
  - assert (E : ~ In (Ev (EEnter pid i)) (fst (peek w s j (fits_its its k) None)) /\
                pprun None (fst (peek w s j (fits_its its k) None)) = None).
    { destruct s; simpl in He; try contradiction; simpl; split; auto; intros [E|[]]; discriminate. }
    destruct E as [E1 E2]. cbv zeta. rewrite E2. intros Hin. apply in_app_or in Hin as [Hin|Hin]; auto.
    eapply IH; eauto.
  - simpl in He. destruct e; try discriminate. cbn [ppstep obind]. intros [E|Hin]; [discriminate|].
    eapply IH; eauto.
Qed.

Lemma none_relevant its cs k : pritems its cs -> existsb (relevant_chunk pid i) cs = true ->
  ~ free (peek_its w its k None).
Proof.
  induction 1 as [|j n its cs H IH|c j s its cs [Hc1 Hc2] Ho He H IH]; simpl existsb; intros E Hf.
  - discriminate.
  - cbn [peek_its ppstep obind] in Hf. apply IH; auto. intros e Hin. apply Hf. right. exact Hin.
  - cbn [peek_its] in Hf. cbv zeta in Hf.
    assert (E2 : pprun None (fst (peek w s j (fits_its its k) None)) = None).
    { destruct s; simpl in He; try contradiction; reflexivity. }
    rewrite E2 in Hf. apply free_app in Hf as [Hf1 Hf2].
    apply orb_true_iff in E as [E|E]; [|apply IH; auto].
    unfold relevant_chunk in E. destruct s; simpl in He, Hc2; try contradiction;
      destruct (ck_note c); try contradiction; try discriminate.
    + apply id_eqb_spec in E. apply (Hf1 (Gap (GapChoice j))); [left; reflexivity|].
      left. right. right. congruence.
    + apply andb_true_iff in E as [E1 E3]. apply id_eqb_spec in E1. apply Nat.eqb_eq in E3.
      destruct Hc2 as [Hc2 _]. apply (Hf1 (Gap (GapChild j n))); [left; reflexivity|].
      left. right. left. congruence.
Qed.

(** ** The state of the search *)

Variables (B m tl0 : list pev).
Hypothesis Hm : free m.

(** What follows the node. *)
Definition is_outer (its : list item) : Prop :=
  match omk with None => its = [] | Some e => exists r, its = GE e :: r end.

Lemma is_outer_inv its : is_outer its -> its = [] \/ exists x r, omk = Some x /\ its = GE x :: r.
Proof. unfold is_outer. destruct omk; [intros (r & ->); eauto|auto]. Qed.

Record St (gp : list gblock) (g : gblock) (gn : list gblock) : Prop := {
  St_v : vbs (rev gp ++ g :: gn) = B ++ m ++ Ev (EEnter pid i) :: tl0;
  St_m : exists m1, vbs (rev gp) ++ map Ev (g_done g) = B ++ m1 /\ free m1;
  St_own : exists own outer, g_items g ++ flat gn = own ++ outer /\ Forall (rit (ownR q)) own /\ is_outer outer
}.

(** What comes next is free of relevant things if the child is not in it. *)
Lemma St_next gp g gn b x r m1 : prblock b g -> St gp g gn ->
  vbs (rev gp) ++ map Ev (g_done g) = B ++ m1 -> free m1 ->
  tl_of w b g ++ vbs gn = x ++ r -> ~ In (Ev (EEnter pid i)) x -> free x.
Proof.
  intros Hb Hs E1 Hf E2 Hx.
  apply (@first_free m1 x r m tl0); auto.
  pose proof (St_v Hs) as Hv. rewrite vbs_app in Hv. cbn [PPeek1.vbs flat_map] in Hv.
  rewrite (vb_tl w Hb), <- app_assoc, app_assoc, E1 in Hv. fold (vbs gn) in Hv.
  change (flat_map vb gn) with (vbs gn) in Hv. rewrite E2 in Hv.
  rewrite <- app_assoc in Hv. apply app_inv_head in Hv. exact Hv.
Qed.

(** The exits that are due are not the end of the node. *)
Lemma St_exits gp g gn b ex its0 m1 : prblock b g -> St gp g gn ->
  vbs (rev gp) ++ map Ev (g_done g) = B ++ m1 -> free m1 ->
  exits ex -> g_items g = map GE ex ++ its0 -> free (map Ev ex).
Proof.
  intros Hb Hs E1 Hf Hex Hi.
  apply (@St_next gp g gn b (map Ev ex) (peek_its w its0 look_end (Some (bl_prefix_len b, bl_at_eol b)) ++ vbs gn) m1); auto.
  - unfold tl_of. rewrite Hi, peek_its_exits by auto. rewrite <- app_assoc. reflexivity.
  - intros Hin. apply in_map_iff in Hin as (e & E & Hin). injection E as ->.
    eapply exits_no_enter; eauto.
Qed.

(** The next chunk is part of the node. *)
Lemma own_split (ex : list event) own outer it rest : exits ex -> free (map Ev ex) ->
  map GE ex ++ it :: rest = own ++ outer -> is_outer outer -> (forall e, it <> GE e) ->
  exists own', own = map GE ex ++ it :: own' /\ rest = own' ++ outer.
Proof.
  intros Hex Hf E Ho Hit. revert own E. unfold exits in Hex.
  induction ex as [|e ex IH]; intros own E; simpl in *.
  - destruct own as [|it' own].
    + simpl in E. apply is_outer_inv in Ho as [Ho|(x & r & Ex & Hr)].
      * rewrite Ho in E. discriminate.
      * rewrite Hr in E. injection E as E _. elim (Hit _ E).
    + simpl in E. injection E as <- ->. exists own. auto.
  - apply andb_true_iff in Hex as [He Hex].
    destruct own as [|it' own].
    + simpl in E. apply is_outer_inv in Ho as [Ho|(x & r & Ex & Hr)].
      * rewrite Ho in E. discriminate.
      * rewrite Hr in E. injection E as -> _.
        elim (Hf (Ev x)); [left; reflexivity|]. right. exists x. auto.
    + simpl in E. injection E as <- E. destruct (IH Hex) with (own := own) as (own' & -> & ->); auto.
      { intros y Hy. apply Hf. right. exact Hy. }
      exists own'. auto.
Qed.

(** Walking over a block without relevant chunks. *)
Lemma St_walk gp g gn b : prblock b g -> Forall fresh gn -> St gp g gn -> girr pid i g ->
  exists g2 gn2, gn = g2 :: gn2 /\ St (g :: gp) g2 gn2.
Proof.
  intros Hb Hfr Hs Hirr. destruct (St_m Hs) as (m1 & E1 & Hf).
  destruct (St_own Hs) as (own & outer & Eo & Hown & Hout).
  pose proof (pritems_exp (prb_items Hb)) as Hexp.
  (* the items of the block are part of the node *)
  assert (Hsplit : exists own', own = g_items g ++ own' /\ flat gn = own' ++ outer).
  { destruct (app_eq_app _ _ _ _ Eo) as (l & [[E2 E3]|[E2 E3]]).
    2: { exists l. auto. }
    destruct l as [|it l].
    { exists []. rewrite app_nil_r in E2. simpl in *. subst outer. rewrite app_nil_r. auto. }
    exfalso. rewrite E3 in Hout. apply is_outer_inv in Hout as [Hout|(x & r & Ex & Hr)]; [discriminate|].
    injection Hr as -> Hr.
    assert (Hfo : free (peek_its w own (fits_its (GE x :: l) look_end) (Some (bl_prefix_len b, bl_at_eol b)))).
    { apply irr_free_its; auto.
      - rewrite E2 in Hexp. apply Forall_app in Hexp. apply Hexp.
      - red in Hirr. rewrite E2 in Hirr. apply Forall_app in Hirr. apply Hirr. }
    assert (Hfx : free (peek_its w own (fits_its (GE x :: l) look_end) (Some (bl_prefix_len b, bl_at_eol b)) ++ [Ev x])).
    { eapply (@St_next gp g gn b _ _ m1); eauto.
      - unfold tl_of. rewrite E2, peek_its_app. cbn [peek_its].
        rewrite <- !app_assoc. cbn [app]. reflexivity.
      - intros Hin. apply in_app_or in Hin as [Hin|[Hin|[]]].
        + apply Hfo in Hin. apply Hin. left. left. reflexivity.
        + injection Hin as ->. eapply mk_enter; eauto. }
    apply free_app in Hfx as [_ Hfx]. apply (Hfx (Ev x)); [left; reflexivity|]. right. exists x. auto. }
  destruct Hsplit as (own' & Ew & Eg).
  assert (Hft : free (tl_of w b g)).
  { unfold tl_of. apply irr_free_its; auto. rewrite Ew in Hown. apply Forall_app in Hown. apply Hown. }
  assert (Hv1 : vbs (rev (g :: gp)) = B ++ m1 ++ tl_of w b g).
  { simpl. rewrite vbs_app. cbn [PPeek1.vbs flat_map]. rewrite app_nil_r, (vb_tl w Hb), app_assoc, E1, app_assoc.
    reflexivity. }
  destruct gn as [|g2 gn2].
  - exfalso. pose proof (St_v Hs) as Hv.
    change (rev gp ++ [g]) with (rev (g :: gp)) in Hv. rewrite Hv1 in Hv.
    apply app_inv_head in Hv.
    assert (Hin : In (Ev (EEnter pid i)) (m1 ++ tl_of w b g)).
    { rewrite Hv. apply in_or_app. right. left. reflexivity. }
    assert (Hfa : free (m1 ++ tl_of w b g)) by (apply free_app; auto).
    apply Hfa in Hin. apply Hin. left. left. reflexivity.
  - exists g2, gn2. split; [reflexivity|]. inversion Hfr as [|? ? [Hh2 Hb2] Hfr']; subst.
    constructor.
    + rewrite <- (St_v Hs). simpl. rewrite <- app_assoc. reflexivity.
    + exists (m1 ++ tl_of w b g ++ map Ev (g_done g2)). split.
      * rewrite Hv1, <- !app_assoc. reflexivity.
      * apply free_app. split; auto. apply free_app. split; auto.
        unfold g_done. rewrite Hb2, app_nil_r. destruct (g_head g2); simpl; [|apply free_nil].
        apply free_cons; [|apply free_nil]. intros [[E|[E|E]]|(x & Hx & E)]; try discriminate.
        injection E as <-. destruct (Hmk Hx) as (? & ? & E & _). discriminate.
    + exists own', outer. split; [exact Eg|]. split; auto.
      apply Forall_app in Hown. apply Hown.
Qed.

(** A step of the inner loop. *)
Lemma St_step gp g gn b g' gnb ex es : prblock b g -> St gp g gn ->
  exits ex -> free (map Ev es) ->
  vbs (rev gp ++ g' :: gnb ++ gn) = vbs (rev gp ++ g :: gn) ->
  g_head g' = g_head g -> g_body g' = g_body g ++ ex ++ es -> pnewF g g' gnb ->
  St gp g' (gnb ++ gn).
Proof.
  intros Hb Hs Hex Hes Hv Hh Hbd (ex' & j' & s' & its' & new & Hex' & Hi' & Hn & HR).
  destruct (St_m Hs) as (m1 & E1 & Hf).
  destruct (St_own Hs) as (own & outer & Eo & Hown & Hout).
  assert (Ed : g_done g' = g_done g ++ ex ++ es) by (unfold g_done; rewrite Hh, Hbd, app_assoc; reflexivity).
  assert (Hfe : free (map Ev ex)).
  { pose proof (St_v Hs) as HV. rewrite <- Hv, vbs_app in HV. cbn [PPeek1.vbs flat_map] in HV.
    destruct (vp_incl w (map Ev (g_done g')) (g_items g') look_end) as (l & El).
    unfold PPeek1.vb at 1, vf in HV. rewrite El, Ed, !map_app, <- !app_assoc, app_assoc, E1, <- !app_assoc in HV.
    apply app_inv_head in HV. eapply first_free; [exact HV|auto|auto|].
    intros Hin. apply in_map_iff in Hin as (e & E & Hin). injection E as ->.
    eapply exits_no_enter; [exact Hex|exact Hin]. }
  assert (Hfe' : free (map Ev ex')) by (eapply St_exits; eauto).
  constructor.
  - rewrite Hv. apply Hs.
  - exists (m1 ++ map Ev ex ++ map Ev es). split.
    + rewrite Ed, !map_app, app_assoc, E1, <- !app_assoc. reflexivity.
    + apply free_app. split; auto. apply free_app. auto.
  - rewrite Hi', <- app_assoc in Eo. cbn [app] in Eo.
    destruct (@own_split ex' own outer (GI j' s') (its' ++ flat gn) Hex' Hfe' Eo Hout) as (own' & -> & Er); [discriminate|].
    exists (new ++ own'), outer. rewrite flat_app, app_assoc, Hn, <- !app_assoc.
    split; [f_equal; exact Er|]. split; auto.
    apply Forall_app in Hown as [_ Hown]. inversion Hown; subst.
    apply Forall_app. split; auto. apply HR; auto. apply ownR_closed.
Qed.

(** The next chunk is known. *)
Lemma peek_known2 s j k p : expanded s ->
  known_item w s k p \/ (peek w s j k (Some p) = peek w s j k None /\ snd (peek w s j k None) = None).
Proof.
  intros He. destruct s as [f| | |ind|t|a b|a b|n ci s'|]; simpl in He; try contradiction; cbn [known_item peek]; auto.
  - cbn [obind]. destruct (text_pos p t); [left; discriminate|right; auto].
  - destruct (head_fails a); [right; eauto|].
    destruct (picks_first w a k p) as [[]|]; [| |right; eauto].
    + destruct (opens a) eqn:E; [left; split; auto; exists true; auto|right; eauto].
    + destruct (opens b) eqn:E; [left; split; auto; exists false; auto|right; eauto].
  - destruct ci as [j'|]; [|right; eauto].
    destruct (opens s') eqn:E; [left; eauto|right; eauto].
Qed.

Lemma St_known gp g gn b : prblock b g -> St gp g gn -> contains_relevant_chunk pid i b = true ->
  next_known w b g.
Proof.
  intros Hb Hs Hrel es j s its Hes Hi Hx.
  destruct (peek_known2 s j (fits_its its look_end) (bl_prefix_len b, bl_at_eol b) Hx) as [Hk|[E1 E2]]; auto.
  exfalso. destruct (St_m Hs) as (m1 & Em & Hf).
  pose proof (prb_items Hb) as Hpi.
  assert (Hexp : Forall exp_item (GI j s :: its)).
  { apply pritems_exp in Hpi. rewrite Hi in Hpi. apply Forall_app in Hpi. apply Hpi. }
  assert (Hfx : free (peek_its w (map GE es ++ GI j s :: its) look_end None)).
  { apply (@St_next gp g gn b _ (vbs gn) m1); auto.
    - f_equal. unfold tl_of. rewrite Hi, !peek_its_exits by auto. f_equal. cbn [peek_its]. cbv zeta.
      assert (P1 : pprun (Some (bl_prefix_len b, bl_at_eol b))
        (fst (peek w s j (fits_its its look_end) (Some (bl_prefix_len b, bl_at_eol b)))) = None).
      { etransitivity; [symmetry; apply peek_pprun|]. etransitivity; [|exact E2]. f_equal. exact E1. }
      assert (P2 : pprun None (fst (peek w s j (fits_its its look_end) None)) = None).
      { rewrite <- peek_pprun. exact E2. }
      unfold pos in *. rewrite P1, P2, E1. reflexivity.
    - apply none_no_enter. rewrite <- Hi. eapply pritems_exp; eauto. }
  rewrite <- Hi in Hfx. revert Hfx. eapply none_relevant; eauto.
Qed.

(** ** The loops *)

Definition found (p' : printer) (d : delayed) (gp : list gblock) (g' : gblock) (gn' : list gblock)
    (j' : Id) (s' : shape) : Prop :=
  prp p' gp (g' :: gn') /\
  lift (m_id (dl_doc d)) = Ok j' /\ pden (Ok j') s' (eval d) /\
  Q j' s' /\ opens s' = true /\
  (exists its, g_items g' = GE (EExit pid i) :: its) /\
  vbs (rev gp) ++ map Ev (g_done g') = B ++ m ++ [Ev (EEnter pid i)] /\
  vbs (rev gp ++ set_items g' (GI j' s' :: g_items g') :: gn') = B ++ m ++ Ev (EEnter pid i) :: tl0 /\
  ids (q ++ [i]) = Some j' /\ plab ids (q ++ [i]) s'.

Lemma psc_inner : forall cs p b gp g gn,
  bl_chunks b = cs -> prp (push_next p b) gp (g :: gn) -> St gp g gn -> existsb (relevant_chunk pid i) cs = true ->
  (exists p' d g' gn' j' s', loops (fun n => seek_child_body n pid i) (p, b) (Ok (ScFound p' d)) /\
     found p' d gp g' gn' j' s') \/
  (exists p' g' gn', loops (fun n => seek_child_body n pid i) (p, b) (Ok (ScBreak p')) /\
     prp p' gp (g' :: gn') /\ St gp g' gn' /\
     its_size (g_items g') + gs_size gn' < its_size (g_items g) + gs_size gn).
Proof.
  induction cs as [|c cs IH]; intros p b gp g gn Ec Hrp Hs Hrel; [discriminate|].
  assert (Hb : prblock b g) by (destruct Hrp as [_ _ H3 _ _]; inversion H3; auto).
  assert (Hw : pr_width p = w) by apply Hrp.
  assert (Hkn : next_known w b g).
  { eapply St_known; eauto. unfold contains_relevant_chunk. rewrite Ec. exact Hrel. }
  pose proof (prb_items Hb) as Hi. rewrite Ec in Hi.
  apply pritems_cons in Hi as (ex & j & s & its & Hex & Hi & [Hci Hcd] & Ho & Hx & Hits).
  destruct (St_m Hs) as (m1 & Em & Hf).
  assert (Hfe : free (map Ev ex)) by (eapply St_exits; eauto).
  destruct (relevant_chunk pid i c && match ck_note c with CChild _ _ => true | _ => false end) eqn:Efound.
  - (* found *)
    left. apply andb_true_iff in Efound as [Er Ek].
    unfold relevant_chunk in Er.
    destruct (ck_note c) as [| | | | | |n d|] eqn:En; try discriminate.
    pose proof Er as Er0.
    apply andb_true_iff in Er as [Er1 Er2]. apply id_eqb_spec in Er1. apply Nat.eqb_eq in Er2. subst n.
    assert (Ej : j = pid) by congruence. rewrite Ej in *. clear Ej j.
    destruct s as [| | | | | | |cn ci s'|]; try contradiction. destruct Hcd as (-> & Hd).
    pose proof (Hkn _ _ _ _ Hex Hi Hx) as Hk. cbn [known_item] in Hk. destruct Hk as ((j' & ->) & Hop).
    destruct Hd as [Hd|[Hid Hd]]; [rewrite (opens_head _ Hop) in Hd; discriminate|].
    exists (push_next p (set_chunks b cs)), d.
    set (g0 := add_ev g ex (GI pid (SChild i (Ok j') s') :: its)).
    assert (Hb0 : prblock b g0).
    { eapply prblock_exits; eauto. rewrite Ec. constructor; auto. split; auto. rewrite En. simpl. auto. }
    exists (add_ev g0 [EEnter pid i] (GE (EExit pid i) :: its)), gn, j', s'. split.
    { apply loops_done. exists 0. intros k _. unfold seek_child_body. rewrite Ec, En, Er0. reflexivity. }
    assert (Hv0 : vb g0 = vb g) by (apply vb_exits; auto).
    assert (Hp0 : prun pos0 (g_done g0) = Some (bl_prefix_len b, bl_at_eol b)) by apply Hb0.
    assert (Hv1 : vb (set_items (add_ev g0 [EEnter pid i] (GE (EExit pid i) :: its))
              (GI j' s' :: GE (EExit pid i) :: its)) = vb g).
    { rewrite <- Hv0, set_items_add. unfold PPeek1.vb. rewrite g_done_add. cbn [g_items add_ev].
      symmetry. apply (@vf_child _ _ w (g_done g0) _ pid i j' s' its look_end Hp0 Hop). }
    assert (HV : vbs (rev gp ++ set_items (add_ev g0 [EEnter pid i] (GE (EExit pid i) :: its))
              (GI j' s' :: GE (EExit pid i) :: its) :: gn) = B ++ m ++ Ev (EEnter pid i) :: tl0).
    { rewrite <- (St_v Hs), !vbs_app. cbn [PPeek1.vbs flat_map]. rewrite Hv1. reflexivity. }
    assert (Hdone : vbs (rev gp) ++ map Ev (g_done (add_ev g0 [EEnter pid i] (GE (EExit pid i) :: its))) =
      B ++ (m1 ++ map Ev ex) ++ [Ev (EEnter pid i)]).
    { rewrite g_done_add. unfold g0. rewrite g_done_add, !map_app, !app_assoc, Em. reflexivity. }
    assert (Hm1 : m1 ++ map Ev ex = m).
    { rewrite vbs_app in HV. cbn [PPeek1.vbs flat_map] in HV. unfold PPeek1.vb at 1 in HV.
      unfold vf, vp in HV.
      change (g_done (set_items (add_ev g0 [EEnter pid i] (GE (EExit pid i) :: its)) (GI j' s' :: GE (EExit pid i) :: its)))
        with (g_done (add_ev g0 [EEnter pid i] (GE (EExit pid i) :: its))) in HV.
      rewrite <- !app_assoc, app_assoc, Hdone, <- !app_assoc in HV. apply app_inv_head in HV.
      cbn [app] in HV. rewrite app_assoc in HV. apply first_enter in HV; auto; [apply HV|].
      apply free_app. auto. }
    assert (Hown : ownR q pid (SChild i (Ok j') s')).
    { destruct (St_own Hs) as (own & outer & Eo & Hown & Hout).
      rewrite Hi, <- app_assoc in Eo. cbn [app] in Eo.
      destruct (@own_split ex own outer _ _ Hex Hfe Eo Hout) as (own' & -> & Er); [discriminate|].
      apply Forall_app in Hown as [_ Hown]. inversion Hown; auto. }
    destruct Hown as (r & Hr1 & Hr2).
    assert (r = []). { eapply app_nil_id. exact (ids_inj Hq Hr1). }
    subst r. rewrite app_nil_r in *. simpl in Hr2. destruct Hr2 as [Hr2 Hr3].
    destruct Hr2 as [Hr2|Hr2]; [rewrite (opens_head _ Hop) in Hr2; discriminate|].
    rewrite Hm1 in Hdone.
    split.
    { destruct Hrp as [H1 H2 H3 H4 H5]. constructor; simpl; auto.
      - constructor; [|inversion H3; auto]. apply prblock_silent; auto. constructor; auto.
      - eapply heads_ok_replace; eauto. }
    split; [exact Hid|]. split; [exact Hd|]. split; [eauto|]. split; [exact Hop|].
    split; [exists its; reflexivity|].
    split; [exact Hdone|]. split; [exact HV|]. split; auto.
  - destruct (pnext_step Q_concat Q_choice Q_child p Hb Ec Hw Hkn) as ((p' & b') & Hev & ex' & Hex' & Hst).
    assert (Hcev : free (map Ev (cev c))).
    { unfold cev. unfold relevant_chunk in Efound.
      destruct (ck_note c) eqn:En; simpl; try apply free_nil; (apply free_cons; [|apply free_nil]);
        intros [[E|[E|E]]|(x & Hxx & E)]; try discriminate; try (injection E as <-; destruct (Hmk Hxx) as (? & ? & E & _); discriminate).
      injection E as E1 E2. rewrite E1, E2, andb_true_r, Nat.eqb_refl in Efound.
      assert (Hp : id_eqb pid pid = true) by (apply id_eqb_spec; reflexivity). rewrite Hp in Efound. discriminate. }
    destruct (pstepF_rp Hrp Hst) as (g' & gnb & Hrp' & Hv & Hh & Hbd & Hz & Hpp & Hpw & Hfr & Hnew).
    assert (Hs' : St gp g' (gnb ++ gn)).
    { eapply (@St_step gp g gn b g' gnb ex' (cev c)); eauto. }
    assert (Hsil : (forall n, seek_child_body n pid i (p, b) =
        match print_next_body n (p, b) with
        | Ok (Next s) => Ok (Next s)
        | Ok (Done _) => Panic PUnexpandedChunk
        | Fail f => Fail f end) ->
      bl_chunks b' = cs -> p' = p -> existsb (relevant_chunk pid i) cs = true ->
      (exists p' d g' gn' j' s', loops (fun n => seek_child_body n pid i) (p, b) (Ok (ScFound p' d)) /\
         found p' d gp g' gn' j' s') \/
      (exists p' g' gn', loops (fun n => seek_child_body n pid i) (p, b) (Ok (ScBreak p')) /\
         prp p' gp (g' :: gn') /\ St gp g' gn' /\
         its_size (g_items g') + gs_size gn' < its_size (g_items g) + gs_size gn)).
    { intros Hsame Hb'c Hp'p Hrel'. subst p'.
      assert (Hnx : ev (fun n => seek_child_body n pid i (p, b)) (Ok (Next (p, b')))).
      { destruct Hev as [N Hev]. exists N. intros n Hn. rewrite Hsame, Hev by auto. reflexivity. }
      destruct (IH p b' gp g' (gnb ++ gn) Hb'c Hrp' Hs' Hrel') as [(p2 & d & g2 & gn2 & j2 & s2 & Hl & Hr)|(p2 & g2 & gn2 & Hl & Hr)].
      - left. exists p2, d, g2, gn2, j2, s2. split; auto. eapply loops_next; eauto.
      - right. exists p2, g2, gn2. destruct Hr as (H1 & H2 & H3).
        split; [eapply loops_next; eauto|]. split; [auto|]. split; [auto|]. lia. }
    assert (Hbrk : (forall n, seek_child_body n pid i (p, b) =
        match print_next_body n (p, b) with
        | Ok (Next (p, b)) => Ok (Done (ScBreak (push_next p b)))
        | Ok (Done _) => Panic PUnexpandedChunk
        | Fail f => Fail f end) ->
      exists p' g' gn', loops (fun n => seek_child_body n pid i) (p, b) (Ok (ScBreak p')) /\
         prp p' gp (g' :: gn') /\ St gp g' gn' /\
         its_size (g_items g') + gs_size gn' < its_size (g_items g) + gs_size gn).
    { intros Hsame. exists (push_next p' b'), g', (gnb ++ gn). split; [|auto].
      apply loops_done. destruct Hev as [N Hev]. exists N. intros n Hn.
      rewrite Hsame, Hev by auto. reflexivity. }
    assert (Hdet : forall x, (forall n, print_next_body n (p, b) = x) -> Ok (Next (p', b')) = x).
    { intros x Hx'. eapply ev_det; [exact Hev|]. exists 0. intros. apply Hx'. }
    simpl in Hrel.
    destruct (ck_note c) as [| |ind'|t'|da db|da db|n' d|] eqn:En.
    * exfalso. assert (Ex : @Ok (perr Er) (step (printer * block) (printer * block)) (Next (p', b')) = Panic PUnexpandedChunk); [|discriminate Ex].
      apply Hdet. intros n. unfold print_next_body. rewrite Ec, En. reflexivity.
    * assert (Ex : @Ok (perr Er) (step (printer * block) (printer * block)) (Next (p', b')) = Ok (Next (p, set_eol (set_chunks b cs)))).
      { apply Hdet. intros n. unfold print_next_body. rewrite Ec, En. reflexivity. }
      injection Ex as E1 E2.
      apply Hsil; auto.
      -- intros n. unfold seek_child_body, print_next_body. rewrite Ec, En. reflexivity.
      -- rewrite E2. reflexivity.
      -- unfold relevant_chunk in Hrel. rewrite En in Hrel. exact Hrel.
    * exfalso. assert (Ex : @Ok (perr Er) (step (printer * block) (printer * block)) (Next (p', b')) = Panic PUnexpandedChunk); [|discriminate Ex].
      apply Hdet. intros n. unfold print_next_body. rewrite Ec, En. reflexivity.
    * destruct (push_text (set_chunks b cs) t') as [b2|f] eqn:Ept.
      -- assert (Ex : @Ok (perr Er) (step (printer * block) (printer * block)) (Next (p', b')) = Ok (Next (p, b2))).
         { apply Hdet. intros n. unfold print_next_body. rewrite Ec, En, Ept. reflexivity. }
         injection Ex as E1 E2.
         apply Hsil; auto.
         ++ intros n. unfold seek_child_body, print_next_body. rewrite Ec, En, Ept. reflexivity.
         ++ rewrite E2. unfold push_text in Ept. destruct (bl_at_eol _); [discriminate|].
            destruct (add16 _ _ _); [|discriminate]. injection Ept as <-. reflexivity.
         ++ unfold relevant_chunk in Hrel. rewrite En in Hrel. exact Hrel.
      -- exfalso. assert (Ex : @Ok (perr Er) (step (printer * block) (printer * block)) (Next (p', b')) = Fail f); [|discriminate Ex].
         apply Hdet. intros n. unfold print_next_body. rewrite Ec, En, Ept. reflexivity.
    * exfalso. assert (Ex : @Ok (perr Er) (step (printer * block) (printer * block)) (Next (p', b')) = Panic PUnexpandedChunk); [|discriminate Ex].
      apply Hdet. intros n. unfold print_next_body. rewrite Ec, En. reflexivity.
    * right. apply Hbrk. intros n. unfold seek_child_body, print_next_body. rewrite Ec, En.
      destruct (choose _ _ _ _ _); [|reflexivity]. simpl. destruct (expand_first _ _ _ _) as [[]|]; reflexivity.
    * right. apply Hbrk. intros n. unfold seek_child_body, print_next_body. rewrite Ec, En.
      unfold relevant_chunk in Efound. rewrite En in Efound. rewrite andb_true_r in Efound. rewrite Efound.
      destruct (chunk_new _); [|reflexivity]. simpl. destruct (expand_first _ _ _ _) as [[]|]; reflexivity.
    * assert (Ex : @Ok (perr Er) (step (printer * block) (printer * block)) (Next (p', b')) = Ok (Next (p, set_chunks b cs))).
      { apply Hdet. intros n. unfold print_next_body. rewrite Ec, En. reflexivity. }
      injection Ex as E1 E2.
      apply Hsil; auto.
      -- intros n. unfold seek_child_body, print_next_body. rewrite Ec, En. reflexivity.
      -- rewrite E2. reflexivity.
      -- unfold relevant_chunk in Hrel. rewrite En in Hrel. exact Hrel.
Qed.

Lemma pirr_items its cs : pritems its cs -> existsb (relevant_chunk pid i) cs = false -> Forall (irr_item pid i) its.
Proof.
  induction 1 as [|j n its cs H IH|c j s its cs [Hc1 Hc2] Ho He H IH]; simpl; intros E.
  - constructor.
  - constructor; simpl; auto.
  - apply orb_false_iff in E as [E1 E2]. constructor; auto.
    unfold relevant_chunk in E1. subst j.
    destruct s; simpl in Hc2; auto; destruct (ck_note c); try contradiction; simpl.
    + intros Ej. apply id_eqb_spec in Ej. congruence.
    + destruct Hc2 as (-> & _). intros [Ej ->].
      rewrite Nat.eqb_refl in E1. apply id_eqb_spec in Ej. rewrite Ej in E1. discriminate.
Qed.

Lemma pwalk : forall next prev gp g gn,
  Forall2 prblock prev gp -> Forall2 prblock next (g :: gn) -> Forall fresh gn -> St gp g gn ->
  exists prev' b bs gp' g' gn', walk pid i prev next = (prev', b :: bs) /\
    Forall2 prblock prev' gp' /\ Forall2 prblock (b :: bs) (g' :: gn') /\
    rev gp' ++ g' :: gn' = rev gp ++ g :: gn /\ St gp' g' gn' /\
    contains_relevant_chunk pid i b = true /\ Forall fresh gn' /\
    gs_size (g' :: gn') <= gs_size (g :: gn).
Proof.
  induction next as [|b next IH]; intros prev gp g gn Hp Hn Hf Hs; inversion Hn as [|? ? ? ? Hb Hn' E1 E2]; subst.
  simpl. destruct (contains_relevant_chunk pid i b) eqn:Er.
  - exists prev, b, next, gp, g, gn. repeat (split; [solve [auto]|]). auto.
  - assert (Hirr : girr pid i g).
    { eapply pirr_items; [apply (prb_items Hb)|exact Er]. }
    destruct (St_walk Hb Hf Hs Hirr) as (g2 & gn2 & -> & Hs2).
    destruct (IH (b :: prev) (g :: gp) g2 gn2) as (prev' & b' & bs' & gp' & g' & gn' & H1 & H2 & H3 & H4 & H5 & H6 & H7 & H8); auto.
    { inversion Hf; auto. }
    exists prev', b', bs', gp', g', gn'. repeat (split; [solve [auto]|]).
    split. { rewrite H4. simpl. rewrite <- app_assoc. reflexivity. }
    repeat (split; [solve [auto]|]). simpl in *. lia.
Qed.

Lemma psc_outer : forall n p gp g gn,
  gs_size (g :: gn) <= n -> prp p gp (g :: gn) -> St gp g gn ->
  exists p' d x gp' g' gn' j' s', loops (fun n => seek_child_outer n pid i) p (Ok (p', x)) /\
    found p' d gp' g' gn' j' s' /\ pcden x j' s'.
Proof.
  induction n as [n IH] using lt_wf_ind.
  intros p gp g gn Hn Hrp Hs.
  destruct (pwalk (prp_prev Hrp) (prp_next Hrp)) as (prev & b & bs & gp1 & g1 & gn1 & Ew & Hp1 & Hn1 & Eg & Hs1 & Hrel & Hf1 & Hz1); auto.
  { apply Hrp. }
  assert (Hrp1 : prp (push_next (Printer (pr_width p) prev bs) b) gp1 (g1 :: gn1)).
  { constructor; simpl; auto; try apply Hrp. rewrite Eg. apply Hrp. }
  destruct (psc_inner eq_refl Hrp1 Hs1 Hrel) as [(p' & d & g' & gn' & j' & s' & Hl & Hfd)|(p' & g' & gn' & Hl & Hrp' & Hs' & Hz)];
    apply loops_ev in Hl.
  - assert (H := Hfd). destruct H as (_ & Hid & Hd & _ & Hop & _).
    destruct (pchunk_new _ _ Hid Hd (opens_head _ Hop)) as (x & Ex & Hx).
    exists p', d, x, gp1, g', gn', j', s'. split; [|auto]. apply loops_done.
    eapply ev_ext with (f := fun n => r <- loop n (seek_child_body n pid i) (Printer (pr_width p) prev bs, b) ;;
        match r with
        | ScFound p' d => x <- chunk_new d ;; Ok (Done (p', x))
        | ScBreak p' | ScExhausted p' => Ok (Next p')
        end).
    { intros k. unfold seek_child_outer. rewrite Ew. reflexivity. }
    eapply (ev_bind_ok (fun n r => match r with
          | ScFound p' d => x <- chunk_new d ;; Ok (Done (p', x))
          | ScBreak p' | ScExhausted p' => Ok (Next p')
          end)); [exact Hl|]. exists 0. intros k _. rewrite Ex. reflexivity.
  - destruct (IH (gs_size (g' :: gn'))) with (p := p') (gp := gp1) (g := g') (gn := gn')
      as (p2 & d & x & gp2 & g2 & gn2 & j2 & s2 & Hl2 & H2); auto.
    { simpl in *. lia. }
    exists p2, d, x, gp2, g2, gn2, j2, s2. split; [|auto].
    eapply loops_next; [|exact Hl2].
    eapply ev_ext with (f := fun n => r <- loop n (seek_child_body n pid i) (Printer (pr_width p) prev bs, b) ;;
        match r with
        | ScFound p' d => x <- chunk_new d ;; Ok (Done (p', x))
        | ScBreak p' | ScExhausted p' => Ok (Next p')
        end).
    { intros k. unfold seek_child_outer. rewrite Ew. reflexivity. }
    eapply (ev_bind_ok (fun n r => match r with
          | ScFound p' d => x <- chunk_new d ;; Ok (Done (p', x))
          | ScBreak p' | ScExhausted p' => Ok (Next p')
          end)); [exact Hl|]. ev_now.
Qed.

End Child.

(** ** seek_child *)

Lemma pseek_child p c pid s i q omk gp g gn B m tl0 :
  prp p gp (g :: gn) -> pcden c pid s -> Q pid s -> opens s = true ->
  ids q = Some pid -> plab ids q s ->
  (forall e, omk = Some e -> exists pp n, e = EExit pp n /\ forall j s, ownR q j s -> j <> pp) ->
  is_outer omk (g_items g ++ flat gn) ->
  vbs (rev gp) ++ map Ev (g_done g) = B ->
  free pid i omk m ->
  vbs (rev gp ++ set_items g (GI pid s :: g_items g) :: gn) = B ++ m ++ Ev (EEnter pid i) :: tl0 ->
  exists p' d x gp' g' gn' j' s', ev (fun n => seek_child n p c i) (Ok (p', x)) /\
    found q pid i B m tl0 p' d gp' g' gn' j' s' /\ pcden x j' s'.
Proof.
  intros Hrp Hc Ho Hop Hq Hl Hmk Hout HB Hm HV.
  destruct (pseek_start Hrp Hc Ho Hop) as (p1 & g1 & gnb & Hev & Hrp1 & Hh1 & Hb1 & Hf1 & Hv1 & new & En1 & En2).
  assert (Heq : forall n, seek_child n p c i =
    (p' <- seek_start n p c ;; loop n (seek_child_outer n (ck_id c) i) p')).
  { intros n. unfold seek_child, seek_start. destruct (pr_next p); [reflexivity|].
    destruct (expand_first n (set_next p l) b c) as [[]|]; reflexivity. }
  assert (Hid : ck_id c = pid) by apply Hc. rewrite Hid in Heq.
  assert (Hs : St q pid i omk B m tl0 gp g1 (gnb ++ gn)).
  { constructor.
    - rewrite Hv1. exact HV.
    - exists []. rewrite app_nil_r. split; [|apply free_nil]. unfold g_done. rewrite Hh1, Hb1. exact HB.
    - exists new, (g_items g ++ flat gn). split.
      + rewrite flat_app, app_assoc, En1, app_assoc. reflexivity.
      + split; auto. apply En2; [apply ownR_closed|]. exists []. rewrite app_nil_r. auto. }
  destruct (@psc_outer q pid i omk Hq Hmk B m tl0 Hm _ p1 gp g1 (gnb ++ gn) (le_n _) Hrp1 Hs)
    as (p' & d & x & gp' & g' & gn' & j' & s' & Hlp & Hfd).
  exists p', d, x, gp', g', gn', j', s'. split; [|exact Hfd].
  eapply ev_ext; [intros; symmetry; apply Heq|].
  eapply (ev_bind_ok (fun n p' => loop n (seek_child_outer n pid i) p')); [exact Hev|].
  apply loops_ev in Hlp. exact Hlp.
Qed.

End PPeek4.
