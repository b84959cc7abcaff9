(** Seeking a focus mark, or a text, in documents with holes. *)
From Verif Require Export PPeek8.
From Verif Require Import SpecMask.

Set Implicit Arguments.

Section PPeek13.
Context {pd : PrettyDoc} {env : Env} {ideq : IdEq pd}.

Variable Q : Id -> shape -> Prop.
Hypothesis Q_concat : forall j a b, Q j (SConcat a b) -> Q j a /\ Q j b.
Hypothesis Q_choice : forall j a b, Q j (SChoice a b) -> Q j a /\ Q j b.
Hypothesis Q_child : forall j n j' s, Q j (SChild n (Ok j') s) -> Q j' s.
Hypothesis Q_text : forall j t t', Q j (SText t) -> Q j (SText t').
Variable w : N.

Notation prblock := (prblock Q).
Notation pritems := (pritems Q).
Notation vbs := (vbs w).
Notation vb := (vb w).
Notation prp := (prp Q w).

Lemma cut_events (stope : event -> bool) a : forall (Y : list pev) mid e R,
  map Ev a ++ Y = map Ev mid ++ Ev e :: R -> existsb stope a = false -> stope e = true ->
  exists mid', mid = a ++ mid' /\ Y = map Ev mid' ++ Ev e :: R.
Proof.
  induction a as [|x a IH]; intros Y mid e R E Ha He; simpl in *.
  - exists mid. auto.
  - apply orb_false_iff in Ha as [Hx Ha]. destruct mid as [|y mid]; simpl in E.
    + injection E as -> E. congruence.
    + injection E as -> E. destruct (IH _ _ _ _ E Ha He) as (mid' & -> & EY). exists mid'. auto.
Qed.

Section PWalk.
Variable body : nat -> printer * block -> pres (step (printer * block) (printer + printer * block)).
Variable outer : nat -> printer -> pres (step printer printer).
Variable stop : chunk -> bool.
Variable stope : event -> bool.
Hypothesis body_nil : forall n p b, bl_chunks b = [] -> body n (p, b) = Ok (Done (inr (p, b))).
Hypothesis body_go : forall n p b c cs, bl_chunks b = c :: cs -> stop c = false ->
  body n (p, b) = match print_next_body n (p, b) with
                  | Ok (Next s) => Ok (Next s)
                  | Ok (Done _) => Panic PUnexpandedChunk
                  | Fail f => Fail f
                  end.
Hypothesis outer_cons : forall n p b bs, pr_next p = b :: bs ->
  outer n p = (r <- loop n (body n) (set_next p bs, b) ;;
               match r with
               | inl p' => Ok (Done p')
               | inr (p', b') => Ok (Next (push_prev p' b'))
               end).
Hypothesis stop_ev : forall c, stop c = false -> existsb stope (cev c) = false.
Hypothesis stop_exit : forall j n, stope (EExit j n) = false.
Hypothesis stop_newline : forall ind, stope (ENewline ind) = false.

Lemma pexits_nostop es : exits es -> existsb stope es = false.
Proof.
  unfold exits. induction es as [|[] es IH]; simpl; intros H; try discriminate; auto.
  rewrite stop_exit. auto.
Qed.

(** The next chunk is known, if what is looked for is known. *)
Lemma seek_known b g gn mid e R : prblock b g ->
  tl_of w b g ++ vbs gn = map Ev mid ++ Ev e :: R -> existsb stope mid = false -> stope e = true ->
  next_known w b g.
Proof.
  intros Hb E Hm He ex j s its Hex Hi Hx.
  destruct (@peek_known _ _ w s j (fits_its its look_end) (bl_prefix_len b, bl_at_eol b) Hx) as [Hk|(gp & Eg)]; auto.
  exfalso. unfold tl_of in E. rewrite Hi, peek_its_exits in E by auto. rewrite <- app_assoc in E.
  destruct (@cut_events stope _ _ _ _ _ E (pexits_nostop Hex) He) as (mid' & _ & E2).
  cbn [peek_its] in E2. unfold pos in *. rewrite Eg in E2. destruct mid'; discriminate.
Qed.

Lemma pw_inner : forall m p b gp g gn mid e R,
  its_size (g_items g) + gs_size gn <= m ->
  prp (push_next p b) gp (g :: gn) ->
  tl_of w b g ++ vbs gn = map Ev mid ++ Ev e :: R -> existsb stope mid = false -> stope e = true ->
  (exists p' b' c cs g' gn' es mid',
     prp (push_next p' b') gp (g' :: gn') /\ bl_chunks b' = c :: cs /\ stop c = true /\
     mid = es ++ mid' /\ g_done g' = g_done g ++ es /\
     tl_of w b' g' ++ vbs gn' = map Ev mid' ++ Ev e :: R /\
     (forall r, loops body (p', b') r -> loops body (p, b) r)) \/
  (exists p' b' g' gn' es mid',
     loops body (p, b) (Ok (inr (p', b'))) /\
     prp (push_next p' b') gp (g' :: gn') /\ bl_chunks b' = [] /\ g_items g' = [] /\
     mid = es ++ mid' /\ g_done g' = g_done g ++ es /\
     vbs gn' = map Ev mid' ++ Ev e :: R /\
     gs_size gn' <= its_size (g_items g) + gs_size gn).
Proof.
  induction m as [m IH] using lt_wf_ind.
  intros p b gp g gn mid e R Hm Hrp E Hns He.
  assert (Hb : prblock b g) by (destruct Hrp as [_ _ Hn _ _]; inversion Hn; auto).
  destruct (bl_chunks b) as [|c cs] eqn:Ec.
  - right.
    assert (Hi := prb_items Hb). rewrite Ec in Hi. apply pritems_nil in Hi as (ex & Hex & Hi).
    assert (Hi' : g_items g = map GE ex ++ []) by (rewrite app_nil_r; auto).
    assert (Et : tl_of w b g = map Ev ex).
    { unfold tl_of. rewrite Hi', peek_its_exits by auto. simpl. apply app_nil_r. }
    rewrite Et in E. destruct (@cut_events stope _ _ _ _ _ E (pexits_nostop Hex) He) as (mid' & -> & EY).
    exists p, b, (add_ev g ex []), gn, ex, mid'. split.
    { apply loops_done. exists 0. intros. apply body_nil. auto. }
    split.
    { destruct Hrp as [H1 H2 H3 H4 H5]. constructor; simpl in *; auto.
      - inversion H3; subst. constructor; auto. apply prblock_exits; auto. rewrite Ec. constructor.
      - eapply heads_ok_replace; eauto. }
    split; [auto|]. split; [reflexivity|]. split; [reflexivity|]. split; [apply g_done_add|].
    split; [exact EY|]. lia.
  - destruct (stop c) eqn:Es.
    + left. exists p, b, c, cs, g, gn, [], mid. rewrite app_nil_r. auto 10.
    + assert (Hw : pr_width p = w) by apply Hrp.
      destruct (pnext_step Q_concat Q_choice Q_child p Hb Ec Hw (@seek_known b g gn mid e R Hb E Hns He))
        as ([p' b'] & Hev & ex & Hex & Hst).
      destruct (pstepF_rp Hrp Hst) as (g' & gnb & Hrp' & Hv & Hh & Hbd & Hz & _).
      assert (Hb' : prblock b' g') by (destruct Hrp' as [_ _ Hn _ _]; inversion Hn; auto).
      assert (Ed : g_done g' = g_done g ++ ex ++ cev c).
      { unfold g_done. rewrite Hh, Hbd, <- app_assoc. reflexivity. }
      assert (Et : map Ev (ex ++ cev c) ++ (tl_of w b' g' ++ vbs (gnb ++ gn)) = map Ev mid ++ Ev e :: R).
      { rewrite <- E. rewrite !vbs_app in Hv. apply app_inv_head in Hv.
        change (g' :: gnb ++ gn) with ([g'] ++ gnb ++ gn) in Hv. change (g :: gn) with ([g] ++ gn) in Hv.
        rewrite !vbs_app in Hv. cbn [flat_map PPeek1.vbs] in Hv. rewrite !app_nil_r in Hv.
        rewrite (vb_tl w Hb), (vb_tl w Hb'), Ed, map_app, <- !app_assoc in Hv.
        apply app_inv_head in Hv. rewrite vbs_app. exact Hv. }
      assert (Hns1 : existsb stope (ex ++ cev c) = false).
      { rewrite existsb_app, pexits_nostop, stop_ev; auto. }
      destruct (@cut_events stope _ _ _ _ _ Et Hns1 He) as (mid1 & -> & E1).
      rewrite existsb_app in Hns. apply orb_false_iff in Hns as [_ Hns].
      assert (Hnext : forall r, loops body (p', b') r -> loops body (p, b) r).
      { intros r Hl. eapply loops_next; [|exact Hl].
        destruct Hev as [N Hev]. exists N. intros n Hn. rewrite (@body_go n p b c cs); auto.
        rewrite Hev by auto. reflexivity. }
      destruct (IH (its_size (g_items g') + gs_size (gnb ++ gn))) with (p := p') (b := b') (gp := gp) (g := g')
        (gn := gnb ++ gn) (mid := mid1) (e := e) (R := R) as [H|H]; auto; try lia.
      * left. destruct H as (p2 & b2 & c2 & cs2 & g2 & gn2 & es & mid' & H1 & H2 & H3 & -> & H5 & H6 & Hl).
        exists p2, b2, c2, cs2, g2, gn2, ((ex ++ cev c) ++ es), mid'.
        split; [auto|]. split; [auto|]. split; [auto|]. split; [apply app_assoc|].
        split; [rewrite H5, Ed, <- app_assoc; reflexivity|]. auto.
      * right. destruct H as (p2 & b2 & g2 & gn2 & es & mid' & H1 & H2 & H3 & H4 & -> & H5 & H6 & H7).
        exists p2, b2, g2, gn2, ((ex ++ cev c) ++ es), mid'.
        split; [apply Hnext; auto|]. split; [auto|]. split; [auto|]. split; [auto|]. split; [apply app_assoc|].
        split; [rewrite H5, Ed, <- app_assoc; reflexivity|]. split; [auto|]. lia.
Qed.

Lemma pw_outer : forall m p b bs gp g gn mid e R,
  its_size (g_items g) + gs_size gn <= m ->
  prp p gp (g :: gn) -> pr_next p = b :: bs ->
  tl_of w b g ++ vbs gn = map Ev mid ++ Ev e :: R -> existsb stope mid = false -> stope e = true ->
  exists p' b' c cs gp' g' gn' es mid',
     prp (push_next p' b') gp' (g' :: gn') /\ bl_chunks b' = c :: cs /\ stop c = true /\
     mid = es ++ mid' /\
     vbs (rev gp') ++ map Ev (g_done g') = (vbs (rev gp) ++ map Ev (g_done g)) ++ map Ev es /\
     tl_of w b' g' ++ vbs gn' = map Ev mid' ++ Ev e :: R /\
     (forall r, loops body (p', b') (Ok (inl r)) -> loops outer p (Ok r)).
Proof.
  induction m as [m IH] using lt_wf_ind.
  intros p b bs gp g gn mid e R Hm Hrp Eq1 E Hns He.
  assert (Ep : push_next (set_next p bs) b = p).
  { destruct p as [pw pp pn]. simpl in *. subst pn. reflexivity. }
  destruct (@pw_inner m (set_next p bs) b gp g gn mid e R) as [H|H]; auto.
  { rewrite Ep. auto. }
  - destruct H as (p2 & b2 & c2 & cs2 & g2 & gn2 & es & mid' & H1 & H2 & H3 & H4 & H5 & H6 & Hl).
    exists p2, b2, c2, cs2, gp, g2, gn2, es, mid'.
    split; [auto|]. split; [auto|]. split; [auto|]. split; [auto|].
    split; [rewrite H5, map_app, app_assoc; reflexivity|]. split; [auto|].
    intros r Hr. apply Hl in Hr. apply loops_done.
    apply loops_ev in Hr. eapply ev_ext; [intros n; symmetry; apply (@outer_cons n p b bs Eq1)|].
    eapply (ev_bind_ok (fun n r => match r with inl p' => Ok (Done p') | inr (p', b') => Ok (Next (push_prev p' b')) end));
      [exact Hr|]. ev_now.
  - destruct H as (p' & b' & g' & gn' & es & mid' & Hl & Hrp' & Hb' & Hi' & -> & Ed & EY & Hz).
    assert (Hnext : ev (fun n => outer n p) (Ok (Next (push_prev p' b')))).
    { apply loops_ev in Hl. eapply ev_ext; [intros n; symmetry; apply (@outer_cons n p b bs Eq1)|].
      eapply (ev_bind_ok (fun n r => match r with inl p' => Ok (Done p') | inr (p', b') => Ok (Next (push_prev p' b')) end));
        [exact Hl|]. ev_now. }
    destruct gn' as [|g2 gn2].
    { cbn in EY. destruct mid'; discriminate. }
    destruct Hrp' as [H1 H2 H3 H4 H5]. simpl in H1, H2, H3, H4, H5. revert H1.
    inversion H5 as [|? ? [Hh2 Hbd2] Hfr]; subst. unfold has_head in Hh2.
    destruct (g_head g2) as [ind|] eqn:Eh; [|congruence].
    inversion H3 as [|? ? ? ? Hbb Hx2 Eb]; subst. inversion Hx2 as [|b2 ? bs2 ? Hb2 Hx4 Eb2]; subst. intros H1.
    assert (Ed2 : g_done g2 = [ENewline ind]) by (unfold g_done; rewrite Eh, Hbd2; reflexivity).
    cbn [flat_map PPeek1.vbs] in EY. rewrite (vb_tl w Hb2), Ed2 in EY. rewrite <- app_assoc in EY.
    assert (Hn2 : existsb stope [ENewline ind] = false) by (simpl; rewrite stop_newline; reflexivity).
    destruct (@cut_events stope _ _ _ _ _ EY Hn2 He) as (mid2 & -> & E2).
    rewrite !existsb_app in Hns. apply orb_false_iff in Hns as [_ Hns]. apply orb_false_iff in Hns as [_ Hns].
    assert (Hrp2 : prp (push_prev p' b') (g' :: gp) (g2 :: gn2)).
    { constructor; simpl; auto. rewrite <- app_assoc. auto. }
    destruct (IH (its_size (g_items g2) + gs_size gn2)) with (p := push_prev p' b') (b := b2) (bs := bs2) (gp := g' :: gp)
      (g := g2) (gn := gn2) (mid := mid2) (e := e) (R := R)
      as (p3 & b3 & c3 & cs3 & gp3 & g3 & gn3 & es3 & mid3 & K1 & K2 & K3 & -> & K5 & K6 & K7); auto.
    { simpl in Hz. lia. }
    exists p3, b3, c3, cs3, gp3, g3, gn3, (es ++ [ENewline ind] ++ es3), mid3.
    split; [auto|]. split; [auto|]. split; [auto|]. split; [rewrite <- !app_assoc; reflexivity|].
    split.
    { rewrite K5. cbn [rev]. rewrite vbs_app. cbn [flat_map PPeek1.vbs]. rewrite app_nil_r.
      assert (Ev1 : vb g' = map Ev (g_done g')).
      { unfold PPeek1.vb. rewrite Hi'. apply vf_nil. }
      rewrite Ev1, Ed, Ed2, !map_app, <- !app_assoc. reflexivity. }
    split; [auto|]. intros r Hr. eapply loops_next; [exact Hnext|]. auto.
Qed.

End PWalk.

(** ** The two searches *)

Lemma start_tail p gp g gn j s p1 g1 gnb b bs :
  prp p gp (g :: gn) -> prp p1 gp (g1 :: gnb ++ gn) -> pr_next p1 = b :: bs -> 
  g_head g1 = g_head g -> g_body g1 = g_body g ->
  vbs (rev gp ++ g1 :: gnb ++ gn) = vbs (rev gp ++ set_items g (GI j s :: g_items g) :: gn) ->
  prblock b g1 /\ g_done g1 = g_done g /\ tl_of w b g1 ++ vbs (gnb ++ gn) = content w g j s ++ rest_of w g j s gn.
Proof.
  intros Hrp Hrp1 E1 Hh1 Hb1 Hv1.
  assert (Hn := prp_next Hrp1). rewrite E1 in Hn. inversion Hn as [|b0 g0 bs0 gs Hbl Hn']. subst b0 g0 bs0 gs.
  assert (Ed : g_done g1 = g_done g) by (unfold g_done; rewrite Hh1, Hb1; reflexivity).
  split; [auto|]. split; [auto|].
  rewrite content_split, vbs_app in Hv1.
  change (g1 :: gnb ++ gn) with ([g1] ++ gnb ++ gn) in Hv1. rewrite (vbs_app w [g1]) in Hv1.
  cbn [PPeek1.vbs flat_map] in Hv1. rewrite (vb_tl w Hbl), app_nil_r, Ed in Hv1.
  rewrite <- !app_assoc in Hv1. do 2 apply app_inv_head in Hv1. exact Hv1.
Qed.

Definition tmark (id : Id) (e : event) : bool := match e with EMark j => id_eqb j id | _ => false end.
Definition tftext (e : event) : bool := match e with EText _ t => tx_from_text t | _ => false end.

Lemma pfocus_mark p c gp g gn j s mid R ku kd ups downs l r :
  prp p gp (g :: gn) -> pcden c j s -> Q j s -> opens s = true ->
  content w g j s ++ rest_of w g j s gn = map Ev mid ++ Ev (EMark j) :: R -> ~ In (EMark j) mid ->
  above ((vbs (rev gp) ++ map Ev (g_done g)) ++ map Ev mid ++ [Ev (EMark j)]) ku ups l ->
  below R kd r downs ->
  exists p2, ev (fun n => seek_mark n p c) (Ok p2) /\
  exists up down,
    ev (fun n => pp_tail n w p2) (Ok (up, FocusedLine l r, down)) /\
    ev (fun n => take_lines (up_next n) ku up) (Ok ups) /\
    ev (fun n => take_lines (down_next n) kd down) (Ok downs).
Proof.
  intros Hrp Hc HQ Ho E Hmid Ha Hb.
  destruct (pseek_start Q_concat Hrp Hc HQ Ho) as (p1 & g1 & gnb & Hev & Hrp1 & Hh1 & Hb1 & Hf1 & Hv1 & _).
  assert (Hn := prp_next Hrp1). destruct (pr_next p1) as [|b bs] eqn:E1; [inversion Hn|]. clear Hn.
  destruct (@start_tail p gp g gn j s p1 g1 gnb b bs Hrp Hrp1 E1 Hh1 Hb1 Hv1) as (Hbl & Ed & Et).
  rewrite E in Et. destruct Hc as [Hcid Hcd].
  assert (Hns : existsb (tmark j) mid = false).
  { destruct (existsb (tmark j) mid) eqn:Ex; auto. apply existsb_exists in Ex as ([] & Hin & Hx); try discriminate.
    apply id_eqb_spec in Hx. subst. contradiction. }
  destruct (@pw_outer (fun n => seek_mark_body n (ck_id c)) (fun n => seek_mark_outer n (ck_id c))
    (fun x => match ck_note x with CFocusMark => id_eqb (ck_id x) (ck_id c) | _ => false end) (tmark j))
    with (m := its_size (g_items g1) + gs_size (gnb ++ gn)) (p := p1) (b := b) (bs := bs) (gp := gp) (g := g1)
      (gn := gnb ++ gn) (mid := mid) (e := EMark j) (R := R)
    as (p' & b' & x & cs & gp' & g' & gn' & es & mid' & Hrp' & Hb' & Hstop & Em & Hpre & Et' & Hok); auto.
  - intros n q b0 Hb0. unfold seek_mark_body. rewrite Hb0. reflexivity.
  - intros n q b0 x cs Hb0 Hs. unfold seek_mark_body, print_next_body. rewrite Hb0.
    destruct (ck_note x); try reflexivity.
    + destruct (push_text _ _); reflexivity.
    + destruct (choose _ _ _ _ _); [|reflexivity]. simpl. destruct (expand_first _ _ _ _); reflexivity.
    + destruct (chunk_new _); [|reflexivity]. simpl. destruct (expand_first _ _ _ _); reflexivity.
    + rewrite Hs. reflexivity.
  - intros n q b0 bs0 Hq. unfold seek_mark_outer. rewrite Hq. reflexivity.
  - intros x Hx. unfold cev. destruct (ck_note x); simpl; auto. rewrite <- Hcid, Hx. reflexivity.
  - apply id_eqb_spec. reflexivity.
  - assert (Hbb : prblock b' g') by (destruct Hrp' as [_ _ H3 _ _]; inversion H3; auto).
    assert (Hi := prb_items Hbb). rewrite Hb' in Hi.
    apply pritems_cons in Hi as (ex & j2 & s2 & its & Hex & Hi & [Hxi Hxd] & HQ2 & Hx2 & Hits).
    destruct (ck_note x) eqn:En; try discriminate.
    destruct s2; try contradiction.
    apply id_eqb_spec in Hstop.
    assert (Ej : j2 = j) by congruence. rewrite Ej in *. clear Ej j2.
    set (g0 := add_ev g' ex (GI j SMark :: its)).
    assert (Hb0 : prblock b' g0).
    { apply prblock_exits; auto. rewrite Hb'. constructor; auto. split; auto. rewrite En. auto. }
    (* the mark is the next event *)
    assert (Hex0 : existsb (tmark j) ex = false) by (apply pexits_nostop; auto).
    unfold tl_of in Et'. rewrite Hi, peek_its_exits, <- app_assoc in Et' by auto.
    destruct (@cut_events (tmark j) _ _ _ _ _ Et' Hex0) as (mid2 & -> & Et2).
    { apply id_eqb_spec. reflexivity. }
    cbn [peek_its peek fst] in Et2. cbv zeta in Et2. cbn [app pprun ppstep obind pstep] in Et2.
    destruct mid2 as [|e2 mid2].
    2: { simpl in Et2. injection Et2 as <- _. elim Hmid. rewrite Em. apply in_or_app. right. apply in_or_app. right. left. reflexivity. }
    simpl in Et2. injection Et2 as Et2. rewrite app_nil_r in Em.
    set (b2 := set_chunks b' cs). set (g2 := add_ev g0 [EMark j] its).
    assert (Hb2 : prblock b2 g2).
    { apply prblock_silent; auto. }
    assert (Hrp2 : prp (push_next p' b2) gp' (g2 :: gn')).
    { destruct Hrp' as [H1 H2 H3 H4 H5]. constructor; simpl; auto.
      - constructor; auto. inversion H3; auto.
      - eapply heads_ok_replace; eauto. }
    exists (push_next p' b2). split.
    { assert (Heq : forall n, seek_mark n p c =
        (p' <- seek_start n p c ;; loop n (seek_mark_outer n (ck_id c)) p')).
      { intros n. unfold seek_mark, seek_start. destruct (pr_next p); [reflexivity|].
        destruct (expand_first n (set_next p l0) b0 c) as [[]|]; reflexivity. }
      eapply ev_ext; [intros n; symmetry; apply Heq|].
      eapply (ev_bind_ok (fun n p' => loop n (seek_mark_outer n (ck_id c)) p')); [exact Hev|].
      apply (loops_ev (body := fun n => seek_mark_outer n (ck_id c))).
      apply Hok, loops_done. exists 0. intros n _. unfold seek_mark_body. rewrite Hb', En.
      replace (id_eqb (ck_id x) (ck_id c)) with true; [reflexivity|].
      symmetry. apply id_eqb_spec. auto. }
    apply (@ptail _ _ Q Q_concat Q_choice Q_child w (push_next p' b2) b2 (pr_next p') gp' g2 gn' ku kd ups downs l r); auto.
    + unfold g2, g0. rewrite !g_done_add, !map_app, !app_assoc, Hpre, Ed.
      rewrite Em, map_app, !app_assoc in Ha. exact Ha.
    + unfold tl_of. cbn [g2 add_ev g_items b2 set_chunks bl_prefix_len bl_at_eol]. unfold pos in *. rewrite Et2. exact Hb.
Qed.

Lemma pfocus_text p c gp g gn j s k mid j2 t R ku kd ups downs l r :
  prp p gp (g :: gn) -> pcden c j s -> Q j s -> opens s = true ->
  content w g j s ++ rest_of w g j s gn = map Ev mid ++ Ev (EText j2 t) :: R -> existsb tftext mid = false ->
  tx_from_text t = true ->
  (str_width (firstn k (tx_str t)) + str_width (skipn k (tx_str t)) = tx_width t)%N ->
  above ((vbs (rev gp) ++ map Ev (g_done g)) ++ map Ev mid ++ [Ev (EText j2 (fst (split_at t k)))]) ku ups l ->
  below (Ev (EText j2 (snd (split_at t k))) :: R) kd r downs ->
  exists p2, ev (fun n => seek_text n p c k) (Ok p2) /\
  exists up down,
    ev (fun n => pp_tail n w p2) (Ok (up, FocusedLine l r, down)) /\
    ev (fun n => take_lines (up_next n) ku up) (Ok ups) /\
    ev (fun n => take_lines (down_next n) kd down) (Ok downs).
Proof.
  intros Hrp Hc HQ Ho E Hns Ht Hwd Ha Hb.
  destruct (pseek_start Q_concat Hrp Hc HQ Ho) as (p1 & g1 & gnb & Hev & Hrp1 & Hh1 & Hb1 & Hf1 & Hv1 & _).
  assert (Hn := prp_next Hrp1). destruct (pr_next p1) as [|b bs] eqn:E1; [inversion Hn|]. clear Hn.
  destruct (@start_tail p gp g gn j s p1 g1 gnb b bs Hrp Hrp1 E1 Hh1 Hb1 Hv1) as (Hbl & Ed & Et).
  rewrite E in Et. destruct Hc as [Hcid Hcd].
  destruct (@pw_outer (fun n => seek_text_body n k) (fun n => seek_text_outer n k)
    (fun x => match ck_note x with CTextual t => tx_from_text t | _ => false end) tftext)
    with (m := its_size (g_items g1) + gs_size (gnb ++ gn)) (p := p1) (b := b) (bs := bs) (gp := gp) (g := g1)
      (gn := gnb ++ gn) (mid := mid) (e := EText j2 t) (R := R)
    as (p' & b' & x & cs & gp' & g' & gn' & es & mid' & Hrp' & Hb' & Hstop & Em & Hpre & Et' & Hok); auto.
  - intros n q b0 Hb0. unfold seek_text_body. rewrite Hb0. reflexivity.
  - intros n q b0 x cs Hb0 Hs. unfold seek_text_body, print_next_body. rewrite Hb0.
    destruct (ck_note x); try reflexivity.
    + rewrite Hs. destruct (push_text _ _); reflexivity.
    + destruct (choose _ _ _ _ _); [|reflexivity]. simpl. destruct (expand_first _ _ _ _); reflexivity.
    + destruct (chunk_new _); [|reflexivity]. simpl. destruct (expand_first _ _ _ _); reflexivity.
  - intros n q b0 bs0 Hq. unfold seek_text_outer. rewrite Hq. reflexivity.
  - intros x Hx. unfold cev. destruct (ck_note x); simpl; auto. rewrite Hx. reflexivity.
  - assert (Hbb : prblock b' g') by (destruct Hrp' as [_ _ H3 _ _]; inversion H3; auto).
    assert (Hi := prb_items Hbb). rewrite Hb' in Hi.
    apply pritems_cons in Hi as (ex & j3 & s2 & its & Hex & Hi & [Hxi Hxd] & HQ2 & Hx2 & Hits).
    destruct (ck_note x) as [| | |t3| | | |] eqn:En; try discriminate.
    destruct s2 as [| | | |t2| | | |]; try contradiction. simpl in Hxd. subst t2.
    set (g0 := add_ev g' ex (GI j3 (SText t3) :: its)).
    assert (Hb0 : prblock b' g0).
    { apply prblock_exits; auto. rewrite Hb'. constructor; auto. split; auto. rewrite En. reflexivity. }
    assert (Hex0 : existsb tftext ex = false) by (apply pexits_nostop; auto).
    unfold tl_of in Et'. rewrite Hi, peek_its_exits, <- app_assoc in Et' by auto.
    destruct (@cut_events tftext _ _ _ _ _ Et' Hex0 Ht) as (mid2 & -> & Et2).
    cbn [peek_its peek fst] in Et2. cbv zeta in Et2. cbn [obind] in Et2.
    destruct (text_pos (bl_prefix_len b', bl_at_eol b') t3) as [q|] eqn:Eq.
    2: { simpl in Et2. destruct mid2; discriminate. }
    cbn [fst app] in Et2.
    destruct mid2 as [|e2 mid2].
    2: { simpl in Et2. injection Et2 as <- _. rewrite Em, !existsb_app in Hns. simpl in Hns.
         rewrite Hstop, !orb_true_r in Hns. discriminate. }
    cbn [map app] in Et2. injection Et2 as -> -> Et2. rewrite app_nil_r in Em.
    assert (Hsp : obind (text_pos (bl_prefix_len b', bl_at_eol b') (fst (split_at t k)))
      (fun q => text_pos q (snd (split_at t k))) = text_pos (bl_prefix_len b', bl_at_eol b') t)
      by (apply (text_pos_split (fun _ => True) (fun _ => I)); exact Hwd).
    unfold pos in *. rewrite Eq in Hsp.
    destruct (text_pos (bl_prefix_len b', bl_at_eol b') (fst (split_at t k))) as [q1|] eqn:Eq1; [|discriminate].
    cbn [obind] in Hsp.
    destruct (ppush_text (fst (split_at t k)) j2 Hb0 Hits Eq1) as (b3 & Epush & Hb3 & Hc3).
    set (its' := GI j2 (SText (snd (split_at t k))) :: its).
    set (cs' := Chunk (CTextual (snd (split_at t k))) (ck_id x) :: cs).
    assert (Hits' : pritems its' cs').
    { constructor; auto. { split; auto. reflexivity. } eapply Q_text; eauto. }
    set (b4 := set_chunks b3 cs'). set (g4 := set_items (add_ev g0 [EText j2 (fst (split_at t k))] its) its').
    assert (Hb4 : prblock b4 g4) by (apply prblock_items; auto).
    assert (Hq1 : (bl_prefix_len b4, bl_at_eol b4) = q1).
    { pose proof (prb_pos Hb4) as Hp4.
      change (g_done g4) with (g_done (add_ev g0 [EText j2 (fst (split_at t k))] its)) in Hp4.
      rewrite g_done_add, prun_app, (prb_pos Hb0) in Hp4.
      cbn [obind prun pstep] in Hp4. unfold pos in *. rewrite Eq1 in Hp4. cbn [obind] in Hp4. congruence. }
    assert (Hrp2 : prp (push_next p' b4) gp' (g4 :: gn')).
    { destruct Hrp' as [H1 H2 H3 H4 H5]. constructor; simpl; auto.
      - constructor; auto. inversion H3; auto.
      - eapply heads_ok_replace; eauto. }
    exists (push_next p' b4). split.
    { assert (Heq : forall n, seek_text n p c k =
        (p' <- seek_start n p c ;; loop n (seek_text_outer n k) p')).
      { intros n. unfold seek_text, seek_start. destruct (pr_next p); [reflexivity|].
        destruct (expand_first n (set_next p l0) b0 c) as [[]|]; reflexivity. }
      eapply ev_ext; [intros n; symmetry; apply Heq|].
      eapply (ev_bind_ok (fun n p' => loop n (seek_text_outer n k) p')); [exact Hev|].
      apply (loops_ev (body := fun n => seek_text_outer n k)).
      apply Hok, loops_done. exists 0. intros n _. unfold seek_text_body. rewrite Hb', En, Hstop.
      change (split_at t k) with (fst (split_at t k), snd (split_at t k)).
      cbv beta iota zeta. rewrite Epush. cbn [bind]. rewrite Hc3. reflexivity. }
    apply (@ptail _ _ Q Q_concat Q_choice Q_child w (push_next p' b4) b4 (pr_next p') gp' g4 gn' ku kd ups downs l r); auto.
    + change (g_done g4) with (g_done (add_ev g0 [EText j2 (fst (split_at t k))] its)).
      unfold g0. rewrite !g_done_add, !map_app, !app_assoc, Hpre, Ed.
      rewrite Em, map_app, !app_assoc in Ha. exact Ha.
    + assert (Etl : tl_of w b4 g4 ++ vbs gn' = Ev (EText j2 (snd (split_at t k))) :: R).
      { unfold tl_of. unfold pos in *. rewrite Hq1. cbn [g4 set_items g_items its' peek_its peek]. cbv zeta.
        cbn [obind]. unfold pos in *. rewrite Hsp. cbn [fst app pprun ppstep obind pstep]. rewrite Hsp.
        rewrite <- Et2. cbn [pprun ppstep obind pstep app]. f_equal. rewrite <- Eq. reflexivity. }
      rewrite Etl. exact Hb.
Qed.

End PPeek13.
