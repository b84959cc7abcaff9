(** Seeking preserves the layout and puts the focus where it should be. *)
From Verif Require Export PPrint.

Set Implicit Arguments.

Section Seek.
Context {pd : PrettyDoc} {env : Env} {ideq : IdEq pd}.

Variable P : failure (perr Er) -> Prop.
Hypothesis P_eol : P (FErr TextAfterEndOfLine).
Hypothesis P_ovf : ovf = true -> P (FPanic POverflow).
Variable Q : Id -> shape -> Prop.
Hypothesis Q_concat : forall j a b, Q j (SConcat a b) -> Q j a /\ Q j b.
Hypothesis Q_choice : forall j a b, Q j (SChoice a b) -> Q j a /\ Q j b.
Hypothesis Q_child : forall j n j' s, Q j (SChild n (Ok j') s) -> Q j' s.

Notation ritems := (ritems P Q).
Notation rblock := (rblock P Q).
Notation okpart := (okpart P Q).
Notation allf := (allf P).

Variable w : N.
Notation stepF := (stepF P Q w).

(** The printer stands for the ghost blocks [gp] (previous line first) and [gn]
    (next line first). *)
Record rp (p : printer) (gp gn : list gblock) : Prop := {
  rp_w : pr_width p = w;
  rp_prev : Forall2 rblock (pr_prev p) gp;
  rp_next : Forall2 rblock (pr_next p) gn;
  rp_heads : heads_ok None (rev gp ++ gn);
  rp_fresh : Forall fresh (tl gn)
}.

Definition vall (gp gn : list gblock) : option (list event) := vblocks w (rev gp ++ gn).

Lemma vall_split gp g gn :
  vall gp (g :: gn) = oapp (vblocks w (rev gp)) (oapp (vblock w g) (vblocks w gn)).
Proof. unfold vall. rewrite vblocks_app. reflexivity. Qed.

Lemma set_next_eq p b bs : pr_next p = b :: bs -> push_next (set_next p bs) b = p.
Proof. destruct p; simpl; intros ->. reflexivity. Qed.

Lemma heads_ok_replace h a g g' b :
  heads_ok h (a ++ g :: b) -> g_head g' = g_head g -> heads_ok h (a ++ g' :: b).
Proof.
  destruct a as [|g1 a]; simpl; intros [H1 H2] E.
  - split; congruence.
  - split; auto. apply Forall_app in H2 as [H2 H3]. apply Forall_app. split; auto.
    inversion H3; subst. constructor; auto. unfold has_head in *. congruence.
Qed.

Lemma heads_ok_insert h a g b c :
  heads_ok h (a ++ g :: c) -> Forall has_head b -> heads_ok h (a ++ g :: b ++ c).
Proof.
  destruct a as [|g1 a]; simpl; intros [H1 H2] Hb.
  - split; auto. apply Forall_app. auto.
  - split; auto. apply Forall_app in H2 as [H2 H3]. apply Forall_app. split; auto.
    inversion H3; subst. constructor; auto. apply Forall_app. auto.
Qed.

Lemma fresh_heads gs : Forall fresh gs -> Forall has_head gs.
Proof. intros H. eapply Forall_impl; [|exact H]. intros g [Hg _]. exact Hg. Qed.

(** A step from a state whose focused block has been popped. *)
Lemma stepF_rp p b gp g gn es p' b' :
  rp (push_next p b) gp (g :: gn) -> stepF p g es (p', b') ->
  exists g' gn', rp (push_next p' b') gp (g' :: gn') /\
    vall gp (g' :: gn') = vall gp (g :: gn) /\
    g_head g' = g_head g /\ g_body g' = g_body g ++ es /\
    its_size (g_items g') + gs_size gn' < its_size (g_items g) + gs_size gn /\
    pr_prev p' = pr_prev p /\ pr_width p' = pr_width p /\
    (exists gnb, gn' = gnb ++ gn /\ Forall fresh gnb /\
       (forall ex j s its, g_items g = map GE ex ++ GI j s :: its ->
          exists X, g_items g' ++ gitems gnb = X ++ its /\ grown j s X)).
Proof.
  intros [Hw Hp Hn Hh Hf] (g' & nbs & gnb & Ep & Hb' & Hnb & Hfr & Hh' & Hbd & Hv & Hz & Hgr).
  simpl in *. subst p'.
  inversion Hn as [|? ? ? ? Hb Hn' Eq1 Eq2]; subst.
  exists g', (gnb ++ gn). split.
  - constructor; simpl; auto.
    + constructor; auto. apply Forall2_app; auto.
    + apply heads_ok_insert; [|apply fresh_heads; auto].
      eapply heads_ok_replace; eauto.
    + apply Forall_app. auto.
  - split.
    + rewrite !vall_split. rewrite vblocks_app. rewrite (oapp_assoc (vblock w g')), Hv. reflexivity.
    + repeat (split; [solve [auto]|]). split; [rewrite gs_size_app; lia|].
      split; [reflexivity|]. split; [reflexivity|]. eauto.
Qed.

Lemma vall_fail gp g gn : vblock w g = None -> vall gp (g :: gn) = None.
Proof. intros H. rewrite vall_split, H. destruct (vblocks w (rev gp)); reflexivity. Qed.

(** ** Advancing *)

Definition complete (g : gblock) : Prop :=
  g_items g = [] /\ exists p, prun pos0 (g_done g) = Some p.

Lemma vblock_complete g : complete g -> vblock w g = Some (g_done g).
Proof. intros [Hi [p Hp]]. unfold vblock. rewrite Hi. eapply vfront_nil; eauto. Qed.

Lemma vblocks_complete gs : Forall complete gs -> vblocks w gs = Some (concat (map g_done gs)).
Proof.
  induction 1; cbn [vblocks map concat]; [reflexivity|].
  rewrite vblock_complete, IHForall by auto. reflexivity.
Qed.

(** From block [g] after [gp], the focus moved over the events [mid], reaching
    block [g'] after [gp']. *)
Definition adv (gp : list gblock) (g : gblock) (gp' : list gblock) (g' : gblock) (mid : list event) : Prop :=
  exists nd, gp' = nd ++ gp /\ Forall complete nd /\
    concat (map g_done (rev nd)) ++ g_done g' = g_done g ++ mid.

Lemma adv_refl gp g g' mid :
  g_head g' = g_head g -> g_body g' = g_body g ++ mid -> adv gp g gp g' mid.
Proof.
  intros Hh Hb. exists []. repeat split; auto. simpl. unfold g_done.
  rewrite Hh, Hb, app_assoc. reflexivity.
Qed.

Lemma adv_trans gp g gp' g' m gp'' g'' m' :
  adv gp g gp' g' m -> adv gp' g' gp'' g'' m' -> adv gp g gp'' g'' (m ++ m').
Proof.
  intros (nd & -> & Hc & E) (nd' & -> & Hc' & E').
  exists (nd' ++ nd). split; [apply app_assoc|]. split; [apply Forall_app; auto|].
  rewrite rev_app_distr, map_app, concat_app, <- app_assoc, E', app_assoc, E, app_assoc. reflexivity.
Qed.

Lemma adv_block gp g g' ind :
  complete g -> g_head g' = Some ind -> g_body g' = [] ->
  adv gp g (g :: gp) g' [ENewline ind].
Proof.
  intros Hc Hh Hb. exists [g]. split; [reflexivity|]. split; [auto|].
  simpl. rewrite app_nil_r. unfold g_done at 2. rewrite Hh, Hb. reflexivity.
Qed.

(** What the printer has before its focus. *)
Lemma adv_before gp g gp' g' mid : adv gp g gp' g' mid ->
  oapp (vblocks w (rev gp')) (Some (g_done g')) =
  oapp (vblocks w (rev gp)) (Some (g_done g ++ mid)).
Proof.
  intros (nd & -> & Hc & E).
  rewrite rev_app_distr, vblocks_app, <- oapp_assoc.
  rewrite (@vblocks_complete (rev nd)) by (apply Forall_rev; auto).
  simpl. rewrite E. reflexivity.
Qed.

(** ** seek_start *)

Lemma seek_start_spec p c j s gp g gn :
  rp p gp (g :: gn) -> cden c j s -> okpart j s ->
  exists r, ev (fun n => seek_start n p c) r /\
    match r with
    | Ok p' => exists g' gn', rp p' gp (g' :: gn') /\
        g_head g' = g_head g /\ g_body g' = g_body g /\
        vall gp (g' :: gn') = vall gp (set_items g (GI j s :: g_items g) :: gn) /\
        exists X, gitems (g' :: gn') = X ++ gitems (g :: gn) /\ Forall (tagged j) X
    | Fail f => P f /\ vall gp (set_items g (GI j s :: g_items g) :: gn) = None
    end.
Proof.
  intros [Hw Hp Hn Hh Hf] Hc Ho.
  inversion Hn as [|b ? bs ? Hb Hn' Eq1 Eq2]; subst.
  symmetry in Eq1.
  destruct (expand_first_spec P_ovf Q_concat w (set_next p bs) b Hc Ho (rb_items Hb)) as (r & Hev & Hr).
  destruct r as [[p' b']|f].
  - destruct Hr as (its' & cs' & nbs & gnb & -> & -> & Hi & Hnb & Hfr & Hv & Hz & X & HX1 & HX2).
    exists (Ok (push_next (set_next (set_next p bs) (nbs ++ bs)) (set_chunks b cs'))). split.
    { unfold seek_start. rewrite Eq1.
      eapply (ev_bind_ok (fun n x => match x with (p, b) => _ end)); [exact Hev|]. ev_now. }
    exists (set_items g its'), (gnb ++ gn). split.
    + constructor; simpl; auto.
      * constructor; [apply rblock_items; auto|]. apply Forall2_app; auto.
      * apply heads_ok_insert; [|apply fresh_heads; auto].
        eapply heads_ok_replace; eauto.
      * apply Forall_app; auto.
    + split; [reflexivity|]. split; [reflexivity|].
      rewrite !vall_split. rewrite vblocks_app, (oapp_assoc (vblock w _) (vblocks w gnb)).
      unfold vblock at 1 2. simpl g_items.
      change (g_done (set_items g its')) with (g_done g).
      change (g_done (set_items g (GI j s :: g_items g))) with (g_done g).
      rewrite Hv. split; [reflexivity|]. exists X. split; [|exact HX2].
      change (its' ++ gitems (gnb ++ gn) = X ++ g_items g ++ gitems gn).
      rewrite gitems_app, !app_assoc, HX1. reflexivity.
  - exists (Fail f). split.
    { unfold seek_start. rewrite Eq1.
      apply (ev_bind_fail (fun n x => match x with (p, b) => _ end)). exact Hev. }
    destruct Hr as [HP HV]. split; auto. apply vall_fail. apply HV.
Qed.

(** ** A generic forward walk, for seek_mark and seek_text *)

Section Walk.
Variable body : nat -> printer * block -> pres (step (printer * block) (printer + printer * block)).
Variable outer : nat -> printer -> pres (step printer printer).
Variable stop : chunk -> bool.
Variable stopev : event -> bool.
Variable err : failure (perr Er).
Hypothesis body_nil : forall n p b, bl_chunks b = [] -> body n (p, b) = Ok (Done (inr (p, b))).
Hypothesis body_go : forall n p b c cs, bl_chunks b = c :: cs -> stop c = false ->
  body n (p, b) = match print_next_body n (p, b) with
                  | Ok (Next s) => Ok (Next s)
                  | Ok (Done _) => Panic PUnexpandedChunk
                  | Fail f => Fail f
                  end.
Hypothesis outer_nil : forall n p, pr_next p = [] -> outer n p = Fail err.
Hypothesis outer_cons : forall n p b bs, pr_next p = b :: bs ->
  outer n p = (r <- loop n (body n) (set_next p bs, b) ;;
               match r with
               | inl p' => Ok (Done p')
               | inr (p', b') => Ok (Next (push_prev p' b'))
               end).
Hypothesis stop_ev : forall c, stop c = false -> existsb stopev (cev c) = false.
Hypothesis stop_exit : forall j n, stopev (EExit j n) = false.
Hypothesis stop_newline : forall ind, stopev (ENewline ind) = false.

Lemma exits_nostop es : exits es -> existsb stopev es = false.
Proof.
  unfold exits. induction es as [|[] es IH]; simpl; intros H; try discriminate; auto.
  rewrite stop_exit. auto.
Qed.

(** Where the walk stops. *)
Definition stopped (gp0 : list gblock) (g0 : gblock) (v : option (list event))
    (p : printer) (b : block) (c : chunk) (cs : list chunk)
    (gp : list gblock) (g : gblock) (gn : list gblock) (mid : list event) : Prop :=
  rp (push_next p b) gp (g :: gn) /\ bl_chunks b = c :: cs /\ stop c = true /\
  vall gp (g :: gn) = v /\ adv gp0 g0 gp g mid /\ existsb stopev mid = false.

Lemma walk_inner : forall m p b gp g gn,
  its_size (g_items g) + gs_size gn <= m ->
  rp (push_next p b) gp (g :: gn) ->
  (exists p' b' c cs g' gn' mid,
     stopped gp g (vall gp (g :: gn)) p' b' c cs gp g' gn' mid /\
     (forall r, loops body (p', b') r -> loops body (p, b) r)) \/
  (exists p' b' g' gn' mid,
     loops body (p, b) (Ok (inr (p', b'))) /\
     rp (push_next p' b') gp (g' :: gn') /\ complete g' /\ rblock b' g' /\
     vall gp (g' :: gn') = vall gp (g :: gn) /\ adv gp g gp g' mid /\ existsb stopev mid = false /\
     its_size (g_items g') + gs_size gn' <= its_size (g_items g) + gs_size gn) \/
  (exists f, loops body (p, b) (Fail f) /\ P f /\ vall gp (g :: gn) = None).
Proof.
  induction m as [m IH] using lt_wf_ind.
  intros p b gp g gn Hm Hrp.
  assert (Hb : rblock b g) by (destruct Hrp as [_ _ Hn _ _]; inversion Hn; auto).
  destruct (bl_chunks b) as [|c cs] eqn:Ec.
  - right; left.
    destruct (doneF_nil w p Hb Ec) as (ex & Hex & g' & nbs & gnb & Hp' & Hb' & Hnb & Hfr & Hh & Hbd & Hi & Hc & Hv & Hz).
    simpl in *.
    assert (nbs = []).
    { destruct p as [pw pp pn]. unfold set_next in Hp'. simpl in Hp'. injection Hp' as E.
      apply (f_equal (@length _)) in E. rewrite app_length in E. destruct nbs; simpl in *; auto; lia. }
    subst nbs. inversion Hnb; subst. simpl in Hv.
    rewrite app_nil_r in Hv.
    assert (Hcomp : complete g').
    { split; auto. eexists. apply Hb'. }
    exists p, b, g', gn, ex. split.
    { apply loops_done. exists 0. intros. apply body_nil. auto. }
    split.
    { destruct Hrp as [H1 H2 H3 H4 H5]. constructor; simpl in *; auto.
      - inversion H3; subst. constructor; auto.
      - eapply heads_ok_replace; eauto. }
    split; [auto|]. split; [auto|]. split.
    { rewrite !vall_split, <- Hv, (vblock_complete Hcomp). reflexivity. }
    split; [apply adv_refl; auto|]. split; [apply exits_nostop; auto|].
    rewrite Hi. simpl. lia.
  - destruct (stop c) eqn:Es.
    + left. exists p, b, c, cs, g, gn, []. split; auto.
      repeat split; auto; try apply Hrp. apply adv_refl; auto. rewrite app_nil_r. reflexivity.
    + assert (Hw : pr_width p = w) by apply Hrp.
      destruct (next_step P_eol P_ovf Q_concat Q_choice Q_child p Hb Ec Hw) as (r & Hev & Hr).
      destruct r as [[[p' b']|]|f]; [|contradiction|].
      * destruct Hr as (ex & [Hex _] & Hst).
        destruct (stepF_rp Hrp Hst) as (g' & gn' & Hrp' & Hv & Hh & Hbd & Hz & Hpp & Hpw & _).
        assert (Hadv : adv gp g gp g' (ex ++ cev c)) by (apply adv_refl; auto).
        assert (Hns : existsb stopev (ex ++ cev c) = false).
        { rewrite existsb_app, exits_nostop, stop_ev; auto. }
        assert (Hnext : forall r, loops body (p', b') r -> loops body (p, b) r).
        { intros r Hl. eapply loops_next; [|exact Hl].
          destruct Hev as [N Hev]. exists N. intros n Hn. rewrite (@body_go n p b c cs); auto.
          rewrite Hev by auto. reflexivity. }
        destruct (IH (its_size (g_items g') + gs_size gn')) with (p := p') (b := b') (gp := gp) (g := g') (gn := gn')
          as [H|[H|H]]; auto; try lia.
        -- left. destruct H as (p2 & b2 & c2 & cs2 & g2 & gn2 & mid & (H1 & H2 & H3 & H4 & H5 & H6) & Hl).
           exists p2, b2, c2, cs2, g2, gn2, ((ex ++ cev c) ++ mid).
           split; [|intros; auto]. repeat split; auto; try apply H1.
           ++ congruence.
           ++ eapply adv_trans; eauto.
           ++ rewrite existsb_app, Hns, H6. reflexivity.
        -- right; left. destruct H as (p2 & b2 & g2 & gn2 & mid & H1 & H2 & H3 & H4 & H5 & H6 & H7 & H8).
           exists p2, b2, g2, gn2, ((ex ++ cev c) ++ mid).
           split; [apply Hnext; auto|]. split; [auto|]. split; [auto|]. split; [auto|].
           split; [congruence|]. split; [eapply adv_trans; eauto|].
           split; [rewrite existsb_app, Hns, H7; reflexivity|]. lia.
        -- right; right. destruct H as (f & H1 & H2 & H3). exists f.
           split; [apply Hnext; auto|]. split; [auto|]. congruence.
      * right; right. exists f. destruct Hr as [HP HV]. split.
        { apply loops_fail. destruct Hev as [N Hev]. exists N. intros n Hn.
          rewrite (@body_go n p b c cs); auto. rewrite Hev by auto. reflexivity. }
        split; auto. apply vall_fail. auto.
Qed.

Lemma walk_outer : forall m p gp g gn,
  its_size (g_items g) + gs_size gn <= m ->
  rp p gp (g :: gn) ->
  (exists p' b' c cs gp' g' gn' mid,
     stopped gp g (vall gp (g :: gn)) p' b' c cs gp' g' gn' mid /\
     (forall r, loops body (p', b') (Ok (inl r)) -> loops outer p (Ok r)) /\
     (forall f, loops body (p', b') (Fail f) -> loops outer p (Fail f))) \/
  (exists mid, loops outer p (Fail err) /\
     vall gp (g :: gn) = oapp (vblocks w (rev gp)) (Some (g_done g ++ mid)) /\
     existsb stopev mid = false) \/
  (exists f, loops outer p (Fail f) /\ P f /\ vall gp (g :: gn) = None).
Proof.
  induction m as [m IH] using lt_wf_ind.
  intros p gp g gn Hm Hrp.
  assert (Hn := rp_next Hrp). inversion Hn as [|b ? bs ? Hb Hn' Eq1 Eq2]; subst. symmetry in Eq1.
  assert (Ep : push_next (set_next p bs) b = p) by (apply set_next_eq; auto).
  destruct (@walk_inner m (set_next p bs) b gp g gn) as [H|[H|H]]; auto.
  { rewrite Ep. auto. }
  - left. destruct H as (p2 & b2 & c2 & cs2 & g2 & gn2 & mid & H & Hl).
    exists p2, b2, c2, cs2, gp, g2, gn2, mid. split; [exact H|]. split.
    + intros r Hr. apply Hl in Hr. apply loops_done.
      apply loops_ev in Hr. eapply ev_ext; [intros n; symmetry; apply (@outer_cons n p b bs Eq1)|].
      eapply (ev_bind_ok (fun n r => match r with inl p' => Ok (Done p') | inr (p', b') => Ok (Next (push_prev p' b')) end));
        [exact Hr|]. ev_now.
    + intros f Hr. apply Hl in Hr. apply loops_fail.
      apply loops_ev in Hr. eapply ev_ext; [intros n; symmetry; apply (@outer_cons n p b bs Eq1)|].
      apply (ev_bind_fail (fun n r => match r with inl p' => Ok (Done p') | inr (p', b') => Ok (Next (push_prev p' b')) end)).
      exact Hr.
  - destruct H as (p' & b' & g' & gn' & mid & Hl & Hrp' & Hc & Hb' & Hv & Hadv & Hns & Hz).
    assert (Hnext : ev (fun n => outer n p) (Ok (Next (push_prev p' b')))).
    { apply loops_ev in Hl. eapply ev_ext; [intros n; symmetry; apply (@outer_cons n p b bs Eq1)|].
      eapply (ev_bind_ok (fun n r => match r with inl p' => Ok (Done p') | inr (p', b') => Ok (Next (push_prev p' b')) end));
        [exact Hl|]. ev_now. }
    destruct gn' as [|g2 gn2].
    + right; left. exists mid. split.
      { eapply loops_next; [exact Hnext|]. apply loops_fail. exists 0. intros n _.
        apply outer_nil. destruct Hrp' as [_ _ H3 _ _]. simpl in *. inversion H3 as [|? ? ? ? ? H4]; subst.
        inversion H4. reflexivity. }
      split; auto. rewrite <- Hv. rewrite vall_split, (vblock_complete Hc).
      cbn [vblocks]. rewrite oapp_nil_r. apply adv_before. auto.
    + assert (Hf2 : fresh g2).
      { destruct Hrp' as [_ _ _ _ H5]. simpl in H5. inversion H5; auto. }
      destruct Hf2 as [Hh2 Hbd2]. unfold has_head in Hh2.
      destruct (g_head g2) as [ind|] eqn:Eh; [|congruence].
      assert (Hadv2 : adv gp g (g' :: gp) g2 (mid ++ [ENewline ind])).
      { eapply adv_trans; [exact Hadv|]. apply adv_block; auto. }
      assert (Hns2 : existsb stopev (mid ++ [ENewline ind]) = false).
      { rewrite existsb_app, Hns. simpl. rewrite stop_newline. reflexivity. }
      assert (Hrp2 : rp (push_prev p' b') (g' :: gp) (g2 :: gn2)).
      { destruct Hrp' as [H1 H2 H3 H4 H5]. simpl in *. inversion H3 as [|? ? ? ? Hx1 Hx2]; subst.
        inversion Hx2 as [|? ? ? ? Hx3 Hx4]; subst.
        constructor; simpl; auto.
        - rewrite <- app_assoc. auto.
        - inversion H5; auto. }
      assert (Hv2 : vall (g' :: gp) (g2 :: gn2) = vall gp (g :: gn)).
      { rewrite <- Hv. unfold vall. simpl. rewrite <- app_assoc. reflexivity. }
      destruct (IH (its_size (g_items g2) + gs_size gn2)) with (p := push_prev p' b') (gp := g' :: gp)
        (g := g2) (gn := gn2) as [H|[H|H]]; auto.
      { destruct Hc as [Hci _]. rewrite Hci in Hz. simpl in Hz. lia. }
      * left. destruct H as (p3 & b3 & c3 & cs3 & gp3 & g3 & gn3 & mid3 & (H1 & H2 & H3 & H4 & H5 & H6) & Hl1 & Hl2).
        exists p3, b3, c3, cs3, gp3, g3, gn3, ((mid ++ [ENewline ind]) ++ mid3).
        split.
        { repeat split; auto; try apply H1.
          - congruence.
          - eapply adv_trans; eauto.
          - rewrite existsb_app, Hns2, H6. reflexivity. }
        split; intros r Hr; (eapply loops_next; [exact Hnext|]); auto.
      * right; left. destruct H as (mid3 & H1 & H2 & H3).
        exists ((mid ++ [ENewline ind]) ++ mid3). split; [eapply loops_next; eauto|].
        split; [|rewrite existsb_app, Hns2, H3; reflexivity].
        rewrite <- Hv2, H2.
        transitivity (oapp (oapp (vblocks w (rev (g' :: gp))) (Some (g_done g2))) (Some mid3)).
        { rewrite <- oapp_assoc. reflexivity. }
        rewrite (adv_before Hadv2), <- oapp_assoc. simpl. rewrite <- !app_assoc. reflexivity.
      * right; right. destruct H as (f & H1 & H2 & H3). exists f.
        split; [eapply loops_next; eauto|]. split; [auto|]. congruence.
  - right; right. destruct H as (f & Hl & HP & HV). exists f. split; auto.
    apply loops_fail. apply loops_ev in Hl.
    eapply ev_ext; [intros n; symmetry; apply (@outer_cons n p b bs Eq1)|].
    apply (ev_bind_fail (fun n r => match r with inl p' => Ok (Done p') | inr (p', b') => Ok (Next (push_prev p' b')) end)).
    exact Hl.
Qed.

End Walk.

(** ** seek_mark *)

Definition is_mark (id : Id) (e : event) : bool :=
  match e with EMark j => id_eqb j id | _ => false end.

Lemma seek_mark_spec p c j s gp g gn :
  rp p gp (g :: gn) -> cden c j s -> okpart j s ->
  let v := vall gp (set_items g (GI j s :: g_items g) :: gn) in
  exists r, ev (fun n => seek_mark n p c) r /\
    match r with
    | Ok p' => exists gp' g' gn' mid, rp p' gp' (g' :: gn') /\
        adv gp g gp' g' (mid ++ [EMark j]) /\ ~ In (EMark j) mid /\
        vall gp' (g' :: gn') = v
    | Fail f => (P f /\ v = None) \/
        (f = FErr MissingFocusMark /\ exists mid,
           v = oapp (vblocks w (rev gp)) (Some (g_done g ++ mid)) /\ ~ In (EMark j) mid)
    end.
Proof.
  intros Hrp Hc Ho v.
  assert (Hnm : forall mid, existsb (is_mark j) mid = false -> ~ In (EMark j) mid).
  { intros mid H Hin.
    assert (existsb (is_mark j) mid = true); [|congruence].
    apply existsb_exists. exists (EMark j). split; auto. simpl. apply id_eqb_spec. reflexivity. }
  destruct (seek_start_spec Hrp Hc Ho) as (r & Hev & Hr).
  assert (Heq : forall n, seek_mark n p c =
    (p' <- seek_start n p c ;; loop n (seek_mark_outer n (ck_id c)) p')).
  { intros n. unfold seek_mark, seek_start. destruct (pr_next p); [reflexivity|].
    destruct (expand_first n (set_next p l) b c) as [[]|]; reflexivity. }
  destruct r as [p1|f].
  2: { exists (Fail f). split.
       - eapply ev_ext; [intros; symmetry; apply Heq|].
         apply (ev_bind_fail (fun n p' => loop n (seek_mark_outer n (ck_id c)) p')). exact Hev.
       - left. exact Hr. }
  destruct Hr as (g1 & gn1 & Hrp1 & Hh1 & Hbd1 & Hv1 & _).
  assert (Hadv0 : adv gp g gp g1 []).
  { apply adv_refl; auto. rewrite app_nil_r. auto. }
  destruct Hc as [Hcid Hcd].
  assert (Hgo : forall r, loops (fun n => seek_mark_outer n (ck_id c)) p1 r -> ev (fun n => seek_mark n p c) r).
  { intros r Hl. eapply ev_ext; [intros; symmetry; apply Heq|].
    eapply (ev_bind_ok (fun n p' => loop n (seek_mark_outer n (ck_id c)) p')); [exact Hev|].
    apply loops_ev in Hl. exact Hl. }
  destruct (@walk_outer (fun n => seek_mark_body n (ck_id c)) (fun n => seek_mark_outer n (ck_id c))
    (fun x => match ck_note x with CFocusMark => id_eqb (ck_id x) (ck_id c) | _ => false end)
    (is_mark (ck_id c)) (FErr MissingFocusMark)) with (m := its_size (g_items g1) + gs_size gn1)
    (p := p1) (gp := gp) (g := g1) (gn := gn1) as [H|[H|H]]; auto.
  - intros n q b Hb. unfold seek_mark_body. rewrite Hb. reflexivity.
  - intros n q b x cs Hb Hs. unfold seek_mark_body, print_next_body. rewrite Hb.
    destruct (ck_note x); try reflexivity.
    + destruct (push_text _ _); reflexivity.
    + destruct (choose _ _ _ _ _); [|reflexivity]. simpl. destruct (expand_first _ _ _ _); reflexivity.
    + destruct (chunk_new _); [|reflexivity]. simpl. destruct (expand_first _ _ _ _); reflexivity.
    + rewrite Hs. reflexivity.
  - intros n q Hq. unfold seek_mark_outer. rewrite Hq. reflexivity.
  - intros n q b bs Hq. unfold seek_mark_outer. rewrite Hq. reflexivity.
  - intros x Hx. unfold cev. destruct (ck_note x); simpl; auto. rewrite Hx. reflexivity.
  - destruct H as (p' & b' & x & cs & gp' & g' & gn' & mid & (Hrp' & Hb' & Hstop & Hv & Hadv & Hns) & Hok & _).
    assert (Hb : rblock b' g') by (destruct Hrp' as [_ _ H3 _ _]; inversion H3; auto).
    assert (Hi := rb_items Hb). rewrite Hb' in Hi.
    apply ritems_cons in Hi as (ex & j2 & s2 & its & Hex & Hi & [Hxi Hxd] & Ho2 & Hx2 & Hits).
    destruct (ck_note x) eqn:En; try discriminate.
    destruct s2; try contradiction.
    apply id_eqb_spec in Hstop.
    assert (Ej : j2 = j) by congruence. rewrite Ej in *. clear Ej j2.
    set (g0 := add_ev g' ex (GI j SMark :: its)).
    assert (Hb0 : rblock b' g0).
    { refine (rblock_exits Hb Hex Hi _). rewrite Hb'. constructor; auto. split; auto. rewrite En. auto. }
    exists (Ok (push_next p' (set_chunks b' cs))). split.
    { apply Hgo, Hok, loops_done. exists 0. intros n _. unfold seek_mark_body. rewrite Hb', En.
      replace (id_eqb (ck_id x) (ck_id c)) with true; [reflexivity|].
      symmetry. apply id_eqb_spec. auto. }
    exists gp', (add_ev g0 [EMark j] its), gn', (mid ++ ex). split.
    { destruct Hrp' as [H1 H2 H3 H4 H5]. constructor; simpl; auto.
      - constructor.
        + apply rblock_silent; auto.
        + inversion H3; auto.
      - eapply heads_ok_replace; eauto. }
    split.
    { rewrite <- app_assoc. eapply (adv_trans (m := [])); [exact Hadv0|].
      eapply adv_trans; [exact Hadv|].
      apply adv_refl; [reflexivity|]. simpl. rewrite <- app_assoc. reflexivity. }
    split.
    { apply Hnm. rewrite existsb_app. rewrite <- Hcid, Hns. simpl.
      apply exits_nostop; auto. }
    unfold v. rewrite <- Hv1, <- Hv, !vall_split. f_equal. f_equal.
    rewrite <- (vblock_exits w _ _ _ Hi). fold g0.
    unfold vblock. rewrite g_done_add. simpl g_items. rewrite vfront_mark. reflexivity.
  - destruct H as (mid & Hl & Hv & Hns).
    exists (Fail (FErr MissingFocusMark)). split; [apply Hgo; auto|]. right. split; auto.
    exists mid. split; [|apply Hnm; rewrite <- Hcid; auto].
    unfold v. rewrite <- Hv1, Hv. f_equal. f_equal.
    unfold g_done. rewrite Hh1, Hbd1. reflexivity.
  - destruct H as (f & Hl & HP & HV). exists (Fail f). split; [apply Hgo; auto|]. left.
    split; auto. unfold v. rewrite <- Hv1. auto.
Qed.

End Seek.
