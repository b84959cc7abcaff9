(** Seeking a path and a focus in documents with holes. *)
From Verif Require Export PPeek5 PFinal.
From Verif Require Import SpecMask.

Set Implicit Arguments.

Section PPeek6.
Context {pd : PrettyDoc} {env : Env} {ideq : IdEq pd}.

Variable Q : Id -> shape -> Prop.
Hypothesis Q_concat : forall j a b, Q j (SConcat a b) -> Q j a /\ Q j b.
Hypothesis Q_choice : forall j a b, Q j (SChoice a b) -> Q j a /\ Q j b.
Hypothesis Q_child : forall j n j' s, Q j (SChild n (Ok j') s) -> Q j' s.
Variable w : N.

Notation prblock := (prblock Q).
Notation vbs := (vbs w).
Notation vb := (vb w).
Notation prp := (prp Q w).

Variable ids : list nat -> option Id.
Hypothesis ids_inj : forall q q' j, ids q = Some j -> ids q' = Some j -> q = q'.

(** The content of the node that is being looked for. *)
Definition content (g : gblock) (j : Id) (s : shape) : list pev :=
  fst (peek w s j (fits_its (g_items g) look_end) (pprun (Some pos0) (map Ev (g_done g)))).

Definition rest_of (g : gblock) (j : Id) (s : shape) (gn : list gblock) : list pev :=
  peek_its w (g_items g) look_end (pprun (Some pos0) (map Ev (g_done g) ++ content g j s)) ++ vbs gn.

Lemma content_split gp g gn j s :
  vbs (rev gp ++ set_items g (GI j s :: g_items g) :: gn) =
  (vbs (rev gp) ++ map Ev (g_done g)) ++ content g j s ++ rest_of g j s gn.
Proof.
  rewrite vbs_app. cbn [PPeek1.vbs flat_map]. unfold PPeek1.vb at 1, vf.
  change (g_done (set_items g (GI j s :: g_items g))) with (g_done g). cbn [g_items set_items].
  rewrite vp_one. unfold vp, rest_of, content. rewrite <- !app_assoc. reflexivity.
Qed.

Record pat (q : list nat) (p : printer) (c : chunk) (gp : list gblock) (g : gblock) (gn : list gblock)
    (j : Id) (s : shape) (omk : option event) : Prop := {
  pat_rp : prp p gp (g :: gn);
  pat_c : pcden c j s;
  pat_Q : Q j s;
  pat_o : opens s = true;
  pat_id : ids q = Some j;
  pat_lab : plab ids q s;
  pat_mk : forall e, omk = Some e -> exists pp n, e = EExit pp n /\ forall j s, ownR ids q j s -> j <> pp;
  pat_out : is_outer omk (g_items g ++ flat gn)
}.

Lemma first_cut (x : pev) a b c d : a ++ x :: b = c ++ x :: d -> ~ In x a -> ~ In x c -> a = c /\ b = d.
Proof.
  revert c; induction a as [|y a IH]; intros c E Ha Hc.
  - destruct c as [|z c]; simpl in E; [injection E as <-; auto|].
    injection E as <- E. elim Hc. left; reflexivity.
  - destruct c as [|z c]; simpl in E.
    + injection E as -> E. elim Ha. left; reflexivity.
    + injection E as <- E. destruct (IH _ E) as [-> ->]; auto.
      * intro; apply Ha; right; auto.
      * intro; apply Hc; right; auto.
Qed.

Lemma pseek_path : forall path q p c gp g gn j s omk l b c0 a,
  pat q p c gp g gn j s omk -> l = content g j s ->
  leads ids q l path b c0 a ->
  exists p' c' gp' g' gn' j' s' omk',
    ev (fun n => seek_path n p c path) (Ok (p', c')) /\
    pat (q ++ path) p' c' gp' g' gn' j' s' omk' /\ c0 = content g' j' s' /\
    vbs (rev gp') ++ map Ev (g_done g') = (vbs (rev gp) ++ map Ev (g_done g)) ++ b /\
    rest_of g' j' s' gn' = a ++ rest_of g j s gn.
Proof.
  induction path as [|i path IH]; intros q p c gp g gn j s omk l b c0 a An El Hl.
  - inversion Hl; subst. exists p, c, gp, g, gn, j, s, omk. split; [ev_now|].
    rewrite !app_nil_r. auto.
  - inversion Hl as [|? ? j0 ? m c1 r ? b1 ? a1 Hj E H1 H2 H3 H4 Hl' E1 E2 E3 E4 E5 E6]. subst q0 i0 path0.
    assert (j0 = j). { destruct An. congruence. } subst j0. clear Hj. clear E5. subst b a.
    destruct An as [Hrp Hc HQ Ho Hid Hlab Hmk Hout].
    assert (Hfree : free j i omk m).
    { intros e He [[->|[->| ->]]|(x & Hx & ->)]; auto.
      assert (Hno : ~ In (Ev x) l).
      { rewrite El. unfold content. 
        apply (@content_no_mk _ _ w ids q omk Hmk s j [] (fits_its (g_items g) look_end) _ x Hx);
          rewrite app_nil_r; auto. }
      apply Hno. rewrite E. apply in_or_app. auto. }
    assert (HV := content_split gp g gn j s). rewrite <- El, E in HV.
    rewrite <- (app_assoc m) in HV. cbn [app] in HV. rewrite <- (app_assoc c1) in HV. cbn [app] in HV.
    destruct (@pseek_child _ _ _ Q Q_concat Q_choice Q_child w ids ids_inj p c j s i q omk gp g gn _ _ _
      Hrp Hc HQ Ho Hid Hlab Hmk Hout eq_refl Hfree HV)
      as (p1 & d & c2 & gp1 & g1 & gn1 & j1 & s1 & Hev & (Hrp1 & _ & _ & HQ1 & Ho1 & (its1 & Hi1) & HB1 & HV1 & Hid1 & Hlab1) & Hc1).
    assert (Hown : forall e, Some (EExit j i) = Some e -> exists pp n, e = EExit pp n /\ forall j s, ownR ids (q ++ [i]) j s -> j <> pp).
    { intros e [= <-]. exists j, i. split; auto. intros j2 s2 (r2 & Hr2 & _) ->.
      pose proof (ids_inj Hid Hr2) as Eq. apply (f_equal (@length _)) in Eq. rewrite !app_length in Eq. simpl in Eq. lia. }
    assert (An1 : pat (q ++ [i]) p1 c2 gp1 g1 gn1 j1 s1 (Some (EExit j i))).
    { constructor; auto. rewrite Hi1. simpl. eauto. }
    assert (Hno1 : ~ In (Ev (EExit j i)) (content g1 j1 s1)).
    { unfold content. 
      apply (@content_no_mk _ _ w ids (q ++ [i]) (Some (EExit j i)) Hown s1 j1 [] (fits_its (g_items g1) look_end) _ _ eq_refl);
        rewrite app_nil_r; auto. }
    rewrite content_split, HB1 in HV1. rewrite <- !app_assoc in HV1. do 3 apply app_inv_head in HV1. cbn [app] in HV1. injection HV1 as HV1.
    unfold rest_of at 1 in HV1. rewrite Hi1 in HV1. cbn [peek_its] in HV1.
    change ((?x :: ?y) ++ ?z) with (x :: y ++ z) in HV1.
    destruct (@first_cut _ _ _ _ _ HV1 Hno1 H4) as [Ec1 Er1]. symmetry in Ec1.
    destruct (IH _ _ _ _ _ _ _ _ _ _ _ _ _ An1 Ec1 Hl')
      as (p' & c9 & gp' & g' & gn' & j' & s' & omk' & Hev' & An' & Ec' & HB' & HR').
    exists p', c9, gp', g', gn', j', s', omk'. split.
    { cbn [seek_path]. eapply (ev_bind_ok (fun n y => match y with (p, c) => seek_path n p c path end)); [exact Hev|exact Hev']. }
    split. { rewrite <- app_assoc in An'. exact An'. }
    split; [exact Ec'|]. split.
    { rewrite HB', HB1, <- !app_assoc. reflexivity. }
    rewrite HR'. unfold rest_of at 1. rewrite Hi1. cbn [peek_its].
    rewrite <- app_assoc. f_equal. cbn [app]. f_equal. exact Er1.
Qed.

(** ** The focus *)

Definition pre_of (ft : focus_target) (b c : list pev) : list pev := match ft with FStart => b | _ => b ++ c end.
Definition post_of (ft : focus_target) (c a : list pev) : list pev := match ft with FStart => c ++ a | _ => a end.

Lemma pfocus q p c gp g gn j s omk ft ku kd ups downs l r :
  pat q p c gp g gn j s omk -> ft = FStart \/ ft = FEnd ->
  above (pre_of ft (vbs (rev gp) ++ map Ev (g_done g)) (content g j s)) ku ups l ->
  below (post_of ft (content g j s) (rest_of g j s gn)) kd r downs ->
  exists p2, ev (fun n => focus_of n p c ft) (Ok p2) /\
  exists up down,
    ev (fun n => pp_tail n w p2) (Ok (up, FocusedLine l r, down)) /\
    ev (fun n => take_lines (up_next n) ku up) (Ok ups) /\
    ev (fun n => take_lines (down_next n) kd down) (Ok downs).
Proof.
  intros [Hrp Hc HQ Ho Hid Hlab Hmk Hout] [->| ->] Ha Hb; cbn [pre_of post_of] in *.
  - destruct (pseek_start Q_concat Hrp Hc HQ Ho) as (p1 & g1 & gnb & Hev & Hrp1 & Hh1 & Hb1 & Hf1 & Hv1 & _).
    exists p1. split; [exact Hev|].
    assert (Hn := prp_next Hrp1). inversion Hn as [|b g0 bs gs Hbl Hn' E1 E2]. symmetry in E1. subst g0 gs.
    assert (Ed : g_done g1 = g_done g) by (unfold g_done; rewrite Hh1, Hb1; reflexivity).
    apply (ptail Q_concat Q_choice Q_child Hrp1 E1).
    + rewrite Ed. exact Ha.
    + rewrite content_split, vbs_app in Hv1.
      change (g1 :: gnb ++ gn) with ([g1] ++ gnb ++ gn) in Hv1. rewrite (vbs_app w [g1]) in Hv1.
      cbn [PPeek1.vbs flat_map] in Hv1. rewrite (vb_tl w Hbl), app_nil_r, Ed in Hv1.
      rewrite <- !app_assoc in Hv1. do 2 apply app_inv_head in Hv1.
      change (flat_map vb (gnb ++ gn)) with (vbs (gnb ++ gn)) in Hv1. rewrite Hv1. exact Hb.
  - assert (Hn := prp_next Hrp). inversion Hn as [|b g0 bs gs Hbl Hn' E1 E2]. symmetry in E1. subst g0 gs.
    assert (Ev1 : vf w (g_done g) [GI j s] (fits_its (g_items g) look_end) = map Ev (g_done g) ++ content g j s).
    { unfold vf, vp. cbn [peek_its]. cbv zeta. rewrite app_nil_r. reflexivity. }
    destruct (@pseek_end _ _ Q Q_concat Q_choice Q_child w p b bs g c j s E1 (prp_w Hrp) Hbl Hc HQ Ho)
      as (g2 & b2 & nbs & gnb & Hev & Hb2 & Hnb & Hi2 & Hh2 & Hv2).
    { rewrite Ev1. apply above_lk in Ha. rewrite <- app_assoc in Ha. apply lk_app_r in Ha. exact Ha. }
    rewrite Ev1 in Hv2. set (p2 := Printer (pr_width p) (nbs ++ pr_prev p) (b2 :: bs)) in *.
    assert (Hrp2 : prp p2 (gnb ++ gp) (g2 :: gn)).
    { destruct Hrp as [Hw Hp Hnx Hh Hf]. constructor; simpl; auto.
      - apply Forall2_app; auto.
      - rewrite rev_app_distr, <- app_assoc. destruct (heads_ok_one _ _ _ Hh) as [Hh0 Hh3].
        change (g2 :: gn) with ([g2] ++ gn). rewrite !app_assoc. apply heads_ok_app; auto.
        rewrite <- app_assoc. eapply heads_ok_trans; eauto. }
    exists p2. split; [exact Hev|].
    apply (@ptail _ _ Q Q_concat Q_choice Q_child w p2 b2 bs (gnb ++ gp) g2 gn ku kd ups downs l r); auto.
    + rewrite rev_app_distr, vbs_app, <- app_assoc, Hv2, app_assoc. exact Ha.
    + assert (Et : tl_of w b2 g2 = peek_its w (g_items g) look_end (pprun (Some pos0) (map Ev (g_done g) ++ content g j s))).
      { unfold tl_of. rewrite Hi2, <- Hv2, pprun_app. f_equal. pose proof (pprun_prun _ _ (prb_pos Hb2)) as Ep.
        unfold pos in *. rewrite <- Ep.
        destruct gnb as [|g3 gnb]; [reflexivity|].
        assert (Hg : has_head g2).
        { simpl in Hh2. destruct (rev gnb) as [|g4 gs4]; simpl in Hh2; destruct Hh2 as [_ Hh2].
          - inversion Hh2; auto.
          - apply Forall_app in Hh2 as [_ Hh2]. inversion Hh2; auto. }
        unfold has_head in Hg. unfold g_done. destruct (g_head g2) as [ind|]; [|congruence].
        reflexivity. }
      rewrite Et. exact Hb.
Qed.

(** ** The whole call *)

Lemma pwindow doc st d0 j s path ft ku kd ups downs l r b c a :
  with_optional_style doc st = Ok d0 -> lift (m_id (dl_doc d0)) = Ok j -> pden (Ok j) s (eval d0) ->
  Q j s -> ids [] = Some j -> plab ids [] s ->
  ft = FStart \/ ft = FEnd ->
  leads ids [] (peek_doc w (Ok j, s)) path b c a -> opens s = true ->
  above (pre_of ft b c) ku ups l -> below (post_of ft c a) kd r downs ->
  ev (fun n => window n doc w path ft st ku kd) (Ok (ups, FocusedLine l r, downs)).
Proof.
  intros Ed Hid Hden HQ Hj Hlab Hft Hl Ho Ha Hb.
  assert (Heq : forall n, pretty_print n doc w path ft st =
    (p <- printer_new w ;; d <- with_optional_style doc st ;; c <- chunk_new d ;;
     y <- seek_path n p c path ;; p' <- focus_of n (fst y) (snd y) ft ;; pp_tail n w p')).
  { intros n. unfold pretty_print, seek. destruct (printer_new w) as [p|]; [|reflexivity]. cbn [bind].
    destruct (with_optional_style doc st) as [d|]; [|reflexivity]. cbn [bind].
    destruct (chunk_new d) as [c1|]; [|reflexivity]. cbn [bind].
    destruct (seek_path n p c1 path) as [[p1 c1']|]; [|reflexivity]. cbn [bind fst snd].
    unfold focus_of, pp_tail. destruct ft; reflexivity. }
  assert (Hh : head_fails s = false) by (apply opens_head; auto).
  destruct (@pchunk_new _ _ d0 j s Hid Hden Hh) as (c0 & Ec & Hc).
  set (p0 := Printer w [] [Block [] 0 false []]) in *.
  set (g0 := GBlock None [] []).
  assert (An : pat [] p0 c0 [] g0 [] j s None).
  { constructor; auto.
    - constructor; simpl; auto.
      constructor; [|constructor]. constructor; simpl; auto; try reflexivity. constructor.
    - discriminate.
    - reflexivity. }
  assert (El : peek_doc w (Ok j, s) = content g0 j s).
  { unfold peek_doc, content. rewrite Ho. reflexivity. }
  destruct (pseek_path An El Hl) as (p1 & c1 & gp & g & gn & j1 & s1 & omk & Hev & An1 & -> & HB & HR).
  cbn [rev PPeek1.vbs flat_map app] in HB. unfold g_done at 2 in HB. cbn [g_head g_body g0 map app] in HB.
  assert (HR0 : rest_of g0 j s [] = []) by reflexivity. rewrite HR0, app_nil_r in HR.
  rewrite <- HB in Ha. rewrite <- HR in Hb.
  destruct (pfocus An1 Hft Ha Hb) as (p2 & Hf & up & down & Ht & Hu & Hd).
  unfold window.
  eapply (ev_bind_ok (fun n y => match y with (up, fl, down) => _ end)).
  { eapply ev_ext; [intros; symmetry; apply Heq|].
    change (printer_new w) with (Ok (X := perr Er) p0). cbn [bind]. rewrite Ed. cbn [bind]. rewrite Ec. cbn [bind].
    eapply (ev_bind_ok (fun n y => p' <- focus_of n (fst y) (snd y) ft ;; pp_tail n w p')); [exact Hev|].
    cbn [fst snd]. eapply (ev_bind_ok (fun n p' => pp_tail n w p')); [exact Hf|]. exact Ht. }
  cbv beta iota.
  eapply (ev_bind_ok (fun n ups => downs <- take_lines (down_next n) kd down ;; Ok (ups, FocusedLine l r, downs))); [exact Hu|].
  eapply (ev_bind_ok (fun n downs => Ok (ups, FocusedLine l r, downs))); [exact Hd|]. ev_now.
Qed.

End PPeek6.
