(** The focus goes to the first display of the node: the generic statement. *)
From Verif Require Export PFirst PTop.

Set Implicit Arguments.

Section First2.
Context {pd : PrettyDoc} {env : Env} {ideq : IdEq pd}.

Variable P : failure (perr Er) -> Prop.
Hypothesis P_eol : P (FErr TextAfterEndOfLine).
Hypothesis P_ovf : ovf = true -> P (FPanic POverflow).
Variable Q : Id -> shape -> Prop.
Hypothesis Q_concat : forall j a b, Q j (SConcat a b) -> Q j a /\ Q j b.
Hypothesis Q_choice : forall j a b, Q j (SChoice a b) -> Q j a /\ Q j b.
Hypothesis Q_child : forall j n j' s, Q j (SChild n (Ok j') s) -> Q j' s.
Hypothesis Q_text : forall j t n, Q j (SText t) -> Q j (SText (snd (split_at t n))).
Variable NP : list nat -> Id -> Prop.
Hypothesis NP_child : forall q j n j' s, NP q j -> Q j (SChild n (Ok j') s) -> NP (q ++ [n]) j'.
(** Every node is at one path only. *)
Hypothesis NP_inj : forall q q' j, NP q j -> NP q' j -> q = q'.

Notation ritems := (ritems P Q).
Notation rblock := (rblock P Q).
Notation okpart := (okpart P Q).

Variable w : N.
Notation rp := (rp P Q w).
Notation vall := (vall w).
Notation end_at := (end_at NP).

(** Strictly below, and strictly above, the node at [q]. *)
Definition under (q : list nat) (k : Id) : Prop := exists x q', NP (q ++ x :: q') k.
Definition over (q : list nat) (k : Id) : Prop := exists q1 x q2, q = q1 ++ x :: q2 /\ NP q1 k.

(** From the start of the layout to the first display of the node at [q]. *)
Inductive chain : list nat -> list event -> Prop :=
| chain_root : chain [] []
| chain_child q a j m mid : chain q a -> NP q j -> Forall (evin j m (under q)) mid ->
    chain (q ++ [m]) (a ++ mid ++ [EEnter j m]).

Lemma under_not q j k : NP q j -> under q k -> k <> j.
Proof.
  intros H (x & q' & H') ->. specialize (NP_inj H H').
  apply (f_equal (@length _)) in NP_inj. rewrite app_length in NP_inj. simpl in NP_inj. lia.
Qed.
Lemma over_not q j k : NP q j -> over q k -> k <> j.
Proof.
  intros H (q1 & x & q' & -> & H') ->. specialize (NP_inj H H').
  apply (f_equal (@length _)) in NP_inj. rewrite app_length in NP_inj. simpl in NP_inj. lia.
Qed.
Lemma under_child q j k n k' s : NP q j -> k = j \/ under q k -> Q k (SChild n (Ok k') s) -> under q k'.
Proof.
  intros H [->|(x & q' & H')] HQ.
  - exists n, []. eapply NP_child; eauto.
  - exists x, (q' ++ [n]). change (q ++ x :: q' ++ [n]) with (q ++ (x :: q') ++ [n]). rewrite app_assoc.
    eapply NP_child; eauto.
Qed.

Record at_first (q : list nat) (p : printer) (c : chunk) (V : option (list event))
    (gp : list gblock) (g : gblock) (gn : list gblock) (j : Id) (s : shape) : Prop := {
  af_node : at_node P Q NP w q p c V gp g gn j s;
  af_chain : forall a, oapp (vblocks w (rev gp)) (Some (g_done g)) = Some a -> chain q a;
  af_rest : Forall (fun it => match it with GI k _ => over q k | GE _ => True end) (gitems (g :: gn))
}.

(** Child [i] of the node at [q] was looked for and not found in its first display. *)
Definition missing_first (q : list nat) (i : nat) (V : option (list event)) : Prop :=
  forall es, V = Some es ->
  exists a mid post j, es = a ++ mid ++ post /\ chain q a /\ NP q j /\
    Forall (evin j i (under q)) mid /\ end_at q post.

(** The layout, split where the rest of the items begins. *)
Lemma vfront_in its k done x : vfront w done its k = Some x ->
  exists ei p p', prun pos0 done = Some p /\ rend_its w its k p = Some (ei, p') /\ x = done ++ ei.
Proof.
  unfold vfront. intros H. apply obind_some in H as [p [H1 H]]. apply obind_some in H as [[ei p'] [H2 [= <-]]].
  eauto 10.
Qed.

Section Miss.
Variable j : Id.
Variable i : nat.
Variable q : list nat.
Hypothesis Hj : NP q j.
Notation evin := (evin j i (under q)).
Notation itS := (itS j (under q)).

Lemma items_split A (e : event) : Forall itS A -> forall its cs, ritems its cs -> Forall (irr_item j i) its ->
  forall x, its = A ++ GE e :: x -> forall done k y, vfront w done its k = Some y ->
  exists mid z, y = done ++ mid ++ e :: z /\ Forall evin mid.
Proof using P_eol P_ovf Q_concat Q_choice Q_child NP_child NP_inj Hj.
  intros HA its cs Hr Hirr x -> done k y Hy.
  rewrite vfront_app in Hy. apply obind_some in Hy as [d [Hd Hy]].
  rewrite vfront_event in Hy. apply vfront_incl in Hy as (z & ->).
  apply vfront_in in Hd as (ei & p & p' & Hp & Hre & ->).
  exists ei, z. rewrite <- !app_assoc. split; [reflexivity|].
  assert (HrA : exists cs1, ritems A cs1).
  { clear -Hr. revert cs Hr. induction A as [|it A IH]; intros cs Hr; [exists []; constructor|].
    inversion Hr as [|? ? ? ? H|? ? ? ? ? ? ? ? H]; subst.
    - destruct (IH _ H) as [cs1 Hcc]. eexists. constructor; eauto.
    - destruct (IH _ H) as [cs1 Hcc]. eexists. constructor; eauto. }
  destruct HrA as [cs1 HrA]. apply Forall_app in Hirr as [Hirr _].
  eapply (@its_evin pd env P Q Q_concat Q_choice Q_child w j i (under q)); eauto.
  - intros k0 Hk. eapply under_not; eauto.
  - intros k0 n k' s Hk HQ. eapply under_child; eauto.
Qed.

Lemma missing_split bs gs d0 A B es :
  Forall2 rblock bs gs -> Forall (girr j i) gs -> ftrail j i (under q) d0 gs ->
  gitems gs = A ++ B -> Forall itS A -> (B = [] \/ exists e B', B = GE e :: B') ->
  vblocks w gs = Some es ->
  exists mid post, es = d0 ++ mid ++ post /\ Forall evin mid /\
    match B with GE e :: _ => exists post', post = e :: post' | _ => post = [] end.
Proof.
  intros Hb Hirr Ht HG HA HB HV.
  assert (U1 : forall k0, under q k0 -> k0 <> j) by (intros k0 Hk; eapply under_not; eauto).
  assert (U2 : forall k n k' s, k = j \/ under q k -> Q k (SChild n (Ok k') s) -> under q k')
    by (intros k0 n k' s Hk HQ; eapply under_child; eauto).
  destruct HB as [->|(e & B' & ->)].
  - rewrite app_nil_r in HG. destruct gs as [|g0 gs0] using rev_ind; [contradiction|]. clear IHgs0.
    rename g0 into g, gs0 into nd.
    apply Forall2_app_inv_r in Hb as (b1 & b2 & Hb1 & Hb2 & _). inversion Hb2 as [|b ? ? ? Hbg _]; subst.
    apply Forall_app in Hirr as [Hirr1 Hirr2]. inversion Hirr2 as [|? ? Hig _]; subst.
    rewrite gitems_app in HA. apply Forall_app in HA as [HA1 HA2].
    change (gitems [g]) with (g_items g ++ []) in HA2. rewrite app_nil_r in HA2.
    rewrite vblocks_app in HV. apply oapp_some in HV as (x & y & Hx & Hy & ->).
    cbn [vblocks] in Hy. rewrite oapp_nil_r in Hy.
    assert (Hy0 : exists y', y = g_done g ++ y' /\ Forall evin y')
      by (eapply (@block_evin pd env P Q Q_concat Q_choice Q_child w j i (under q)); eauto).
    destruct Hy0 as (y' & -> & Hy').
    assert (Hm : exists mid, x ++ g_done g = d0 ++ mid /\ Forall evin mid).
    { eapply (@ftrail_events pd env P Q Q_concat Q_choice Q_child w j i (under q));
        [exact U1|exact U2|exact Hb1|exact Hirr1|exact HA1|exact Ht|rewrite Hx; reflexivity]. }
    destruct Hm as (mid & Em & Hm).
    exists (mid ++ y'), []. rewrite app_nil_r, !app_assoc, Em. split; [reflexivity|].
    split; [apply Forall_app; auto|reflexivity].
  - assert (Hcut : exists gs1 g gs2 A2 rest, gs = gs1 ++ g :: gs2 /\ A = gitems gs1 ++ A2 /\
      g_items g = A2 ++ GE e :: rest).
    { clear - HG. revert A HG. induction gs as [|g gs IH]; intros A HG.
      - destruct A; discriminate.
      - change (gitems (g :: gs)) with (g_items g ++ gitems gs) in HG.
        apply app_eq_app in HG as (l & [[E1 E2]|[E1 E2]]).
        + destruct l as [|it l].
          * simpl in E2. rewrite app_nil_r in E1.
            destruct (IH [] (eq_sym E2)) as (gs1 & g' & gs2 & A2 & rest & -> & EA & Eg).
            destruct (gitems gs1) eqn:Eg1; [|discriminate]. destruct A2; [|discriminate].
            exists (g :: gs1), g', gs2, [], rest. split; [reflexivity|].
            change (gitems (g :: gs1)) with (g_items g ++ gitems gs1). rewrite Eg1, !app_nil_r. auto.
          * injection E2 as <- E2. exists [], g, gs, A, l. auto.
        + destruct (IH l E2) as (gs1 & g' & gs2 & A2 & rest & -> & EA & Eg).
          exists (g :: gs1), g', gs2, A2, rest. split; [reflexivity|].
          change (gitems (g :: gs1)) with (g_items g ++ gitems gs1). rewrite <- app_assoc, <- EA. auto. }
    destruct Hcut as (gs1 & g & gs2 & A2 & rest & -> & -> & Eg).
    apply Forall2_app_inv_r in Hb as (b1 & b2 & Hb1 & Hb2 & _). inversion Hb2 as [|b ? ? ? Hbg _]; subst.
    apply Forall_app in Hirr as [Hirr1 Hirr2]. inversion Hirr2 as [|? ? Hig _]; subst.
    apply Forall_app in HA as [HA1 HA2].
    rewrite vblocks_app in HV. apply oapp_some in HV as (x & y & Hx & Hy & ->).
    cbn [vblocks] in Hy. apply oapp_some in Hy as (y1 & y2 & Hy1 & Hy2 & ->).
    assert (Hy0 : exists mid z, y1 = g_done g ++ mid ++ e :: z /\ Forall evin mid).
    { unfold vblock in Hy1. eapply items_split; [exact HA2|apply Hbg|exact Hig|exact Eg|exact Hy1]. }
    destruct Hy0 as (m2 & z & -> & Hm2).
    assert (Hm : exists mid, x ++ g_done g = d0 ++ mid /\ Forall evin mid).
    { eapply (@ftrail_events pd env P Q Q_concat Q_choice Q_child w j i (under q));
        [exact U1|exact U2|exact Hb1|exact Hirr1|exact HA1|exact Ht|rewrite Hx; reflexivity]. }
    destruct Hm as (mid & Em & Hm).
    exists (mid ++ m2), (e :: z ++ y2). split; [|split; [apply Forall_app; auto|eauto]].
    rewrite <- !app_assoc. rewrite (app_assoc x), Em, <- !app_assoc. reflexivity.
Qed.
End Miss.

Lemma first_missing q i V p c gp g gn j s bs gs A :
  at_first q p c V gp g gn j s ->
  Forall2 rblock bs gs -> Forall (girr j i) gs -> ftrail j i (under q) (g_done g) gs ->
  gitems gs = A ++ gitems (g :: gn) -> Forall (itS j (under q)) A -> V = vall gp gs ->
  missing_first q i V.
Proof.
  intros [An Hch Hre] Hb Hirr Htr HG HA HV es Hes. rewrite HV in Hes. unfold PSeek.vall in Hes.
  rewrite vblocks_app in Hes. apply oapp_some in Hes as (x & y & Hx & Hy & ->).
  assert (HBs : gitems (g :: gn) = [] \/ exists e B', gitems (g :: gn) = GE e :: B').
  { destruct (an_brk An) as [(-> & -> & -> & _ & Hi)|(q1 & j1 & m & d1 & its & -> & HN & Hd & Hi)].
    - left. change (gitems [g]) with (g_items g ++ []). rewrite Hi. reflexivity.
    - right. change (gitems (g :: gn)) with (g_items g ++ gitems gn). rewrite Hi. simpl. eauto. }
  destruct (@missing_split j i q (an_N An) bs gs (g_done g) A (gitems (g :: gn)) y Hb Hirr Htr HG HA HBs Hy)
    as (mid & post & -> & Hmid & Hpost).
  exists (x ++ g_done g), mid, post, j. rewrite <- app_assoc. split; [reflexivity|].
  split; [apply Hch; rewrite Hx; reflexivity|]. split; [apply An|]. split; [exact Hmid|].
  change (gitems (g :: gn)) with (g_items g ++ gitems gn) in Hpost.
  destruct (an_brk An) as [(-> & -> & -> & _ & Hi)|(q1 & j1 & m & d1 & its & -> & HN & Hd & Hi)]; rewrite Hi in Hpost; simpl in Hpost.
  - left. auto.
  - destruct Hpost as [post' ->]. right. exists q1, j1, m, post'. auto.
Qed.

(** ** seek_path *)

Lemma first_path_spec : forall path q p c V gp g gn j s,
  at_first q p c V gp g gn j s ->
  exists r, ev (fun n => seek_path n p c path) r /\
    match r with
    | Ok (p', c') => exists gp' g' gn' j' s', at_first (q ++ path) p' c' V gp' g' gn' j' s'
    | Fail f => (P f /\ V = None) \/
        exists path1 i path2, path = path1 ++ i :: path2 /\ f = FErr (InvalidPath i) /\
          missing_first (q ++ path1) i V
    end.
Proof.
  induction path as [|i path IH]; intros q p c V gp g gn j s Af.
  - exists (Ok (p, c)). split; [ev_now|]. rewrite app_nil_r. eauto 10.
  - pose proof (af_node Af) as An.
    destruct (@seek_first_spec pd env ideq P P_eol P_ovf Q Q_concat Q_choice Q_child w p c j s i gp g gn (under q)
      (an_rp An) (an_cden An) (an_ok An)) as (r & Hev & Hr).
    { intros k Hk. eapply under_not; [apply An|exact Hk]. }
    { intros k n k' s0 Hk HQ. eapply under_child; [apply An|exact Hk|exact HQ]. }
    { eapply Forall_impl; [|apply Af]. intros [k s0|e] Hk; [|exact I]. eapply over_not; [apply An|exact Hk]. }
    cbv zeta in Hr. rewrite (an_v An) in Hr.
    destruct r as [[p' c']|f].
    + destruct Hr as (gp' & g' & gn' & j' & s' & d1 & its & J2 & H1 & H2 & H3 & H4 & H5 & H6 & H7 & H8 & H9 & H10).
      assert (Af' : at_first (q ++ [i]) p' c' V gp' g' gn' j' s').
      { constructor; [constructor; auto| |].
        - eapply NP_child; eauto. apply An.
        - right. exists q, j, i, d1, its. repeat (split; [solve [auto]|]). split; [apply An|auto].
        - intros a0 Ha0. rewrite H2 in Ha0.
          assert (Hs : exists a1, oapp (vblocks w (rev gp')) (Some d1) = Some a1 /\ a0 = a1 ++ [EEnter j i]).
          { apply oapp_some in Ha0 as (x & y & Hx & Hy & ->). injection Hy as <-. exists (x ++ d1). rewrite Hx.
            rewrite <- app_assoc. auto. }
          destruct Hs as (a1 & Ha1 & ->). apply H10 in Ha1 as (a & mid & Ha & -> & Hmid).
          rewrite <- app_assoc. constructor; auto; [|apply An]. apply Af. exact Ha.
        - change (gitems (g' :: gn')) with (g_items g' ++ gitems gn'). rewrite H3. cbn [app]. constructor; [exact I|].
          rewrite H8. apply Forall_app. split.
          + eapply Forall_impl; [|exact H9]. intros it [s0 ->]. exists q, i, []. split; [reflexivity|]. apply An.
          + eapply Forall_impl; [|apply Af]. intros [k s0|e]; auto. intros (q1 & x & q2 & -> & Hk).
            exists q1, x, (q2 ++ [i]). rewrite <- app_assoc. auto. }
      destruct (IH _ _ _ _ _ _ _ _ _ Af') as (r & Hev2 & Hr2). rewrite <- app_assoc in Hr2. simpl in Hr2.
      exists r. split.
      { simpl. eapply (ev_bind_ok (fun n x => match x with (p, c) => seek_path n p c path end)); [exact Hev|]. exact Hev2. }
      destruct r as [[p2 c2]|f]; auto.
      destruct Hr2 as [Hr2|(path1 & i' & path2 & -> & -> & Hm)]; auto.
      right. exists (i :: path1), i', path2. rewrite <- app_assoc in Hm. simpl in *. auto.
    + exists (Fail f). split.
      { simpl. apply (ev_bind_fail (fun n x => match x with (p, c) => seek_path n p c path end)). exact Hev. }
      destruct Hr as [Hr|(-> & bs & gs & A & Hb & Hirr & Htr & HG & HA & HV)]; auto.
      right. exists [], i, path. rewrite app_nil_r. repeat (split; [solve [auto]|]).
      eapply first_missing; eauto.
Qed.

(** ** seek *)

(** What the seek established: [V] is the layout, [V'] what will be printed. *)
Definition focused1 (ft : focus_target) (q : list nat) (V : option (list event))
    (gp : list gblock) (g : gblock) (gn : list gblock) : Prop :=
  match ft with
  | FText n =>
      exists gm mid j t its a,
        V = vall gp (gm :: gn) /\
        oapp (vblocks w (rev gp)) (Some (g_done gm)) = oapp a (Some mid) /\
        (forall x, a = Some x -> chain q x) /\
        existsb is_ftext mid = false /\
        g_items gm = GI j (SText t) :: its /\ tx_from_text t = true /\ Q j (SText t) /\
        g = add_ev gm [EText j (fst (split_at t n))] (GI j (SText (snd (split_at t n))) :: its)
  | _ =>
      V = vall gp (g :: gn) /\
      forall pre post, oapp (vblocks w (rev gp)) (Some (g_done g)) = Some pre ->
        vblocks w (g :: gn) = Some (g_done g ++ post) ->
        match ft with
        | FStart => chain q pre
        | FEnd => end_at q post /\ exists a mid j, pre = a ++ mid /\ chain q a /\ NP q j /\ Forall (evin0 j (under q)) mid
        | _ => exists a mid j, pre = a ++ mid ++ [EMark j] /\ chain q a /\ NP q j /\ ~ In (EMark j) mid
        end
  end.

Lemma first_end_node q p c V gp g gn j s :
  at_first q p c V gp g gn j s ->
  exists r, ev (fun n => seek_end n p c) r /\
    match r with
    | Ok p' => exists gp' g' gn', rp p' gp' (g' :: gn') /\ focused1 FEnd q V gp' g' gn'
    | Fail f => P f /\ V = None
    end.
Proof.
  intros [An Hch Hre]. destruct An as [[Hw Hp Hn Hh Hf] Hc Ho HN Hbrk Hv].
  inversion Hn as [|b g0 bs gn0 Hb Hn' E1 E2]. subst g0 gn0. symmetry in E1.
  destruct (seek_end_spec P_eol P_ovf Q_concat Q_choice Q_child p E1 Hw Hb Hc Ho) as (r & Hev & Hr).
  exists r. split; [exact Hev|].
  assert (HV : V = oapp (vblocks w (rev gp)) (oapp (obind (vfront w (g_done g) [GI j s] (fits_its (g_items g) look_end))
      (fun d => vfront w d (g_items g) look_end)) (vblocks w gn))).
  { rewrite <- Hv, vall_split. f_equal. f_equal. unfold vblock. simpl g_items.
    change (GI j s :: g_items g) with ([GI j s] ++ g_items g). rewrite vfront_app. reflexivity. }
  destruct r as [p'|f].
  - destruct Hr as (g' & b' & nbs & gnb & -> & Hb' & Hnb & Hi & Hhd & Hvv).
    simpl in Hf. destruct (heads_ok_one _ _ _ Hh) as [Hh1 Hh2].
    exists (gnb ++ gp), g', gn. split.
    { constructor; simpl; auto.
      - apply Forall2_app; auto.
      - rewrite rev_app_distr, <- app_assoc.
        assert (Hx : heads_ok None (rev gp ++ rev gnb ++ [g'])) by (eapply heads_ok_trans; eauto).
        rewrite app_assoc in Hx. change (g' :: gn) with ([g'] ++ gn). rewrite !app_assoc in *.
        apply heads_ok_app; auto. }
    rewrite <- Hvv in HV.
    assert (Hsp : oapp (vblocks w (rev gnb)) (vblock w g') =
      obind (oapp (vblocks w (rev gnb)) (Some (g_done g'))) (fun d => vfront w d (g_items g) look_end)).
    { unfold vblock. rewrite Hi. change (g_items g) with ([] ++ g_items g) at 1.
      eapply front_split; [exact Hhd|].
      assert (E : vfront w (g_done g') [] (fits_its (g_items g) look_end) = Some (g_done g')).
      { eapply vfront_nil. apply Hb'. }
      rewrite E. reflexivity. }
    rewrite <- Hsp in HV.
    split.
    { rewrite HV, vall_split, rev_app_distr, vblocks_app, <- !oapp_assoc. reflexivity. }
    intros pre post Hpre Hpost. split.
    2: { rewrite rev_app_distr, vblocks_app, <- oapp_assoc, Hvv in Hpre.
         apply oapp_some in Hpre as (x & y & Hx & Hy & ->).
         apply vfront_in in Hy as (ei & p1 & p2 & _ & Hre1 & ->).
         exists (x ++ g_done g), ei, j. rewrite <- app_assoc. split; [reflexivity|].
         split; [apply Hch; rewrite Hx; reflexivity|]. split; [exact HN|].
         cbn [rend_its] in Hre1. apply obind_some in Hre1 as [[e1 p3] [Hr1 Hre1]].
         cbn [obind] in Hre1. injection Hre1 as <- _. rewrite app_nil_r.
         eapply (@rend_Dp0 pd env Q Q_concat Q_choice Q_child w j (under q)); [|exact Hr1|apply Ho|left; reflexivity].
         intros k n k' s0 Hk HQ. eapply under_child; eauto. }
    clear Hch.
    cbn [vblocks] in Hpost. unfold vblock in Hpost. rewrite Hi in Hpost.
    destruct Hbrk as [(-> & -> & -> & Hd & Hit)|(q1 & j1 & m & d1 & its & -> & HN1 & Hd & Hit)]; rewrite Hit in Hpost.
    + left. split; auto.
      assert (E : vfront w (g_done g') [] look_end = Some (g_done g')).
      { eapply vfront_nil. apply Hb'. }
      rewrite E in Hpost. cbn [vblocks oapp obind] in Hpost.
      injection Hpost as Hpost. apply app_inv_head in Hpost. auto.
    + right. rewrite vfront_event in Hpost. apply oapp_some in Hpost as (y & z & Hy & Hz & E).
      apply vfront_incl in Hy as (e & ->). rewrite <- !app_assoc in E. apply app_inv_head in E.
      exists q1, j1, m, (e ++ z). rewrite E. auto.
  - destruct Hr as [HP HV2]. split; auto. rewrite HV, HV2. simpl. apply oapp_none_r.
Qed.

Lemma first_focus_spec ft q p c V gp g gn j s :
  at_first q p c V gp g gn j s ->
  exists r, ev (fun n => focus_of n p c ft) r /\
    match r with
    | Ok p' => exists gp' g' gn', rp p' gp' (g' :: gn') /\ focused1 ft q V gp' g' gn'
    | Fail f => (P f /\ V = None) \/
        (ft = FMark /\ f = FErr MissingFocusMark /\
           forall es, V = Some es -> exists a mid, es = a ++ mid /\ chain q a /\ NP q j /\ ~ In (EMark j) mid) \/
        (exists n, ft = FText n /\ f = FErr MissingText /\
           forall es, V = Some es -> exists a mid, es = a ++ mid /\ chain q a /\ existsb is_ftext mid = false) \/
        (exists n, ft = FText n /\ P f /\ exists gp' gm gn' j2 t its,
           vall gp' (gm :: gn') = V /\ g_items gm = GI j2 (SText t) :: its /\ tx_from_text t = true /\ Q j2 (SText t) /\
           prun pos0 (g_done gm ++ [EText j2 (fst (split_at t n))]) = None)
    end.
Proof.
  intros Af. pose proof (af_node Af) as An. pose proof (af_chain Af) as Hch. destruct ft as [| | |n].
  - destruct (seek_start_spec P_ovf Q_concat (an_rp An) (an_cden An) (an_ok An)) as (r & Hev & Hr).
    exists r. split; [exact Hev|]. rewrite (an_v An) in Hr. destruct r as [p'|f]; auto.
    destruct Hr as (g' & gn' & Hrp & Hh & Hb & Hv & _). exists gp, g', gn'. split; auto.
    split; auto. intros pre post Hpre _. apply Hch.
    rewrite <- Hpre. f_equal. f_equal. unfold g_done. rewrite Hh, Hb. reflexivity.
  - destruct (first_end_node Af) as (r & Hev & Hr). exists r. split; [exact Hev|]. destruct r; auto.
  - destruct (seek_mark_spec P_eol P_ovf Q_concat Q_choice Q_child (an_rp An) (an_cden An) (an_ok An)) as (r & Hev & Hr).
    cbv zeta in Hr. rewrite (an_v An) in Hr.
    exists r. split; [exact Hev|]. destruct r as [p'|f].
    + destruct Hr as (gp' & g' & gn' & mid & Hrp & Hadv & Hnm & Hv).
      exists gp', g', gn'. split; auto. split; auto. intros pre post Hpre _.
      rewrite (adv_before w Hadv) in Hpre.
      assert (Hpre2 : oapp (oapp (vblocks w (rev gp)) (Some (g_done g))) (Some (mid ++ [EMark j])) = Some pre).
      { rewrite <- oapp_assoc. exact Hpre. }
      apply oapp_some in Hpre2 as (a & y & Ha & Hy & ->). injection Hy as <-.
      exists a, mid, j. split; auto. split; [apply Hch; exact Ha|]. split; auto. apply An.
    + destruct Hr as [Hr|(-> & mid & HV & Hnm)]; auto.
      right; left. split; auto. split; auto. intros es Hes. rewrite HV in Hes.
      assert (Hpre2 : oapp (oapp (vblocks w (rev gp)) (Some (g_done g))) (Some mid) = Some es).
      { rewrite <- oapp_assoc. exact Hes. }
      apply oapp_some in Hpre2 as (a & y & Ha & Hy & ->). injection Hy as <-.
      exists a, mid. split; auto. split; [apply Hch; exact Ha|]. split; auto. apply An.
  - destruct (seek_text_spec P_eol P_ovf Q_concat Q_choice Q_child Q_text n (an_rp An) (an_cden An) (an_ok An)) as (r & Hev & Hr).
    cbv zeta in Hr. rewrite (an_v An) in Hr.
    assert (Hbef : forall gp' gm mid, adv gp g gp' gm mid ->
      oapp (vblocks w (rev gp')) (Some (g_done gm)) =
      oapp (oapp (vblocks w (rev gp)) (Some (g_done g))) (Some mid)).
    { intros gp' gm mid Hadv. rewrite (adv_before w Hadv), <- oapp_assoc. reflexivity. }
    exists r. split; [exact Hev|]. destruct r as [p'|f].
    + destruct Hr as (gp' & gm & gn' & mid & j2 & t & its & HV & Hadv & Hns & Hi & Ht & HQ & Hrp).
      eexists gp', _, gn'. split; [exact Hrp|].
      exists gm, mid, j2, t, its, (oapp (vblocks w (rev gp)) (Some (g_done g))).
      split; auto. split; [apply Hbef; auto|].
      split; [intros x Hx; apply Hch; exact Hx|].
      repeat (split; [solve [auto]|]). reflexivity.
    + destruct Hr as [Hr|[(HP & gp' & gm & gn' & mid & j2 & t & its & HV & Hadv & Hi & Ht & HQ & Hpr)|(-> & mid & HV & Hns)]]; auto.
      * right; right; right. exists n. split; auto. split; auto. exists gp', gm, gn', j2, t, its. auto.
      * right; right; left. exists n. split; auto. split; auto. intros es Hes. rewrite HV in Hes.
        assert (Hpre2 : oapp (oapp (vblocks w (rev gp)) (Some (g_done g))) (Some mid) = Some es).
        { rewrite <- oapp_assoc. exact Hes. }
        apply oapp_some in Hpre2 as (a & y & Ha & Hy & ->). injection Hy as <-.
        exists a, mid. split; [reflexivity|]. split; [apply Hch; exact Ha|exact Hns].
Qed.

(** How the focus divides the trace [es] into [pre] and [post]. *)
Definition divided1 (ft : focus_target) (q : list nat) (es pre post : list event) : Prop :=
  match ft with
  | FStart => es = pre ++ post /\ chain q pre
  | FEnd => es = pre ++ post /\ end_at q post /\ exists a mid j, pre = a ++ mid /\ chain q a /\ NP q j /\ Forall (evin0 j (under q)) mid
  | FMark => es = pre ++ post /\
      exists a mid j, pre = a ++ mid ++ [EMark j] /\ chain q a /\ NP q j /\ ~ In (EMark j) mid
  | FText n => exists a mid j t rest, es = a ++ mid ++ EText j t :: rest /\
      pre = a ++ mid ++ [EText j (fst (split_at t n))] /\ post = EText j (snd (split_at t n)) :: rest /\
      chain q a /\ existsb is_ftext mid = false /\ tx_from_text t = true
  end.

(** From the focus on: what is observed. *)
Lemma first_observe_spec ft q V p gp g gn : splits Q ft ->
  rp p gp (g :: gn) -> focused1 ft q V gp g gn ->
  exists r, ev (fun n => pp_tail n w p) r /\
    match r with
    | Ok (up, fl, down) =>
        exists ru rd, ev (fun n => collect n (up_next n) up) ru /\
                      ev (fun n => collect n (down_next n) down) rd /\
          (forall f, ru = Fail f -> P f) /\ (forall f, rd = Fail f -> P f) /\
          match V with
          | Some es => exists ups downs pre post, ru = Ok ups /\ rd = Ok downs /\
              divided1 ft q es pre post /\
              lines_of pre = rev ups ++ [left_segments fl] /\
              lines_from [] post = right_segments fl :: downs
          | None => is_ok ru = false \/ is_ok rd = false
          end
    | Fail f => P f /\ V = None
    end.
Proof.
  intros Q_split Hrp Hfoc.
  destruct (tail_spec P_eol P_ovf Q_concat Q_choice Q_child Hrp) as (r & Hev & Hr).
  exists r. split; [exact Hev|].
  (* the split block and the original one *)
  assert (Htext : forall n, ft = FText n -> exists gm mid j t a,
        V = vall gp (gm :: gn) /\
        oapp (vblocks w (rev gp)) (Some (g_done gm)) = oapp a (Some mid) /\
        (forall x, a = Some x -> chain q x) /\
        existsb is_ftext mid = false /\ tx_from_text t = true /\
        g_done g = g_done gm ++ [EText j (fst (split_at t n))] /\
        (forall x, vblock w gm = Some x -> exists rest, x = g_done gm ++ EText j t :: rest /\
          vblock w g = Some (g_done g ++ EText j (snd (split_at t n)) :: rest)) /\
        (forall y, vblock w g = Some y -> exists z, vblock w gm = Some z)).
  { intros n ->. destruct Hfoc as (gm & mid & j & t & its & a & HV & Hpre & Hst & Hns & Hi & Ht & HQ & Hg).
    exists gm, mid, j, t, a. repeat (split; [solve [auto]|]).
    assert (Hd : g_done g = g_done gm ++ [EText j (fst (split_at t n))]).
    { rewrite Hg. unfold g_done, add_ev. simpl. rewrite app_assoc. reflexivity. }
    split; auto.
    assert (Hgi : g_items g = GI j (SText (snd (split_at t n))) :: its) by (rewrite Hg; reflexivity).
    unfold vblock. rewrite Hgi, Hi, !vfront_text, Hd, <- app_assoc.
    unfold vfront. simpl app. rewrite !prun_app.
    destruct (prun pos0 (g_done gm)) as [p0|]; simpl.
    2: { split; intros ?; discriminate. }
    pose proof (@text_pos_split pd env P P_ovf p0 t _ _ (Q_split n eq_refl _ _ n HQ Ht)) as Hsp. rewrite obind_assoc.
    change (tx_width (fst (split_at t n))) with (str_width (firstn n (tx_str t))) in *.
    set (tl := Textual (firstn n (tx_str t)) (str_width (firstn n (tx_str t))) (tx_style t) (tx_from_text t)).
    set (tr := Textual (skipn n (tx_str t)) (str_width (skipn n (tx_str t))) (tx_style t) (tx_from_text t)).
    change (fst (split_at t n)) with tl in *. change (snd (split_at t n)) with tr in *.
    rewrite <- Hsp. rewrite !obind_assoc. destruct (text_pos p0 tl) as [p1|]; cbn [obind].
    2: { split; intros ?; discriminate. }
    destruct (text_pos p1 tr) as [p2|]; cbn [obind].
    2: { split; intros ?; discriminate. }
    destruct (rend_its w its look_end p2) as [[es p3]|]; cbn [obind].
    2: { split; intros ?; discriminate. }
    rewrite <- !app_assoc. simpl. split.
    - intros x [= <-]. exists es. rewrite <- ?app_assoc. split; reflexivity.
    - intros y _. eexists. reflexivity. }
  assert (HVg : vblock w g = None -> V = None).
  { intros H. destruct ft as [| | |n].
    - destruct Hfoc as [-> _]. apply vall_fail; auto.
    - destruct Hfoc as [-> _]. apply vall_fail; auto.
    - destruct Hfoc as [-> _]. apply vall_fail; auto.
    - destruct (Htext n eq_refl) as (gm & mid & j & t & a & -> & _ & _ & _ & _ & _ & Hx & _).
      apply vall_fail. destruct (vblock w gm) as [x|]; auto.
      destruct (Hx x eq_refl) as (rest & _ & H2). congruence. }
  destruct r as [[[up fl] down]|f].
  2: { destruct Hr as [HP HV]. auto. }
  destruct Hr as (ru & rd & Hu & Hd & Hru & Hrd). exists ru, rd. split; [exact Hu|]. split; [exact Hd|].
  split. { intros f ->. apply Hru. } split. { intros f ->. apply Hrd. }
  destruct V as [es|].
  - assert (Hparts : exists pre post, oapp (vblocks w (rev gp)) (Some (g_done g)) = Some pre /\
      vblocks w (g :: gn) = Some (g_done g ++ post) /\ divided1 ft q es pre post).
    { destruct ft as [| | |n].
      1-3: destruct Hfoc as [HV Hfoc]; symmetry in HV; rewrite vall_split in HV;
        apply oapp_some in HV as (x & y & Hx & Hy & ->);
        pose proof Hy as Hy0; apply oapp_some in Hy0 as (y1 & y2 & Hy1 & Hy2 & Ey);
        destruct (vfront_incl _ _ _ _ Hy1) as (e1 & E1);
        exists (x ++ g_done g), (e1 ++ y2); rewrite Hx; split; [reflexivity|];
        assert (Hg : vblocks w (g :: gn) = Some (g_done g ++ e1 ++ y2))
          by (cbn [vblocks]; rewrite Hy1, Hy2, E1; cbn [oapp obind]; rewrite <- app_assoc; reflexivity);
        split; [exact Hg|];
        specialize (Hfoc (x ++ g_done g) (e1 ++ y2)); rewrite Hx in Hfoc;
        specialize (Hfoc eq_refl Hg); subst y y1; (split; [rewrite <- !app_assoc; reflexivity|exact Hfoc]).
      destruct (Htext n eq_refl) as (gm & mid & j & t & a & HV & Hpre & Hst & Hns & Hft & Hdone & Hx & _).
      symmetry in HV. rewrite vall_split in HV.
      apply oapp_some in HV as (x & y & Hx1 & Hy & ->). apply oapp_some in Hy as (y1 & y2 & Hy1 & Hy2 & ->).
      apply Hx in Hy1 as (rest & -> & Hg).
      rewrite Hx1 in Hpre. simpl in Hpre. destruct a as [a|]; [|discriminate]. simpl in Hpre. injection Hpre as Hpre.
      exists (x ++ g_done g), (EText j (snd (split_at t n)) :: rest ++ y2). rewrite Hx1.
      split; [reflexivity|]. split.
      { cbn [vblocks]. rewrite Hg, Hy2. cbn [oapp obind]. rewrite <- app_assoc. reflexivity. }
      exists a, mid, j, t, (rest ++ y2). rewrite Hdone, !app_assoc, <- Hpre, <- !app_assoc.
      repeat (split; [solve [auto]|]). auto. }
    destruct Hparts as (pre & post & Hpre & Hpost & Hdiv).
    destruct ru as [ups|f].
    2: { destruct Hru as [_ Hru]. rewrite Hru in Hpre. discriminate. }
    destruct rd as [downs|f].
    2: { destruct Hrd as [_ Hrd]. rewrite Hrd in Hpost. discriminate. }
    destruct Hru as (pre' & Hpre' & Hl1). destruct Hrd as (post' & Hpost' & Hl2).
    rewrite Hpre in Hpre'. injection Hpre' as <-. rewrite Hpost in Hpost'. injection Hpost' as Hp.
    apply app_inv_head in Hp. subst post'. exists ups, downs, pre, post. auto 10.
  - destruct ru as [ups|f]; [|auto]. destruct rd as [downs|f]; [|auto].
    exfalso. destruct Hru as (pre & Hpre & _). destruct Hrd as (post & Hpost & _).
    apply oapp_some in Hpre as (x & y & Hx & _ & _).
    destruct ft as [| | |n].
    1-3: destruct Hfoc as [HV _]; rewrite vall_split, Hx in HV; cbn [vblocks] in Hpost; rewrite Hpost in HV; discriminate.
    destruct (Htext n eq_refl) as (gm & mid & j & t & a & HV & _ & _ & _ & _ & _ & _ & Hgm).
    rewrite vall_split, Hx in HV. cbn [vblocks] in Hpost.
    apply oapp_some in Hpost as (y1 & y2 & Hy1 & Hy2 & _). rewrite Hy2 in HV.
    assert (exists z, vblock w gm = Some z) as [z Hz].
    { eapply Hgm; eauto. }
    rewrite Hz in HV. discriminate.
Qed.

(** Up to the focus. *)
Lemma first_sought doc path ft st root :
  doc_tree doc st root -> root_ok P Q NP root ->
  (exists p2 gp2 g2 gn2, rp p2 gp2 (g2 :: gn2) /\ focused1 ft path (layout w root) gp2 g2 gn2 /\
     forall r, ev (fun n => pp_tail n w p2) r -> ev (fun n => pretty_print n doc w path ft st) r) \/
  (exists f, ev (fun n => pretty_print n doc w path ft st) (Fail f) /\
    ((P f /\ layout w root = None) \/
        (exists path1 i path2, path = path1 ++ i :: path2 /\ f = FErr (InvalidPath i) /\
          missing_first path1 i (layout w root)) \/
        (ft = FMark /\ f = FErr MissingFocusMark /\
           forall es, layout w root = Some es ->
           exists j a mid, es = a ++ mid /\ chain path a /\ NP path j /\ ~ In (EMark j) mid) \/
        (exists n, ft = FText n /\ f = FErr MissingText /\
           forall es, layout w root = Some es ->
           exists a mid, es = a ++ mid /\ chain path a /\ existsb is_ftext mid = false) \/
        (exists n, ft = FText n /\ P f /\ exists gp' gm gn' j2 t its,
           vall gp' (gm :: gn') = layout w root /\ g_items gm = GI j2 (SText t) :: its /\ tx_from_text t = true /\ Q j2 (SText t) /\
           prun pos0 (g_done gm ++ [EText j2 (fst (split_at t n))]) = None))).
Proof.
  intros Hdoc Hroot.
  assert (Heq : forall n, pretty_print n doc w path ft st =
    (p <- printer_new w ;; d <- with_optional_style doc st ;; c <- chunk_new d ;;
     y <- seek_path n p c path ;; p' <- focus_of n (fst y) (snd y) ft ;; pp_tail n w p')).
  { intros n. unfold pretty_print, seek. destruct (printer_new w) as [p|]; [|reflexivity]. cbn [bind].
    destruct (with_optional_style doc st) as [d|]; [|reflexivity]. cbn [bind].
    destruct (chunk_new d) as [c|]; [|reflexivity]. cbn [bind].
    destruct (seek_path n p c path) as [[p1 c1]|]; [|reflexivity]. cbn [bind fst snd].
    unfold focus_of, pp_tail. destruct ft; reflexivity. }
  assert (Hdone : forall r, ev (fun n => p <- printer_new w ;; d <- with_optional_style doc st ;; c <- chunk_new d ;;
     y <- seek_path n p c path ;; p' <- focus_of n (fst y) (snd y) ft ;; pp_tail n w p') r ->
     ev (fun n => pretty_print n doc w path ft st) r).
  { intros r H. eapply ev_ext; [|exact H]. intros; symmetry; apply Heq. }
  unfold doc_tree in Hdoc. destruct root as [i s]. simpl fst in Hdoc.
  change (printer_new w) with (Ok (X := perr Er) (Printer w [] [Block [] 0 false []])) in Hdone.
  cbn [bind] in Hdone.
  destruct (with_optional_style doc st) as [d|f] eqn:Ed.
  2: { right. exists f. split; [apply Hdone; ev_now|]. left. simpl in Hdoc. subst i. split; auto. }
  cbn [bind] in Hdone. destruct Hdoc as [Hid Hden]. simpl in Hid, Hden.
  destruct i as [j|f].
  2: { right. exists f. split; [|left; split; auto].
       apply Hdone. unfold chunk_new. rewrite Hid. ev_now. }
  destruct Hroot as [Hok HN].
  destruct (chunk_new_spec _ _ Hid Hden) as [(c & Ec & Hc & _)|(f & Ec & ->)].
  2: { right. exists f. split; [|left; split; [apply Hok|reflexivity]].
       apply Hdone. rewrite Ec. ev_now. }
  rewrite Ec in Hdone. cbn [bind] in Hdone.
  set (p0 := Printer w [] [Block [] 0 false []]) in *.
  set (g0 := GBlock None [] []).
  assert (An : at_node P Q NP w [] p0 c (layout w (Ok j, s)) [] g0 [] j s).
  { constructor; auto.
    - constructor; simpl; auto.
      constructor; [|constructor]. constructor; simpl; auto; try reflexivity. constructor.
    - left. simpl. auto.
    - unfold PSeek.vall. simpl. unfold vblock, vfront, g_done. simpl.
      rewrite oapp_nil_r. destruct (rend w s j look_end pos0) as [[es p']|]; simpl; auto.
      rewrite app_nil_r. reflexivity. }
  assert (Af : at_first [] p0 c (layout w (Ok j, s)) [] g0 [] j s).
  { constructor; [exact An| |].
    - intros a Ha. cbn in Ha. injection Ha as <-. constructor.
    - constructor. }
  destruct (first_path_spec path Af) as (r & Hev & Hr).
  destruct r as [[p1 c1]|f].
  2: { right. exists f. split.
       { apply Hdone. apply (ev_bind_fail (fun n y => p' <- focus_of n (fst y) (snd y) ft ;; pp_tail n w p')). exact Hev. }
       destruct Hr as [Hr|(path1 & i & path2 & -> & -> & Hm)]; [left; auto|].
       right; left. exists path1, i, path2. auto. }
  destruct Hr as (gp & g & gn & j1 & s1 & Af1). cbn [app] in Af1.
  destruct (first_focus_spec ft Af1) as (r & Hev1 & Hr1).
  assert (Hdone1 : forall r2, ev (fun n => p' <- focus_of n p1 c1 ft ;; pp_tail n w p') r2 ->
    ev (fun n => pretty_print n doc w path ft st) r2).
  { intros r2 H. apply Hdone.
    eapply (ev_bind_ok (fun n y => p' <- focus_of n (fst y) (snd y) ft ;; pp_tail n w p')); [exact Hev|]. exact H. }
  destruct r as [p2|f].
  - destruct Hr1 as (gp2 & g2 & gn2 & Hrp & Hfoc). left. exists p2, gp2, g2, gn2. split; auto. split; auto.
    intros r Hev2. apply Hdone1. eapply (ev_bind_ok (fun n p' => pp_tail n w p')); [exact Hev1|]. exact Hev2.
  - right. exists f. split.
    { apply Hdone1. apply (ev_bind_fail (fun n p' => pp_tail n w p')). exact Hev1. }
    destruct Hr1 as [Hr1|[(-> & -> & Hm)|[(n & -> & -> & Hm)|(n & -> & HP & Hx)]]]; auto.
    + right; right; left. split; auto. split; auto. intros es Hes. destruct (Hm es Hes) as (a & mid & H). eauto.
    + right; right; right; left. exists n. auto.
    + right; right; right; right. exists n. auto.
Qed.

Theorem first_spec doc path ft st root :
  splits Q ft -> doc_tree doc st root -> root_ok P Q NP root ->
  exists r, ev (fun n => pretty_print n doc w path ft st) r /\
    match r with
    | Ok (up, fl, down) =>
        exists ru rd, ev (fun n => collect n (up_next n) up) ru /\
                      ev (fun n => collect n (down_next n) down) rd /\
          (forall f, ru = Fail f -> P f) /\ (forall f, rd = Fail f -> P f) /\
          match layout w root with
          | Some es => exists ups downs pre post, ru = Ok ups /\ rd = Ok downs /\
              divided1 ft path es pre post /\
              lines_of pre = rev ups ++ [left_segments fl] /\
              lines_from [] post = right_segments fl :: downs
          | None => is_ok ru = false \/ is_ok rd = false
          end
    | Fail f =>
        (P f /\ layout w root = None) \/
        (exists path1 i path2, path = path1 ++ i :: path2 /\ f = FErr (InvalidPath i) /\
          missing_first path1 i (layout w root)) \/
        (ft = FMark /\ f = FErr MissingFocusMark /\
           forall es, layout w root = Some es ->
           exists j a mid, es = a ++ mid /\ chain path a /\ NP path j /\ ~ In (EMark j) mid) \/
        (exists n, ft = FText n /\ f = FErr MissingText /\
           forall es, layout w root = Some es ->
           exists a mid, es = a ++ mid /\ chain path a /\ existsb is_ftext mid = false)
    end.
Proof.
  intros Q_split Hdoc Hroot.
  destruct (@first_sought doc path ft st root Hdoc Hroot) as [(p2 & gp2 & g2 & gn2 & Hrp & Hfoc & Hdone)|(f & Hev & Hr)].
  - destruct (first_observe_spec path (layout w root) Q_split Hrp Hfoc) as (r & Hev2 & Hr2).
    exists r. split; [auto|]. destruct r as [[[up fl] down]|f]; auto.
  - exists (Fail f). split; auto.
    destruct Hr as [Hr1|[Hr1|[Hr1|[Hr1|(n & -> & HP & gp' & gm & gn' & j2 & t & its & HV & Hi & Ht & HQ & Hpr)]]]]; auto.
    left. split; auto. transitivity (vall gp' (gm :: gn')); [symmetry; exact HV|]. apply vall_fail. unfold vblock. rewrite Hi, vfront_text.
    rewrite prun_app in Hpr. unfold vfront. rewrite prun_app.
    destruct (prun pos0 (g_done gm)) as [q|]; auto. cbn [obind prun] in *. cbn [pstep] in *.
    destruct (text_pos q (fst (split_at t n))) eqn:E; [discriminate|].
    rewrite (@text_pos_left pd env P P_ovf q t (fst (split_at t n))); auto.
    pose proof (Q_split n eq_refl _ _ n HQ Ht). lia.
Qed.

End First2.
