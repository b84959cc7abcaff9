(** pretty_print against the layout: the generic statement. *)
From Verif Require Export PMain PLab.

Set Implicit Arguments.

Section Final.
Context {pd : PrettyDoc} {env : Env} {ideq : IdEq pd}.

Variable P : failure (perr Er) -> Prop.
Hypothesis P_eol : P (FErr TextAfterEndOfLine).
Hypothesis P_ovf : ovf = true -> P (FPanic POverflow).
Variable Q : Id -> shape -> Prop.
Hypothesis Q_concat : forall j a b, Q j (SConcat a b) -> Q j a /\ Q j b.
Hypothesis Q_choice : forall j a b, Q j (SChoice a b) -> Q j a /\ Q j b.
Hypothesis Q_child : forall j n j' s, Q j (SChild n (Ok j') s) -> Q j' s.
Hypothesis Q_text : forall j t n, Q j (SText t) -> Q j (SText (snd (split_at t n))).

(** [N q j]: node [j] is at path [q]. *)
Variable NP : list nat -> Id -> Prop.
Hypothesis NP_child : forall q j n j' s, NP q j -> Q j (SChild n (Ok j') s) -> NP (q ++ [n]) j'.

Notation ritems := (ritems P Q).
Notation rblock := (rblock P Q).
Notation okpart := (okpart P Q).

Variable w : N.
Notation rp := (rp P Q w).
Notation vall := (vall w).

Definition start_at (q : list nat) (a : list event) : Prop :=
  (q = [] /\ a = []) \/ (exists q1 j1 m a', q = q1 ++ [m] /\ NP q1 j1 /\ a = a' ++ [EEnter j1 m]).

Definition end_at (q : list nat) (b : list event) : Prop :=
  (q = [] /\ b = []) \/ (exists q1 j1 m b', q = q1 ++ [m] /\ NP q1 j1 /\ b = EExit j1 m :: b').

(** The ghost state is at the start of node [q]. *)
Definition brk (q : list nat) (gp : list gblock) (g : gblock) (gn : list gblock) : Prop :=
  (q = [] /\ gp = [] /\ gn = [] /\ g_done g = [] /\ g_items g = []) \/
  (exists q1 j1 m d1 its, q = q1 ++ [m] /\ NP q1 j1 /\
     g_done g = d1 ++ [EEnter j1 m] /\ g_items g = GE (EExit j1 m) :: its).

Lemma brk_start q gp g gn pre : brk q gp g gn ->
  oapp (vblocks w (rev gp)) (Some (g_done g)) = Some pre -> start_at q pre.
Proof.
  intros [(-> & -> & -> & Hd & _)|(q1 & j1 & m & d1 & its & -> & HN & Hd & _)] H; rewrite Hd in H.
  - simpl in H. injection H as <-. left. auto.
  - apply oapp_some in H as (x & y & Hx & Hy & ->). injection Hy as <-.
    right. exists q1, j1, m, (x ++ d1). rewrite <- app_assoc. auto.
Qed.

Record at_node (q : list nat) (p : printer) (c : chunk) (V : option (list event))
    (gp : list gblock) (g : gblock) (gn : list gblock) (j : Id) (s : shape) : Prop := {
  an_rp : rp p gp (g :: gn);
  an_cden : cden c j s;
  an_ok : okpart j s;
  an_N : NP q j;
  an_brk : brk q gp g gn;
  an_v : vall gp (set_items g (GI j s :: g_items g) :: gn) = V
}.

(** Child [i] of the node at [q] was looked for and not found. *)
Definition missing_child (q : list nat) (i : nat) (V : option (list event)) : Prop :=
  forall es, V = Some es ->
  exists a rest j, es = a ++ rest /\ start_at q a /\ NP q j /\
    (In (EEnter j i) rest ->
     exists j2 s2 k p es2 p', okpart j2 s2 /\ expanded s2 /\ irr_item j i (GI j2 s2) /\
       rend w s2 j2 k p = Some (es2, p') /\ incl es2 rest /\ In (EEnter j i) es2).

Lemma rend_its_in its k p es p' e : rend_its w its k p = Some (es, p') -> In e es ->
  In (GE e) its \/
  exists j s k1 p1 es1 p2, In (GI j s) its /\ rend w s j k1 p1 = Some (es1, p2) /\ incl es1 es /\ In e es1.
Proof.
  revert p es p'; induction its as [|it its IH]; intros p es p'; simpl.
  - intros [= <- <-] [].
  - intros H Hin. apply obind_some in H as [[e1 p1] [H1 H]].
    apply obind_some in H as [[e2 p2] [H2 [= <- <-]]].
    apply in_app_or in Hin as [Hin|Hin].
    + destruct it as [j s|e'].
      * right. exists j, s, (fits_its its k), p, e1, p1. repeat split; auto. apply incl_appl, incl_refl.
      * apply obind_some in H1 as [x [_ [= <- <-]]]. destruct Hin as [->|[]]. auto.
    + destruct (IH _ _ _ H2 Hin) as [H|(j & s & k1 & p3 & es1 & p4 & Hi & Hr & Hin1 & He)]; auto.
      right. exists j, s, k1, p3, es1, p4. repeat split; auto. apply incl_appr. auto.
Qed.

Lemma ritems_in its cs : ritems its cs -> forall it, In it its ->
  match it with GI j s => okpart j s /\ expanded s | GE e => is_exit e = true end.
Proof.
  induction 1; intros it Hin; simpl in Hin; [contradiction| |];
    (destruct Hin as [<-|Hin]; [solve [auto]|apply IHritems; auto]).
Qed.

(** Where an EEnter in the remaining blocks can come from. *)
Lemma blocks_enter j i : forall gs bs es, Forall2 rblock bs gs -> Forall (girr j i) gs ->
  vblocks w gs = Some es -> In (EEnter j i) es ->
  (exists g, In g gs /\ In (EEnter j i) (g_done g)) \/
  exists j2 s2 k p es2 p' g done ei, okpart j2 s2 /\ expanded s2 /\ irr_item j i (GI j2 s2) /\
    rend w s2 j2 k p = Some (es2, p') /\ In (EEnter j i) es2 /\
    In g gs /\ vblock w g = Some (done ++ ei) /\ done = g_done g /\ incl es2 ei.
Proof.
  induction gs as [|g gs IH]; intros bs es Hb Hirr HV Hin.
  - injection HV as <-. contradiction.
  - inversion Hb as [|b ? bs' ? Hb1 Hb2]; subst. inversion Hirr as [|? ? Hi1 Hi2]; subst.
    cbn [vblocks] in HV. apply oapp_some in HV as (x & y & Hx & Hy & ->).
    apply in_app_or in Hin as [Hin|Hin].
    + pose proof Hx as Hx0. unfold vblock, vfront in Hx. apply obind_some in Hx as [q [Hq Hx]].
      apply obind_some in Hx as [[ei p'] [Hx [= <-]]].
      apply in_app_or in Hin as [Hin|Hin]; [left; exists g; simpl; auto|].
      destruct (rend_its_in _ _ _ _ Hx Hin) as [H|(j2 & s2 & k1 & p1 & es1 & p2 & Hi & Hr & Hincl & He)].
      * apply (ritems_in (rb_items Hb1)) in H. discriminate.
      * right. exists j2, s2, k1, p1, es1, p2, g, (g_done g), ei.
        destruct (ritems_in (rb_items Hb1) _ Hi) as [Ho Hex].
        repeat (split; [solve [auto]|]).
        split; [eapply Forall_forall in Hi1; eauto|].
        repeat (split; [solve [auto]|]). split; [simpl; auto|]. auto.
    + destruct (IH bs' y) as [(g' & Hg & Hd)|H]; auto.
      * left. exists g'. simpl. auto.
      * right. destruct H as (j2 & s2 & k1 & p1 & es1 & p2 & g' & d & ei & H1 & H2 & H3 & H4 & H5 & H6 & H7 & H8).
        exists j2, s2, k1, p1, es1, p2, g', d, ei. repeat (split; [solve [auto]|]).
        split; [simpl; auto|]. auto.
Qed.

Lemma vblocks_incl gs es g x : vblocks w gs = Some es -> In g gs -> vblock w g = Some x -> incl x es.
Proof.
  revert es; induction gs as [|g' gs IH]; intros es HV Hin Hx; [contradiction|].
  cbn [vblocks] in HV. apply oapp_some in HV as (y & z & Hy & Hz & ->).
  destruct Hin as [<-|Hin].
  - assert (x = y) by congruence. subst y. apply incl_appl, incl_refl.
  - apply incl_appr. eauto.
Qed.

Lemma irrelevant_missing q i V p c gp g gn j s bs gs :
  at_node q p c V gp g gn j s ->
  Forall2 rblock bs gs -> Forall (girr j i) gs -> trail j i (g_done g) gs -> V = vall gp gs ->
  missing_child q i V.
Proof.
  intros An Hb Hirr Htr HV es Hes. rewrite HV in Hes. unfold PSeek.vall in Hes.
  rewrite vblocks_app in Hes. apply oapp_some in Hes as (x & y & Hx & Hy & ->).
  destruct gs as [|g1 gs]; [contradiction|]. destruct Htr as (m & Hd1 & Hm & Hdone).
  pose proof Hy as Hy0. cbn [vblocks] in Hy. apply oapp_some in Hy as (y1 & y2 & Hy1 & Hy2 & ->).
  destruct (vfront_incl _ _ _ _ Hy1) as (e1 & ->).
  exists (x ++ g_done g), (m ++ e1 ++ y2), j.
  rewrite Hd1 in *. rewrite <- !app_assoc in *.
  split; [reflexivity|]. split.
  { eapply brk_start; [apply An|]. rewrite Hx. reflexivity. }
  split; [apply An|]. intros Hin.
  assert (Hin2 : In (EEnter j i) (g_done g ++ m ++ e1 ++ y2)) by (apply in_or_app; auto).
  (* it comes from an item: redo the split on the rest *)
  apply in_app_or in Hin as [Hin|Hin]; [contradiction|].
  inversion Hb as [|b1 ? bs1 ? Hb1 Hb2 E1 E2]; subst. inversion Hirr as [|? ? Hi1 Hi2]; subst.
  assert (Hcase : (exists j2 s2 k p0 es2 p', okpart j2 s2 /\ expanded s2 /\ irr_item j i (GI j2 s2) /\
       rend w s2 j2 k p0 = Some (es2, p') /\ incl es2 (e1 ++ y2) /\ In (EEnter j i) es2)).
  { apply in_app_or in Hin as [Hin|Hin].
    - unfold vblock, vfront in Hy1. apply obind_some in Hy1 as [q0 [Hq Hx0]].
      apply obind_some in Hx0 as [[ei p'] [Hx0 E]]. injection E as E.
      rewrite Hd1 in E. rewrite <- !app_assoc in E. apply app_inv_head in E. apply app_inv_head in E. subst ei.
      destruct (rend_its_in _ _ _ _ Hx0 Hin) as [H|(j2 & s2 & k1 & p1 & es1 & p2 & Hi & Hr & Hincl & He)].
      + apply (ritems_in (rb_items Hb1)) in H. discriminate.
      + destruct (ritems_in (rb_items Hb1) _ Hi) as [Ho Hex].
        exists j2, s2, k1, p1, es1, p2. repeat (split; [solve [auto]|]).
        split; [eapply Forall_forall in Hi1; eauto|]. split; [auto|]. split; auto. apply incl_appl; auto.
    - destruct (@blocks_enter j i gs bs1 y2) as [(g' & Hg & Hd)|H]; auto.
      + exfalso. eapply Forall_forall in Hdone; eauto.
      + destruct H as (j2 & s2 & k1 & p1 & es1 & p2 & g' & d & ei & H1 & H2 & H3 & H4 & H5 & H6 & H7 & H8 & H9).
        exists j2, s2, k1, p1, es1, p2. repeat (split; [solve [auto]|]). split; auto.
        apply incl_appr. eapply incl_tran; [|eapply vblocks_incl; eauto]. apply incl_appr; auto. }
  destruct Hcase as (j2 & s2 & k & p0 & es2 & p' & H1 & H2 & H3 & H4 & H5 & H6).
  exists j2, s2, k, p0, es2, p'. repeat (split; [solve [auto]|]). split; auto. apply incl_appr; auto.
Qed.

(** ** seek_path *)

Lemma seek_path_spec : forall path q p c V gp g gn j s,
  at_node q p c V gp g gn j s ->
  exists r, ev (fun n => seek_path n p c path) r /\
    match r with
    | Ok (p', c') => exists gp' g' gn' j' s', at_node (q ++ path) p' c' V gp' g' gn' j' s'
    | Fail f => (P f /\ V = None) \/
        exists path1 i path2, path = path1 ++ i :: path2 /\ f = FErr (InvalidPath i) /\
          missing_child (q ++ path1) i V /\
          (forall es, V = Some es -> exists a b, es = a ++ b /\ start_at (q ++ path1) a)
    end.
Proof.
  induction path as [|i path IH]; intros q p c V gp g gn j s An.
  - exists (Ok (p, c)). split; [ev_now|]. rewrite app_nil_r. eauto 10.
  - destruct (seek_child_spec P_eol P_ovf Q_concat Q_choice Q_child i (an_rp An) (an_cden An) (an_ok An))
      as (r & Hev & Hr). cbv zeta in Hr. rewrite (an_v An) in Hr.
    destruct r as [[p' c']|f].
    + destruct Hr as (gp' & g' & gn' & j' & s' & d1 & its & H1 & H2 & H3 & H4 & H5 & H6 & H7).
      assert (An' : at_node (q ++ [i]) p' c' V gp' g' gn' j' s').
      { constructor; auto.
        - eapply NP_child; eauto. apply An.
        - right. exists q, j, i, d1, its. repeat (split; [solve [auto]|]). split; [apply An|auto]. }
      destruct (IH _ _ _ _ _ _ _ _ _ An') as (r & Hev2 & Hr2). rewrite <- app_assoc in Hr2. simpl in Hr2.
      exists r. split.
      { simpl. eapply (ev_bind_ok (fun n x => match x with (p, c) => seek_path n p c path end)); [exact Hev|]. exact Hev2. }
      destruct r as [[p2 c2]|f]; auto.
      destruct Hr2 as [Hr2|(path1 & i' & path2 & -> & -> & Hm & Hd)]; auto.
      right. exists (i :: path1), i', path2. rewrite <- app_assoc in Hm, Hd. simpl in *. auto.
    + exists (Fail f). split.
      { simpl. apply (ev_bind_fail (fun n x => match x with (p, c) => seek_path n p c path end)). exact Hev. }
      destruct Hr as [Hr|(-> & bs & gs & Hb & Hirr & Htr & HV)]; auto.
      right. exists [], i, path. rewrite app_nil_r. repeat (split; [solve [auto]|]).
      assert (Hm : missing_child q i V) by (eapply irrelevant_missing; eauto).
      split; auto.
      intros es Hes. destruct (Hm es Hes) as (a & rest & _ & -> & Hst & _). eauto.
Qed.

(** ** seek *)

(** What the seek established: [V] is the layout, [V'] what will be printed. *)
Definition focused (ft : focus_target) (q : list nat) (V : option (list event))
    (gp : list gblock) (g : gblock) (gn : list gblock) : Prop :=
  match ft with
  | FText n =>
      exists gm mid j t its a,
        V = vall gp (gm :: gn) /\
        oapp (vblocks w (rev gp)) (Some (g_done gm)) = oapp a (Some mid) /\
        (forall x, a = Some x -> start_at q x) /\
        existsb is_ftext mid = false /\
        g_items gm = GI j (SText t) :: its /\ tx_from_text t = true /\ Q j (SText t) /\
        g = add_ev gm [EText j (fst (split_at t n))] (GI j (SText (snd (split_at t n))) :: its)
  | _ =>
      V = vall gp (g :: gn) /\
      forall pre post, oapp (vblocks w (rev gp)) (Some (g_done g)) = Some pre ->
        vblocks w (g :: gn) = Some (g_done g ++ post) ->
        match ft with
        | FStart => start_at q pre
        | FEnd => end_at q post
        | _ => exists a mid j, pre = a ++ mid ++ [EMark j] /\ start_at q a /\ NP q j /\ ~ In (EMark j) mid
        end
  end.

Lemma seek_end_node q p c V gp g gn j s :
  at_node q p c V gp g gn j s ->
  exists r, ev (fun n => seek_end n p c) r /\
    match r with
    | Ok p' => exists gp' g' gn', rp p' gp' (g' :: gn') /\ focused FEnd q V gp' g' gn'
    | Fail f => P f /\ V = None
    end.
Proof.
  intros An. destruct An as [[Hw Hp Hn Hh Hf] Hc Ho HN Hbrk Hv].
  inversion Hn as [|b g0 bs gn0 Hb Hn' E1 E2]. subst g0 gn0. symmetry in E1.
  destruct (seek_end_spec P_eol P_ovf Q_concat Q_choice Q_child p E1 Hw Hb Hc Ho) as (r & Hev & Hr).
  exists r. split; [exact Hev|].
  assert (HV : V = oapp (vblocks w (rev gp)) (oapp (obind (vfront w (g_done g) [GI j s] (fits_its (g_items g) look_end))
      (fun d => vfront w d (g_items g) look_end)) (vblocks w gn))).
  { rewrite <- Hv, vall_split. f_equal. f_equal. unfold vblock. simpl g_items.
    change (GI j s :: g_items g) with ([GI j s] ++ g_items g). rewrite vfront_app. reflexivity. }
  destruct r as [p'|f].
  - destruct Hr as (g' & b' & nbs & gnb & -> & Hb' & Hnb & Hi & Hhd & Hvv).
    simpl in Hf. destruct (heads_ok_one _ _ _ Hh) as [Hh1 Hh2].
    exists (gnb ++ gp), g', gn. split.
    { constructor; simpl; auto.
      - apply Forall2_app; auto.
      - rewrite rev_app_distr, <- app_assoc.
        assert (Hx : heads_ok None (rev gp ++ rev gnb ++ [g'])) by (eapply heads_ok_trans; eauto).
        rewrite app_assoc in Hx. change (g' :: gn) with ([g'] ++ gn). rewrite !app_assoc in *.
        apply heads_ok_app; auto. }
    rewrite <- Hvv in HV.
    assert (Hsp : oapp (vblocks w (rev gnb)) (vblock w g') =
      obind (oapp (vblocks w (rev gnb)) (Some (g_done g'))) (fun d => vfront w d (g_items g) look_end)).
    { unfold vblock. rewrite Hi. change (g_items g) with ([] ++ g_items g) at 1.
      eapply front_split; [exact Hhd|].
      assert (E : vfront w (g_done g') [] (fits_its (g_items g) look_end) = Some (g_done g')).
      { eapply vfront_nil. apply Hb'. }
      rewrite E. reflexivity. }
    rewrite <- Hsp in HV.
    split.
    { rewrite HV, vall_split, rev_app_distr, vblocks_app, <- !oapp_assoc. reflexivity. }
    intros pre post Hpre Hpost.
    cbn [vblocks] in Hpost. unfold vblock in Hpost. rewrite Hi in Hpost.
    destruct Hbrk as [(-> & -> & -> & Hd & Hit)|(q1 & j1 & m & d1 & its & -> & HN1 & Hd & Hit)]; rewrite Hit in Hpost.
    + left. split; auto.
      assert (E : vfront w (g_done g') [] look_end = Some (g_done g')).
      { eapply vfront_nil. apply Hb'. }
      rewrite E in Hpost. cbn [vblocks oapp obind] in Hpost.
      injection Hpost as Hpost. apply app_inv_head in Hpost. auto.
    + right. rewrite vfront_event in Hpost. apply oapp_some in Hpost as (y & z & Hy & Hz & E).
      apply vfront_incl in Hy as (e & ->). rewrite <- !app_assoc in E. apply app_inv_head in E.
      exists q1, j1, m, (e ++ z). rewrite E. auto.
  - destruct Hr as [HP HV2]. split; auto. rewrite HV, HV2. simpl. apply oapp_none_r.
Qed.

Definition focus_of (n : nat) (p : printer) (c : chunk) (ft : focus_target) : pres printer :=
  match ft with
  | FStart => seek_start n p c
  | FEnd => seek_end n p c
  | FText pos => seek_text n p c pos
  | FMark => seek_mark n p c
  end.

Lemma focus_spec ft q p c V gp g gn j s :
  at_node q p c V gp g gn j s ->
  exists r, ev (fun n => focus_of n p c ft) r /\
    match r with
    | Ok p' => exists gp' g' gn', rp p' gp' (g' :: gn') /\ focused ft q V gp' g' gn'
    | Fail f => (P f /\ V = None) \/
        (ft = FMark /\ f = FErr MissingFocusMark /\
           forall es, V = Some es -> exists a mid, es = a ++ mid /\ start_at q a /\ NP q j /\ ~ In (EMark j) mid) \/
        (exists n, ft = FText n /\ f = FErr MissingText /\
           forall es, V = Some es -> exists a mid, es = a ++ mid /\ start_at q a /\ existsb is_ftext mid = false) \/
        (exists n, ft = FText n /\ P f /\ exists gp' gm gn' j2 t its,
           vall gp' (gm :: gn') = V /\ g_items gm = GI j2 (SText t) :: its /\ tx_from_text t = true /\ Q j2 (SText t) /\
           prun pos0 (g_done gm ++ [EText j2 (fst (split_at t n))]) = None)
    end.
Proof.
  intros An. destruct ft as [| | |n].
  - destruct (seek_start_spec P_ovf Q_concat (an_rp An) (an_cden An) (an_ok An)) as (r & Hev & Hr).
    exists r. split; [exact Hev|]. rewrite (an_v An) in Hr. destruct r as [p'|f]; auto.
    destruct Hr as (g' & gn' & Hrp & Hh & Hb & Hv & _). exists gp, g', gn'. split; auto.
    split; auto. intros pre post Hpre _. eapply brk_start; [apply An|].
    rewrite <- Hpre. f_equal. f_equal. unfold g_done. rewrite Hh, Hb. reflexivity.
  - destruct (seek_end_node An) as (r & Hev & Hr). exists r. split; [exact Hev|]. destruct r; auto.
  - destruct (seek_mark_spec P_eol P_ovf Q_concat Q_choice Q_child (an_rp An) (an_cden An) (an_ok An)) as (r & Hev & Hr).
    cbv zeta in Hr. rewrite (an_v An) in Hr.
    exists r. split; [exact Hev|]. destruct r as [p'|f].
    + destruct Hr as (gp' & g' & gn' & mid & Hrp & Hadv & Hnm & Hv).
      exists gp', g', gn'. split; auto. split; auto. intros pre post Hpre _.
      rewrite (adv_before w Hadv) in Hpre.
      assert (Hpre2 : oapp (oapp (vblocks w (rev gp)) (Some (g_done g))) (Some (mid ++ [EMark j])) = Some pre).
      { rewrite <- oapp_assoc. exact Hpre. }
      apply oapp_some in Hpre2 as (a & y & Ha & Hy & ->). injection Hy as <-.
      exists a, mid, j. split; auto. split; [eapply brk_start; [apply An|exact Ha]|]. split; auto. apply An.
    + destruct Hr as [Hr|(-> & mid & HV & Hnm)]; auto.
      right; left. split; auto. split; auto. intros es Hes. rewrite HV in Hes.
      assert (Hpre2 : oapp (oapp (vblocks w (rev gp)) (Some (g_done g))) (Some mid) = Some es).
      { rewrite <- oapp_assoc. exact Hes. }
      apply oapp_some in Hpre2 as (a & y & Ha & Hy & ->). injection Hy as <-.
      exists a, mid. split; auto. split; [eapply brk_start; [apply An|exact Ha]|]. split; auto. apply An.
  - destruct (seek_text_spec P_eol P_ovf Q_concat Q_choice Q_child Q_text n (an_rp An) (an_cden An) (an_ok An)) as (r & Hev & Hr).
    cbv zeta in Hr. rewrite (an_v An) in Hr.
    assert (Hbef : forall gp' gm mid, adv gp g gp' gm mid ->
      oapp (vblocks w (rev gp')) (Some (g_done gm)) =
      oapp (oapp (vblocks w (rev gp)) (Some (g_done g))) (Some mid)).
    { intros gp' gm mid Hadv. rewrite (adv_before w Hadv), <- oapp_assoc. reflexivity. }
    exists r. split; [exact Hev|]. destruct r as [p'|f].
    + destruct Hr as (gp' & gm & gn' & mid & j2 & t & its & HV & Hadv & Hns & Hi & Ht & HQ & Hrp).
      eexists gp', _, gn'. split; [exact Hrp|].
      exists gm, mid, j2, t, its, (oapp (vblocks w (rev gp)) (Some (g_done g))).
      split; auto. split; [apply Hbef; auto|].
      split; [intros x Hx; eapply brk_start; [apply An|exact Hx]|].
      repeat (split; [solve [auto]|]). reflexivity.
    + destruct Hr as [Hr|[(HP & gp' & gm & gn' & mid & j2 & t & its & HV & Hadv & Hi & Ht & HQ & Hpr)|(-> & mid & HV & Hns)]]; auto.
      * right; right; right. exists n. split; auto. split; auto. exists gp', gm, gn', j2, t, its. auto.
      * right; right; left. exists n. split; auto. split; auto. intros es Hes. rewrite HV in Hes.
        assert (Hpre2 : oapp (oapp (vblocks w (rev gp)) (Some (g_done g))) (Some mid) = Some es).
        { rewrite <- oapp_assoc. exact Hes. }
        apply oapp_some in Hpre2 as (a & y & Ha & Hy & ->). injection Hy as <-.
        exists a, mid. split; auto. split; [eapply brk_start; [apply An|exact Ha]|]. auto.
Qed.

End Final.
