(** Seeking a child finds its first display: what the search passes over belongs
    to the node whose child is looked for, and the child is not in it. *)
From Verif Require Export PSeek2.

Set Implicit Arguments.

Section First.
Context {pd : PrettyDoc} {env : Env} {ideq : IdEq pd}.

Variable P : failure (perr Er) -> Prop.
Hypothesis P_eol : P (FErr TextAfterEndOfLine).
Hypothesis P_ovf : ovf = true -> P (FPanic POverflow).
Variable Q : Id -> shape -> Prop.
Hypothesis Q_concat : forall j a b, Q j (SConcat a b) -> Q j a /\ Q j b.
Hypothesis Q_choice : forall j a b, Q j (SChoice a b) -> Q j a /\ Q j b.
Hypothesis Q_child : forall j n j' s, Q j (SChild n (Ok j') s) -> Q j' s.

Notation ritems := (ritems P Q).
Notation rblock := (rblock P Q).
Notation okpart := (okpart P Q).
Notation allf := (allf P).

Variable w : N.
Notation stepF := (stepF P Q w).
Notation rp := (rp P Q w).
Notation vall := (vall w).

Section SeekFirst.
Variable pid : Id.
Variable i : nat.
(** The nodes below [pid]. *)
Variable De : Id -> Prop.
Hypothesis De_pid : forall k, De k -> k <> pid.
Hypothesis De_child : forall k n k' s, k = pid \/ De k -> Q k (SChild n (Ok k') s) -> De k'.
(** What is left to print after the node. *)
Variable B : list item.
Hypothesis B_pid : Forall (fun it => match it with GI k _ => k <> pid | _ => True end) B.

Definition Dp (k : Id) : Prop := k = pid \/ De k.

(** An event of the node or of one below it. *)
Definition evin0 (e : event) : Prop :=
  match e with EEnter k _ | EExit k _ => Dp k | _ => True end.
Definition evin (e : event) : Prop := evin0 e /\ e <> EEnter pid i.

Definition itD (it : item) : Prop :=
  match it with GI k _ => De k | GE (EExit k _) => Dp k | GE _ => False end.
Definition itS (it : item) : Prop :=
  match it with GI k _ => Dp k | GE (EExit k _) => Dp k | GE _ => False end.

(** What is left to print: the node being displayed inside [pid], then the rest
    of [pid], then what comes after it. *)
Definition deJ (its : list item) : Prop :=
  exists D J, its = D ++ J ++ B /\ Forall itD D /\ Forall (tagged pid) J.

Lemma itD_S it : itD it -> itS it.
Proof. destruct it as [k s|[]]; simpl; auto. intros H. right. exact H. Qed.
Lemma tagged_S it : tagged pid it -> itS it.
Proof. intros [s ->]. left. reflexivity. Qed.

Lemma exits_in ex D2 : exits ex -> Forall itD (map GE ex ++ D2) -> Forall evin ex.
Proof.
  unfold exits. rewrite forallb_forall. intros He H. apply Forall_app in H as [H _].
  apply Forall_forall. intros e Hin. pose proof (He _ Hin) as Hx.
  rewrite Forall_forall in H. specialize (H (GE e) (in_map GE _ _ Hin)).
  destruct e; try discriminate. split; [exact H|discriminate].
Qed.

(** The first item. *)
Lemma front_DJ : forall ex k s R D J, map GE ex ++ GI k s :: R = D ++ J ++ B -> Forall itD D ->
  Forall (tagged pid) J -> J <> [] ->
  (exists D2, D = map GE ex ++ GI k s :: D2 /\ R = D2 ++ J ++ B) \/
  (D = map GE ex /\ exists J2, J = GI k s :: J2 /\ R = J2 ++ B).
Proof.
  induction ex as [|e ex IH]; intros k s R D J E HD HJ Hne; destruct D as [|d D]; cbn [map app] in E.
  - right. split; [reflexivity|]. destruct J as [|x J]; [congruence|]. injection E as <- ->. exists J. auto.
  - left. injection E as <- ->. exists D. auto.
  - exfalso. destruct J as [|x J]; [congruence|]. injection E as <- _. apply Forall_inv in HJ. destruct HJ as [s' Hs]. discriminate.
  - injection E as <- E. apply Forall_inv_tail in HD.
    destruct (IH _ _ _ _ _ E HD HJ Hne) as [(D2 & -> & ->)|(-> & J2 & -> & ->)].
    + left. exists D2. auto.
    + right. split; [reflexivity|]. eauto.
Qed.

Lemma DJ_nonempty l x D J : l = D ++ J ++ B -> In x l -> tagged pid x -> Forall itD D -> J <> [].
Proof.
  intros -> Hin [s ->] HD ->. simpl in Hin. apply in_app_or in Hin as [Hin|Hin].
  - rewrite Forall_forall in HD. apply HD in Hin. apply De_pid in Hin. congruence.
  - rewrite Forall_forall in B_pid. apply B_pid in Hin. congruence.
Qed.

(** A prefix before an item of the node. *)
Lemma prefix_DJ : forall l R x D J, l ++ R = D ++ J ++ B -> Forall itD D -> Forall (tagged pid) J ->
  In x R -> tagged pid x -> Forall itS l /\ deJ R.
Proof.
  induction l as [|y l IH]; intros R x D J E HD HJ Hin Hx.
  - split; [constructor|]. exists D, J. auto.
  - destruct D as [|d D]; [destruct J as [|z J]|]; cbn [app] in E.
    + exfalso. rewrite Forall_forall in B_pid. destruct Hx as [s ->].
      assert (Hb : In (GI pid s) B) by (rewrite <- E; right; apply in_or_app; auto).
      apply B_pid in Hb. congruence.
    + injection E as <- E. destruct (IH R x [] J E) as [H1 H2]; auto.
      { inversion HJ; auto. }
      split; [|exact H2]. constructor; auto. apply tagged_S. inversion HJ; auto.
    + injection E as <- E. destruct (IH R x D J E) as [H1 H2]; auto.
      { inversion HD; auto. }
      split; [|exact H2]. constructor; auto. apply itD_S. inversion HD; auto.
Qed.

Lemma relevant_in its cs : ritems its cs -> existsb (relevant_chunk pid i) cs = true ->
  exists x, In x its /\ tagged pid x.
Proof.
  induction 1 as [|j n its cs H IH|c j s its cs [Hc1 Hc2] Ho He H IH]; simpl; intros E.
  - discriminate.
  - destruct (IH E) as (x & H1 & H2). eauto.
  - apply orb_true_iff in E as [E|E].
    + exists (GI j s). split; [auto|]. exists s. f_equal. unfold relevant_chunk in E.
      destruct (ck_note c); try discriminate.
      * apply id_eqb_spec in E. congruence.
      * apply andb_true_iff in E as [E _]. apply id_eqb_spec in E. congruence.
    + destruct (IH E) as (x & H1 & H2). eauto.
Qed.

(** One step of the search. *)
Lemma step_DJ R ex k s its X L :
  deJ (map GE ex ++ GI k s :: R) -> (exists x, In x (map GE ex ++ GI k s :: its) /\ tagged pid x) ->
  R = its ++ L -> okpart k s -> exits ex -> grown k s X ->
  deJ (X ++ R) /\ Forall evin ex /\ Dp k.
Proof.
  intros (D & J & E & HD & HJ) (x & Hx1 & Hx2) ER [Hf HQ] Hex HX.
  assert (Hne : J <> []).
  { eapply DJ_nonempty; [exact E| |exact Hx2|exact HD]. rewrite ER.
    change (GI k s :: its ++ L) with ((GI k s :: its) ++ L). rewrite app_assoc. apply in_or_app. left. exact Hx1. }
  destruct (@front_DJ _ _ _ _ _ _ E HD HJ Hne) as [(D2 & -> & ->)|(-> & J2 & -> & ->)].
  - pose proof (@exits_in ex _ Hex HD) as Hev.
    apply Forall_app in HD as [_ HD]. inversion HD as [|? ? Hk HD2]; subst. simpl in Hk.
    split; [|split; [exact Hev|right; exact Hk]].
    exists (X ++ D2), J. rewrite <- app_assoc. split; [reflexivity|]. split; [|exact HJ].
    apply Forall_app. split; [|exact HD2].
    assert (Htag : forall k' Y, De k' -> Forall (tagged k') Y -> Forall itD Y).
    { intros k' Y Hk' HY. eapply Forall_impl; [|exact HY]. intros y [s' ->]. exact Hk'. }
    destruct s; simpl in HX; try (subst X; constructor).
    + eauto.
    + destruct HX as (j' & Y & -> & -> & HY). apply Forall_app. split.
      * eapply Htag; [|exact HY]. eapply De_child; [right; exact Hk|exact HQ].
      * constructor; [right; exact Hk|constructor].
  - assert (HD' : Forall itD (map GE ex ++ [])) by (rewrite app_nil_r; exact HD).
    pose proof (@exits_in ex _ Hex HD') as Hev.
    inversion HJ as [|? ? Hk HJ2]; subst. destruct Hk as [s1 Hk]. injection Hk as -> <-.
    split; [|split; [exact Hev|left; reflexivity]].
    destruct s; simpl in HX; try (subst X; exists [], J2; simpl; auto).
    + exists [], (X ++ J2). rewrite <- app_assoc. split; [reflexivity|]. split; [constructor|].
      apply Forall_app. auto.
    + destruct HX as (j' & Y & -> & -> & HY). exists (Y ++ [GE (EExit pid n)]), J2.
      split; [reflexivity|]. split; [|exact HJ2]. apply Forall_app. split.
      * eapply Forall_impl; [|exact HY]. intros y [s' ->].
        simpl. eapply De_child; [left; reflexivity|exact HQ].
      * constructor; [left; reflexivity|constructor].
Qed.

(** The outcome of the search in one block. *)
Definition scf (gp : list gblock) (g : gblock) (gn : list gblock) (r : pres seek_child_end) : Prop :=
    match r with
    | Ok (ScFound p' d) => exists g' gn' s' mid its J2,
        let ci := lift (m_id (dl_doc d)) in
        rp p' gp (g' :: gn') /\ g_head g' = g_head g /\
        g_body g' = g_body g ++ mid ++ [EEnter pid i] /\ Forall evin mid /\
        g_items g' = GE (EExit pid i) :: its /\
        den ci s' (eval d) /\ okpart pid (SChild i ci s') /\
        vall gp (g :: gn) =
          match ci with
          | Ok j' => vall gp (set_items g' (GI j' s' :: g_items g') :: gn')
          | Fail _ => None
          end /\
        its ++ gitems gn' = J2 ++ B /\ Forall (tagged pid) J2
    | Ok (ScBreak p') => exists g' gn' mid gnb,
        rp p' gp (g' :: gn') /\ vall gp (g' :: gn') = vall gp (g :: gn) /\
        g_head g' = g_head g /\ g_body g' = g_body g ++ mid /\ Forall evin mid /\
        gn' = gnb ++ gn /\ Forall fresh gnb /\
        its_size (g_items g') + gs_size gn' < its_size (g_items g) + gs_size gn /\
        deJ (gitems (g' :: gn'))
    | Ok (ScExhausted _) => False
    | Fail f => P f /\ vall gp (g :: gn) = None
    end.

Lemma fc_inner : forall cs p b gp g gn,
  bl_chunks b = cs -> deJ (gitems (g :: gn)) -> rp (push_next p b) gp (g :: gn) -> existsb (relevant_chunk pid i) cs = true ->
  exists r, loops (fun n => seek_child_body n pid i) (p, b) r /\
    scf gp g gn r.
Proof.
  induction cs as [|c cs IH]; intros p b gp g gn Ec HdJ Hrp Hrel; [discriminate|].
  assert (Hb : rblock b g) by (destruct Hrp as [_ _ H3 _ _]; inversion H3; auto).
  assert (Hw : pr_width p = w) by apply Hrp.
  assert (Hrin : exists x, In x (g_items g) /\ tagged pid x).
  { eapply relevant_in; [apply Hb|]. rewrite Ec. exact Hrel. }
  destruct (relevant_chunk pid i c && match ck_note c with CChild _ _ => true | _ => false end) eqn:Efound.
  - (* found *)
    apply andb_true_iff in Efound as [Er Ek].
    pose proof (rb_items Hb) as Hi. rewrite Ec in Hi.
    apply ritems_cons in Hi as (ex & j & s & its & Hex & Hi & [Hci Hcd] & Ho & Hx & Hits).
    unfold relevant_chunk in Er.
    destruct (ck_note c) as [| | | | | |n d|] eqn:En; try discriminate.
    pose proof Er as Er0.
    apply andb_true_iff in Er as [Er1 Er2]. apply id_eqb_spec in Er1. apply Nat.eqb_eq in Er2. subst n.
    assert (Ej : j = pid) by congruence. rewrite Ej in *. clear Ej j.
    destruct s as [| | | | | | |cn ci s'|]; try contradiction. destruct Hcd as (-> & Hid & Hd).
    exists (Ok (ScFound (push_next p (set_chunks b cs)) d)). split.
    { apply loops_done. exists 0. intros k _. unfold seek_child_body. rewrite Ec, En, Er0. reflexivity. }
    set (g0 := add_ev g ex (GI pid (SChild i ci s') :: its)).
    assert (Hb0 : rblock b g0).
    { refine (rblock_exits Hb Hex Hi _). rewrite Ec. constructor; auto. split; auto. rewrite En. simpl. auto. }
    assert (Hv0 : vall gp (g0 :: gn) = vall gp (g :: gn)).
    { rewrite !vall_split. f_equal. f_equal. apply (vblock_exits w _ _ _ Hi). }
    exists (add_ev g0 [EEnter pid i] (GE (EExit pid i) :: its)), gn, s', ex, its.
    destruct HdJ as (D & J & EJ & HD & HJ).
    change (gitems (g :: gn)) with (g_items g ++ gitems gn) in EJ.
    destruct Hrin as (x & Hxin & Hxt).
    assert (Hne : J <> []).
    { eapply DJ_nonempty; [exact EJ| |exact Hxt|exact HD]. apply in_or_app. left. exact Hxin. }
    rewrite Hi, <- app_assoc in EJ. cbn [app] in EJ.
    destruct (@front_DJ _ _ _ _ _ _ EJ HD HJ Hne) as [(D2 & -> & _)|(-> & J2 & -> & EJ2)].
    { exfalso. apply Forall_app in HD as [_ HD]. inversion HD as [|? ? Hk _]. apply De_pid in Hk. congruence. }
    exists J2.
    cbv zeta. rewrite Hid.
    split.
    { destruct Hrp as [H1 H2 H3 H4 H5]. constructor; simpl; auto.
      - constructor; [|inversion H3; auto]. apply rblock_silent; auto. constructor; auto.
      - eapply heads_ok_replace; eauto. }
    split; [reflexivity|]. split; [simpl; rewrite <- app_assoc; reflexivity|].
    split; [eapply (@exits_in ex []); [exact Hex|rewrite app_nil_r; exact HD]|]. split; [reflexivity|]. split; [exact Hd|].
    split; [exact Ho|]. split; [|split; [exact EJ2|inversion HJ; auto]].
    rewrite <- Hv0. destruct ci as [j'|f].
    + rewrite !vall_split. f_equal. f_equal. rewrite set_items_add.
      unfold vblock. simpl g_items. rewrite vfront_child_ok, g_done_add. reflexivity.
    + apply vall_fail. unfold vblock. simpl g_items. apply vfront_child_fail.
  - destruct (next_step P_eol P_ovf Q_concat Q_choice Q_child p Hb Ec Hw) as (r & Hev & Hr).
    assert (Hcev : forall ex, exits ex -> ~ In (EEnter pid i) (ex ++ cev c)).
    { intros ex Hex Hin. apply in_app_or in Hin as [Hin|Hin]; [eapply exits_no_enter; eauto|].
      assert (Hr0 : relevant_chunk pid i c = true).
      { destruct (cev c) as [|e l] eqn:El; [contradiction|].
        assert (l = []). { unfold cev in El. destruct (ck_note c); try discriminate El; injection El; auto. }
        subst l. rewrite <- El in Hin. eapply cev_enter; eauto. }
      rewrite Hr0 in Efound. unfold cev in Hin. destruct (ck_note c); simpl in *; try discriminate; try contradiction;
        destruct Hin as [Hin|[]]; discriminate. }
    destruct r as [[[p' b']|]|f]; [|contradiction|].
    + destruct Hr as (ex & [Hex (k0 & s0 & its0 & Hg0 & Hck & Ho0)] & Hst).
      destruct (stepF_rp Hrp Hst) as (g' & gn' & Hrp' & Hv & Hh & Hbd & Hz & Hpp & Hpw & (gnb & Hgn & Hfr & Hgr)).
      destruct (Hgr _ _ _ _ Hg0) as (X & HX1 & HX2).
      assert (HdJ2 : deJ (gitems (g' :: gn')) /\ Forall evin (ex ++ cev c)).
      { change (gitems (g :: gn)) with (g_items g ++ gitems gn) in HdJ. rewrite Hg0 in HdJ, Hrin.
        rewrite <- app_assoc in HdJ. cbn [app] in HdJ.
        destruct (@step_DJ (its0 ++ gitems gn) ex k0 s0 its0 X (gitems gn) HdJ Hrin eq_refl Ho0 Hex HX2) as (H1 & H2 & H3).
        split.
        - change (gitems (g' :: gn')) with (g_items g' ++ gitems gn'). rewrite Hgn, gitems_app, app_assoc, HX1, <- app_assoc. exact H1.
        - apply Forall_app. split; [exact H2|]. apply Forall_forall. intros e He. split.
          + unfold cev in He. destruct (ck_note c); simpl in He; try contradiction;
              destruct He as [<-|[]]; simpl; auto. rewrite Hck. exact H3.
          + intros ->. apply (Hcev [] eq_refl). exact He. }
      destruct HdJ2 as [HdJ2 Hcin].
      assert (Hsil : (forall n, seek_child_body n pid i (p, b) =
          match print_next_body n (p, b) with
          | Ok (Next s) => Ok (Next s)
          | Ok (Done _) => Panic PUnexpandedChunk
          | Fail f => Fail f end) ->
        bl_chunks b' = cs -> p' = p -> existsb (relevant_chunk pid i) cs = true ->
        exists r, loops (fun n => seek_child_body n pid i) (p, b) r /\
        scf gp g gn r).
      { intros Hsame Hb'c Hp'p Hrel'. subst p'.
        destruct (IH p b' gp g' gn' Hb'c HdJ2 Hrp' Hrel') as (r & Hl & Hr).
        exists r. split.
        { eapply loops_next; [|exact Hl]. destruct Hev as [N Hev]. exists N. intros n Hn.
          rewrite Hsame, Hev by auto. reflexivity. }
        destruct r as [[p2 d|p2|p2]|f]; [| |contradiction|].
        - destruct Hr as (g2 & gn2 & s' & mid & its & J2 & H1 & H2 & H3 & H4 & H5 & H6 & H7 & H8 & H9).
          exists g2, gn2, s', ((ex ++ cev c) ++ mid), its, J2. cbv zeta in *.
          split; [auto|]. split; [congruence|]. split; [rewrite H3, Hbd, <- !app_assoc; reflexivity|].
          split; [apply Forall_app; auto|].
          split; [auto|]. split; [auto|]. split; [auto|]. rewrite <- Hv. split; [exact H8|exact H9].
        - destruct Hr as (g2 & gn2 & mid & gnb2 & H1 & H2 & H3 & H4 & H5 & H6 & H7 & H8 & H9).
          exists g2, gn2, ((ex ++ cev c) ++ mid), (gnb2 ++ gnb).
          split; [auto|]. split; [congruence|]. split; [congruence|].
          split; [rewrite H4, Hbd, <- !app_assoc; reflexivity|].
          split; [apply Forall_app; auto|].
          split; [rewrite H6, Hgn, app_assoc; reflexivity|].
          split; [apply Forall_app; auto|]. split; [lia|exact H9].
        - destruct Hr as [HP HV]. split; auto. congruence. }
      assert (Hbrk : (forall n, seek_child_body n pid i (p, b) =
          match print_next_body n (p, b) with
          | Ok (Next (p, b)) => Ok (Done (ScBreak (push_next p b)))
          | Ok (Done _) => Panic PUnexpandedChunk
          | Fail f => Fail f end) ->
        exists r, loops (fun n => seek_child_body n pid i) (p, b) r /\
        scf gp g gn r).
      { intros Hsame. exists (Ok (ScBreak (push_next p' b'))). split.
        { apply loops_done. destruct Hev as [N Hev]. exists N. intros n Hn.
          rewrite Hsame, Hev by auto. reflexivity. }
        exists g', gn', (ex ++ cev c), gnb. repeat (split; [solve [auto]|]). exact HdJ2. }
      assert (Hdet : forall x, (forall n, print_next_body n (p, b) = x) -> Ok (Next (p', b')) = x).
      { intros x Hx. eapply ev_det; [exact Hev|]. exists 0. intros. apply Hx. }
      simpl in Hrel.
      destruct (ck_note c) as [| |ind'|t'|da db|da db|n' d|] eqn:En.
      * exfalso. assert (Ex : @Ok (perr Er) (step (printer * block) (printer * block)) (Next (p', b')) = Panic PUnexpandedChunk); [|discriminate Ex].
        apply Hdet. intros n. unfold print_next_body. rewrite Ec, En. reflexivity.
      * assert (Ex : @Ok (perr Er) (step (printer * block) (printer * block)) (Next (p', b')) = Ok (Next (p, set_eol (set_chunks b cs)))).
        { apply Hdet. intros n. unfold print_next_body. rewrite Ec, En. reflexivity. }
        injection Ex as E1 E2.
        apply Hsil; subst; auto.
        -- intros n. unfold seek_child_body, print_next_body. rewrite Ec, En. reflexivity.
        -- unfold relevant_chunk in Hrel. rewrite En in Hrel. exact Hrel.
      * exfalso. assert (Ex : @Ok (perr Er) (step (printer * block) (printer * block)) (Next (p', b')) = Panic PUnexpandedChunk); [|discriminate Ex].
        apply Hdet. intros n. unfold print_next_body. rewrite Ec, En. reflexivity.
      * destruct (push_text (set_chunks b cs) t') as [b2|f] eqn:Ept.
        -- assert (Ex : @Ok (perr Er) (step (printer * block) (printer * block)) (Next (p', b')) = Ok (Next (p, b2))).
           { apply Hdet. intros n. unfold print_next_body. rewrite Ec, En, Ept. reflexivity. }
           injection Ex as E1 E2.
           apply Hsil; subst; auto.
           ++ intros n. unfold seek_child_body, print_next_body. rewrite Ec, En, Ept. reflexivity.
           ++ unfold push_text in Ept. destruct (bl_at_eol _); [discriminate|].
              destruct (add16 _ _ _); [|discriminate]. injection Ept as <-. reflexivity.
           ++ unfold relevant_chunk in Hrel. rewrite En in Hrel. exact Hrel.
        -- exfalso. assert (Ex : @Ok (perr Er) (step (printer * block) (printer * block)) (Next (p', b')) = Fail f); [|discriminate Ex].
           apply Hdet. intros n. unfold print_next_body. rewrite Ec, En, Ept. reflexivity.
      * exfalso. assert (Ex : @Ok (perr Er) (step (printer * block) (printer * block)) (Next (p', b')) = Panic PUnexpandedChunk); [|discriminate Ex].
        apply Hdet. intros n. unfold print_next_body. rewrite Ec, En. reflexivity.
      * apply Hbrk. intros n. unfold seek_child_body, print_next_body. rewrite Ec, En.
        destruct (choose _ _ _ _ _); [|reflexivity]. simpl. destruct (expand_first _ _ _ _) as [[]|]; reflexivity.
      * apply Hbrk. intros n. unfold seek_child_body, print_next_body. rewrite Ec, En.
        unfold relevant_chunk in Efound. rewrite En in Efound. rewrite andb_true_r in Efound. rewrite Efound.
        destruct (chunk_new _); [|reflexivity]. simpl. destruct (expand_first _ _ _ _) as [[]|]; reflexivity.
      * assert (Ex : @Ok (perr Er) (step (printer * block) (printer * block)) (Next (p', b')) = Ok (Next (p, set_chunks b cs))).
        { apply Hdet. intros n. unfold print_next_body. rewrite Ec, En. reflexivity. }
        injection Ex as E1 E2.
        apply Hsil; subst; auto.
        -- intros n. unfold seek_child_body, print_next_body. rewrite Ec, En. reflexivity.
        -- unfold relevant_chunk in Hrel. rewrite En in Hrel. exact Hrel.
    + exists (Fail f). destruct Hr as [HP HV]. split; [|split; auto; apply vall_fail; auto].
      apply loops_fail. destruct Hev as [N Hev]. exists N. intros n Hn.
      specialize (Hev n Hn). unfold print_next_body in Hev.
      unfold seek_child_body. rewrite Ec in *.
      destruct (ck_note c) as [| |ind'|t'|da db|da db|n' d|] eqn:En; try discriminate Hev;
        try (injection Hev as <-; reflexivity).
      * destruct (push_text _ _); [discriminate|]. injection Hev as <-. reflexivity.
      * destruct (choose _ _ _ _ _); simpl in *.
        -- destruct (expand_first _ _ _ _) as [[]|]; [discriminate|]. injection Hev as <-. reflexivity.
        -- injection Hev as <-. reflexivity.
      * unfold relevant_chunk in Efound. rewrite En in Efound. rewrite andb_true_r in Efound. rewrite Efound.
        destruct (chunk_new _); simpl in *.
        -- destruct (expand_first _ _ _ _) as [[]|]; [discriminate|]. injection Hev as <-. reflexivity.
        -- injection Hev as <-. reflexivity.
Qed.


(** ** What skipped blocks print *)

Lemma rend_De s : forall k kk p es p', rend w s k kk p = Some (es, p') -> Q k s -> De k -> Forall evin es.
Proof.
  induction s as [f| | |ind|t|a IHa b IHb|a IHa b IHb|n j s IH|]; intros k kk p es p'; cbn [rend]; intros H HQ Hk.
  - discriminate.
  - injection H as <- <-. constructor.
  - injection H as <- <-. constructor; [split; [exact I|discriminate]|constructor].
  - apply obind_some in H as [x [_ [= <- <-]]]. constructor; [split; [exact I|discriminate]|constructor].
  - apply obind_some in H as [x [_ [= <- <-]]]. constructor; [split; [exact I|discriminate]|constructor].
  - apply obind_some in H as [[e1 p1] [H1 H]]. apply obind_some in H as [[e2 p2] [H2 [= <- <-]]].
    destruct (Q_concat HQ) as [Ha Hb]. apply Forall_app. split; eauto.
  - destruct (head_fails a); [discriminate|].
    apply obind_some in H as [f [_ H]]. destruct (Q_choice HQ) as [Ha Hb]. destruct f; eauto.
  - destruct j as [j'|]; [|discriminate].
    apply obind_some in H as [[e1 p1] [H1 [= <- <-]]].
    assert (Hj : De j') by (eapply De_child; [right; exact Hk|exact HQ]).
    constructor.
    + split; [right; exact Hk|]. intros E. injection E as -> _. apply De_pid in Hk. congruence.
    + apply Forall_app. split; [eapply IH; [exact H1|eapply Q_child; exact HQ|exact Hj]|].
      constructor; [split; [right; exact Hk|discriminate]|constructor].
  - injection H as <- <-. constructor; [split; [exact I|discriminate]|constructor].
Qed.

Lemma rend_Dp0 s : forall k kk p es p', rend w s k kk p = Some (es, p') -> Q k s -> Dp k -> Forall evin0 es.
Proof.
  induction s as [f| | |ind|t|a IHa b IHb|a IHa b IHb|n j s IH|]; intros k kk p es p'; cbn [rend]; intros H HQ Hk.
  - discriminate.
  - injection H as <- <-. constructor.
  - injection H as <- <-. repeat constructor.
  - apply obind_some in H as [x [_ [= <- <-]]]. repeat constructor.
  - apply obind_some in H as [x [_ [= <- <-]]]. repeat constructor.
  - apply obind_some in H as [[e1 p1] [H1 H]]. apply obind_some in H as [[e2 p2] [H2 [= <- <-]]].
    destruct (Q_concat HQ) as [Ha Hb]. apply Forall_app. split; eauto.
  - destruct (head_fails a); [discriminate|].
    apply obind_some in H as [f [_ H]]. destruct (Q_choice HQ) as [Ha Hb]. destruct f; eauto.
  - destruct j as [j'|]; [|discriminate].
    apply obind_some in H as [[e1 p1] [H1 [= <- <-]]].
    assert (Hj : De j') by (eapply De_child; [exact Hk|exact HQ]).
    constructor; [exact Hk|]. apply Forall_app. split; [eapply IH; [exact H1|eapply Q_child; exact HQ|right; exact Hj]|].
    constructor; [exact Hk|constructor].
  - injection H as <- <-. repeat constructor.
Qed.

Lemma rend_irr s k kk p es p' : rend w s k kk p = Some (es, p') -> Q k s -> Dp k -> expanded s ->
  irr_item pid i (GI k s) -> Forall evin es.
Proof.
  intros H HQ [->|Hk] Hx Hirr; [|eapply rend_De; eauto].
  destruct s as [f| | |ind|t|a b|a b|n j s|]; simpl in Hx; try contradiction; cbn [rend] in H; simpl in Hirr.
  - injection H as <- <-. constructor; [split; [exact I|discriminate]|constructor].
  - apply obind_some in H as [x [_ [= <- <-]]]. constructor; [split; [exact I|discriminate]|constructor].
  - destruct j as [j'|]; [|discriminate].
    apply obind_some in H as [[e1 p1] [H1 [= <- <-]]].
    assert (Hj : De j') by (eapply De_child; [left; reflexivity|exact HQ]).
    constructor.
    + split; [left; reflexivity|]. intros E. injection E as ->. auto.
    + apply Forall_app. split; [eapply rend_De; [exact H1|eapply Q_child; exact HQ|exact Hj]|].
      constructor; [split; [left; reflexivity|discriminate]|constructor].
  - injection H as <- <-. constructor; [split; [exact I|discriminate]|constructor].
Qed.

Lemma its_evin its cs : ritems its cs -> Forall (irr_item pid i) its -> Forall itS its ->
  forall kk p es p', rend_its w its kk p = Some (es, p') -> Forall evin es.
Proof.
  induction 1 as [|j n its cs H IH|c j s its cs Hc Ho Hx H IH]; intros Hirr HS kk p es p' E; cbn [rend_its] in E.
  - injection E as <- <-. constructor.
  - inversion Hirr; inversion HS; subst.
    apply obind_some in E as [[e1 p1] [E1 E]]. apply obind_some in E as [[e2 p2] [E2 [= <- <-]]].
    apply Forall_app. split; [|eauto]. apply obind_some in E1 as [x [_ [= <- <-]]].
    constructor; [|constructor]. split; [assumption|discriminate].
  - inversion Hirr; inversion HS; subst.
    apply obind_some in E as [[e1 p1] [E1 E]]. apply obind_some in E as [[e2 p2] [E2 [= <- <-]]].
    apply Forall_app. split; [|eauto]. eapply rend_irr; eauto. apply Ho.
Qed.

Lemma block_evin b g x : rblock b g -> girr pid i g -> Forall itS (g_items g) -> vblock w g = Some x ->
  exists y, x = g_done g ++ y /\ Forall evin y.
Proof.
  intros Hb Hirr HS H. unfold vblock, vfront in H. apply obind_some in H as [q [_ H]].
  apply obind_some in H as [[e p'] [H [= <-]]]. exists e. split; [reflexivity|].
  eapply its_evin; [apply Hb|exact Hirr|exact HS|exact H].
Qed.

(** Since the search for the child started at [d0], only the node's own things were seen. *)
Definition ftrail (d0 : list event) (gs : list gblock) : Prop :=
  match gs with
  | [] => False
  | g :: gs' => exists m, g_done g = d0 ++ m /\ Forall evin m /\
      Forall (fun g => Forall evin (g_done g)) gs'
  end.

Lemma fresh_evin g : fresh g -> Forall evin (g_done g).
Proof.
  intros [Hx1 Hx2]. unfold g_done. rewrite Hx2, app_nil_r.
  destruct (g_head g); simpl; [|constructor]. constructor; [split; [exact I|discriminate]|constructor].
Qed.

Lemma ftrail_step d0 pre g g' gnb gn mid :
  ftrail d0 (pre ++ g :: gn) -> g_head g' = g_head g -> g_body g' = g_body g ++ mid ->
  Forall evin mid -> Forall fresh gnb ->
  ftrail d0 (pre ++ g' :: gnb ++ gn).
Proof.
  intros Ht Hh Hb Hm Hf.
  assert (Hd : g_done g' = g_done g ++ mid).
  { unfold g_done. rewrite Hh, Hb, app_assoc. reflexivity. }
  assert (Hf' : Forall (fun g => Forall evin (g_done g)) gnb).
  { eapply Forall_impl; [|exact Hf]. apply fresh_evin. }
  destruct pre as [|g1 pre]; simpl in *.
  - destruct Ht as (m & H1 & H2 & H3). exists (m ++ mid).
    split; [rewrite Hd, H1, app_assoc; reflexivity|].
    split; [apply Forall_app; auto|]. apply Forall_app. auto.
  - destruct Ht as (m & H1 & H2 & H3). exists m. split; auto. split; auto.
    apply Forall_app in H3 as [H3 H4]. inversion H4; subst.
    apply Forall_app. split; auto. constructor; [|apply Forall_app; auto].
    rewrite Hd. apply Forall_app. auto.
Qed.

Lemma blocks_evin : forall nd bs x, Forall2 rblock bs nd -> Forall (girr pid i) nd -> Forall itS (gitems nd) ->
  Forall (fun g => Forall evin (g_done g)) nd -> vblocks w nd = Some x -> Forall evin x.
Proof.
  induction nd as [|g nd IH]; intros bs x Hb Hirr HS Hd H.
  - injection H as <-. constructor.
  - inversion Hb; subst. inversion Hirr; subst. inversion Hd; subst.
    change (gitems (g :: nd)) with (g_items g ++ gitems nd) in HS. apply Forall_app in HS as [HS1 HS2].
    cbn [vblocks] in H. apply oapp_some in H as (y & z & Hy & Hz & ->).
    assert (Hy0 : exists y', y = g_done g ++ y' /\ Forall evin y') by (eapply block_evin; eauto).
    destruct Hy0 as (y' & -> & Hy').
    apply Forall_app. split; [apply Forall_app; auto|]. eauto.
Qed.

(** The events between the start of the search and block [g]. *)
Lemma ftrail_events nd bs d0 g x gr : Forall2 rblock bs nd -> Forall (girr pid i) nd -> Forall itS (gitems nd) ->
  ftrail d0 (nd ++ g :: gr) -> oapp (vblocks w nd) (Some (g_done g)) = Some x ->
  exists mid, x = d0 ++ mid /\ Forall evin mid.
Proof.
  intros Hb Hirr HS Ht H. apply oapp_some in H as (y & z & Hy & Hz & ->). injection Hz as <-.
  destruct nd as [|g1 nd].
  - injection Hy as <-. destruct Ht as (m & -> & Hm & _). exists m. auto.
  - simpl in Ht. destruct Ht as (m & Hd & Hm & Hf). apply Forall_app in Hf as [Hf1 Hf2].
    inversion Hf2 as [|? ? Hf2' _]; subst.
    inversion Hb; subst. inversion Hirr; subst.
    change (gitems (g1 :: nd)) with (g_items g1 ++ gitems nd) in HS. apply Forall_app in HS as [HS1 HS2].
    cbn [vblocks] in Hy. apply oapp_some in Hy as (y1 & y2 & Hy1 & Hy2 & ->).
    assert (Hy0 : exists y', y1 = g_done g1 ++ y' /\ Forall evin y') by (eapply block_evin; eauto).
    destruct Hy0 as (y' & -> & Hy').
    exists (m ++ y' ++ y2 ++ g_done g). rewrite Hd, <- !app_assoc. split; [reflexivity|].
    rewrite !Forall_app. repeat (split; [solve [auto]|]).
    split; [|exact Hf2']. eapply blocks_evin; eauto.
Qed.

Lemma oapp_pre gp nd d d0 a0 : 
  (forall x, oapp (vblocks w nd) (Some d) = Some x -> exists mid, x = d0 ++ mid /\ Forall evin mid) ->
  oapp (vblocks w (rev (rev nd ++ gp))) (Some d) = Some a0 ->
  exists a mid, oapp (vblocks w (rev gp)) (Some d0) = Some a /\ a0 = a ++ mid /\ Forall evin mid.
Proof.
  intros H E. rewrite rev_app_distr, rev_involutive, vblocks_app, <- oapp_assoc in E.
  apply oapp_some in E as (x & y & Hx & Hy & ->). apply H in Hy as (mid & -> & Hm).
  exists (x ++ d0), mid. rewrite Hx. split; [reflexivity|]. rewrite <- app_assoc. auto.
Qed.

Definition fc_found (gp0 : list gblock) (d0 : list event) (v : option (list event)) (p' : printer) (x : chunk) : Prop :=
  exists gp' g' gn' j' s' d1 its J2,
    rp p' gp' (g' :: gn') /\
    g_done g' = d1 ++ [EEnter pid i] /\
    g_items g' = GE (EExit pid i) :: its /\
    cden x j' s' /\ okpart j' s' /\ Q pid (SChild i (Ok j') s') /\
    vall gp' (set_items g' (GI j' s' :: g_items g') :: gn') = v /\
    its ++ gitems gn' = J2 ++ B /\ Forall (tagged pid) J2 /\
    (forall a0, oapp (vblocks w (rev gp')) (Some d1) = Some a0 ->
       exists a mid, oapp (vblocks w (rev gp0)) (Some d0) = Some a /\ a0 = a ++ mid /\ Forall evin mid).

Lemma fc_outer : forall m p nd0 gp0 gn d0,
  gs_size gn <= m ->
  rp p (rev nd0 ++ gp0) gn -> Forall (girr pid i) nd0 -> Forall itS (gitems nd0) -> deJ (gitems gn) ->
  ftrail d0 (nd0 ++ gn) ->
  exists r, loops (fun n => seek_child_outer n pid i) p r /\
    match r with
    | Ok (p', x) => fc_found gp0 d0 (vall gp0 (nd0 ++ gn)) p' x
    | Fail f => (P f /\ vall gp0 (nd0 ++ gn) = None) \/
        (f = FErr (InvalidPath i) /\
         exists bs gs A, Forall2 rblock bs gs /\ Forall (girr pid i) gs /\ ftrail d0 gs /\
           gitems gs = A ++ B /\ Forall itS A /\
           vall gp0 (nd0 ++ gn) = vall gp0 gs)
    end.
Proof.
  induction m as [m IH] using lt_wf_ind.
  intros p nd0 gp0 gn d0 Hm Hrp Hirr HS HdJ Htr.
  destruct (walk_spec pid i (rp_prev Hrp) (rp_next Hrp)) as (nd & gn' & -> & Hnd & Hp & Hn & Hh).
  destruct (walk pid i (pr_prev p) (pr_next p)) as [prev next] eqn:Ew. cbn [fst snd] in *.
  assert (Hpre : exists bs, Forall2 rblock bs (nd0 ++ nd)).
  { rewrite app_assoc in Hp. apply Forall2_app_inv_r in Hp as (l1 & l2 & Hl1 & Hl2 & ->).
    exists (rev l1).
    assert (H : Forall2 rblock (rev l1) (rev (rev nd ++ rev nd0))).
    { clear -Hl1. induction Hl1; simpl; auto. apply Forall2_app; auto. }
    rewrite rev_app_distr, !rev_involutive in H. exact H. }
  destruct Hpre as [bs0 Hbs0].
  assert (Hirr' : Forall (girr pid i) (nd0 ++ nd)) by (apply Forall_app; auto).
  destruct next as [|b bs].
  - inversion Hn; subst. exists (Fail (FErr (InvalidPath i))). split.
    { apply loops_fail. exists 0. intros n _. unfold seek_child_outer. rewrite Ew. reflexivity. }
    right. split; auto. rewrite app_nil_r in *.
    destruct HdJ as (D & J & EJ & HD & HJ).
    exists bs0, (nd0 ++ nd), (gitems nd0 ++ D ++ J).
    split; [exact Hbs0|]. split; [exact Hirr'|]. split; [exact Htr|].
    split; [rewrite gitems_app, EJ, <- !app_assoc; reflexivity|].
    split; [|reflexivity]. rewrite !Forall_app. split; [exact HS|]. split.
    + eapply Forall_impl; [|exact HD]. apply itD_S.
    + eapply Forall_impl; [|exact HJ]. apply tagged_S.
  - inversion Hn as [|? g ? gn Hb Hn' E1 E2]; subst.
    assert (Hrp1 : rp (Printer (pr_width p) prev (b :: bs)) (rev nd ++ rev nd0 ++ gp0) (g :: gn)).
    { eapply rp_walk; eauto. discriminate. }
    assert (HSJ : Forall itS (gitems nd) /\ deJ (gitems (g :: gn))).
    { destruct HdJ as (D & J & EJ & HD & HJ).
      destruct (relevant_in (rb_items Hb) Hh) as (x & Hx1 & Hx2).
      rewrite gitems_app in EJ. eapply prefix_DJ; [exact EJ|exact HD|exact HJ| |exact Hx2].
      change (gitems (g :: gn)) with (g_items g ++ gitems gn). apply in_or_app. left. exact Hx1. }
    destruct HSJ as [HS1 HdJ1].
    assert (HS' : Forall itS (gitems (nd0 ++ nd))) by (rewrite gitems_app; apply Forall_app; auto).
    destruct (@fc_inner (bl_chunks b) (Printer (pr_width p) prev bs) b (rev nd ++ rev nd0 ++ gp0) g gn eq_refl HdJ1 Hrp1 Hh)
      as (r & Hl & Hr).
    assert (HV : vall (rev nd ++ rev nd0 ++ gp0) (g :: gn) = vall gp0 (nd0 ++ nd ++ g :: gn)).
    { rewrite !vall_walk. reflexivity. }
    apply loops_ev in Hl.
    assert (Hev : ev (fun n => seek_child_outer n pid i p)
      (match r with
       | Ok (ScFound p' d) => x <- chunk_new d ;; Ok (Done (p', x))
       | Ok (ScBreak p') | Ok (ScExhausted p') => Ok (Next p')
       | Fail f => Fail f end)).
    { eapply ev_ext with (f := fun n => r <- loop n (seek_child_body n pid i) (Printer (pr_width p) prev bs, b) ;;
        match r with
        | ScFound p' d => x <- chunk_new d ;; Ok (Done (p', x))
        | ScBreak p' | ScExhausted p' => Ok (Next p')
        end).
      { intros n. unfold seek_child_outer. rewrite Ew. reflexivity. }
      destruct r as [e|f].
      - eapply (ev_bind_ok (fun n r => match r with
          | ScFound p' d => x <- chunk_new d ;; Ok (Done (p', x))
          | ScBreak p' | ScExhausted p' => Ok (Next p')
          end)); [exact Hl|]. destruct e; ev_now.
      - apply (ev_bind_fail (fun n r => match r with
          | ScFound p' d => x <- chunk_new d ;; Ok (Done (p', x))
          | ScBreak p' | ScExhausted p' => Ok (Next p')
          end)). exact Hl. }
    rewrite app_assoc in Htr.
    destruct r as [[p' d|p'|p']|f]; [| |contradiction|].
    + destruct Hr as (g' & gn' & s' & mid & its & J2 & H1 & H2 & H3 & H4 & H5 & H6 & H7 & H8 & H9 & H10).
      cbv zeta in *.
      destruct (lift (m_id (dl_doc d))) as [j'|f] eqn:Eid.
      * destruct (chunk_new_spec _ _ Eid H6) as [(x & Ex & Hx & _)|(f & Ex & ->)].
        -- exists (Ok (p', x)). rewrite Ex in Hev. simpl in Hev. split; [apply loops_done; exact Hev|].
           exists (rev nd ++ rev nd0 ++ gp0), g', gn', j', s', (g_done g ++ mid), its, J2.
           split; [auto|]. split.
           { unfold g_done. rewrite H2, H3, <- !app_assoc. reflexivity. }
           split; [auto|]. split; [auto|]. destruct H7 as [[_ H7] H11].
           split; [split; eauto|]. split; [auto|]. split; [rewrite <- HV, H8; reflexivity|].
           split; [exact H9|]. split; [exact H10|].
           intros a0 Ha0. rewrite app_assoc, <- rev_app_distr in Ha0.
           eapply oapp_pre; [|exact Ha0]. intros y Hy.
           eapply (@ftrail_events (nd0 ++ nd) bs0 d0 (add_ev g mid []) y gn); auto.
           { change gn with ([] ++ gn). eapply ftrail_step; [exact Htr|reflexivity|reflexivity|exact H4|constructor]. }
           rewrite g_done_add. exact Hy.
        -- exists (Fail f). rewrite Ex in Hev. simpl in Hev. split; [apply loops_fail; exact Hev|].
           left. split; [apply H7|]. rewrite <- HV, H8. apply vall_fail. unfold vblock. simpl.
           apply vfront_fail.
      * exists (Fail f). split.
        { apply loops_fail. unfold chunk_new in Hev. rewrite Eid in Hev. exact Hev. }
        left. split; [apply H7|]. congruence.
    + destruct Hr as (g' & gn' & mid & gnb & H1 & H2 & H3 & H4 & H5 & H6 & H7 & H8 & H9).
      subst gn'.
      destruct (IH (gs_size (g' :: gnb ++ gn))) with (p := p') (nd0 := nd0 ++ nd) (gp0 := gp0)
        (gn := g' :: gnb ++ gn) (d0 := d0) as (r & Hl2 & Hr2); auto.
      { rewrite gs_size_app in Hm. simpl in *. lia. }
      { rewrite rev_app_distr, <- app_assoc. exact H1. }
      { eapply ftrail_step; eauto. }
      assert (HV2 : vall gp0 ((nd0 ++ nd) ++ g' :: gnb ++ gn) = vall gp0 (nd0 ++ nd ++ g :: gn)).
      { rewrite <- HV, <- H2. rewrite <- app_assoc, !vall_walk. reflexivity. }
      rewrite HV2 in Hr2.
      exists r. split; [eapply loops_next; [exact Hev|exact Hl2]|]. exact Hr2.
    + exists (Fail f). split; [apply loops_fail; exact Hev|]. destruct Hr. left. split; auto. congruence.
Qed.

End SeekFirst.

Lemma seek_first_spec p c j s i gp g gn (De : Id -> Prop) :
  rp p gp (g :: gn) -> cden c j s -> okpart j s ->
  (forall k, De k -> k <> j) ->
  (forall k n k' s, k = j \/ De k -> Q k (SChild n (Ok k') s) -> De k') ->
  Forall (fun it => match it with GI k _ => k <> j | _ => True end) (gitems (g :: gn)) ->
  let v := vall gp (set_items g (GI j s :: g_items g) :: gn) in
  exists r, ev (fun n => seek_child n p c i) r /\
    match r with
    | Ok (p', x) => fc_found j i De (gitems (g :: gn)) gp (g_done g) v p' x
    | Fail f => (P f /\ v = None) \/
        (f = FErr (InvalidPath i) /\
         exists bs gs A, Forall2 rblock bs gs /\ Forall (girr j i) gs /\ ftrail j i De (g_done g) gs /\
           gitems gs = A ++ gitems (g :: gn) /\ Forall (itS j De) A /\
           v = vall gp gs)
    end.
Proof.
  intros Hrp Hc Ho De1 De2 HB v.
  destruct (seek_start_spec P_ovf Q_concat Hrp Hc Ho) as (r & Hev & Hr).
  assert (Heq : forall n, seek_child n p c i =
    (p' <- seek_start n p c ;; loop n (seek_child_outer n (ck_id c) i) p')).
  { intros n. unfold seek_child, seek_start. destruct (pr_next p); [reflexivity|].
    destruct (expand_first n (set_next p l) b c) as [[]|]; reflexivity. }
  destruct r as [p1|f].
  2: { exists (Fail f). split.
       - eapply ev_ext; [intros; symmetry; apply Heq|].
         apply (ev_bind_fail (fun n p' => loop n (seek_child_outer n (ck_id c) i) p')). exact Hev.
       - left. exact Hr. }
  destruct Hr as (g1 & gn1 & Hrp1 & Hh1 & Hbd1 & Hv1 & X & HX1 & HX2).
  destruct Hc as [Hcid Hcd]. rewrite Hcid in Heq.
  assert (Hgo : forall r, loops (fun n => seek_child_outer n j i) p1 r -> ev (fun n => seek_child n p c i) r).
  { intros r Hl. eapply ev_ext; [intros; symmetry; apply Heq|].
    eapply (ev_bind_ok (fun n p' => loop n (seek_child_outer n j i) p')); [exact Hev|].
    apply loops_ev in Hl. exact Hl. }
  destruct (@fc_outer j i De De1 De2 (gitems (g :: gn)) HB (gs_size (g1 :: gn1)) p1 [] gp (g1 :: gn1) (g_done g))
    as (r & Hl & Hr); auto.
  { constructor. }
  { rewrite HX1. exists [], X. split; [reflexivity|]. split; [constructor|exact HX2]. }
  { exists []. split; [|split; [constructor|]].
    - unfold g_done. rewrite Hh1, Hbd1, app_nil_r. reflexivity.
    - assert (Hf := rp_fresh Hrp1). simpl in Hf.
      eapply Forall_impl; [|exact Hf]. intros x Hx. apply fresh_evin. exact Hx. }
  exists r. split; [apply Hgo; auto|]. simpl in Hr. unfold v. rewrite <- Hv1. exact Hr.
Qed.

End First.
