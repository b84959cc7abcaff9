(** Seeking to a text and to a child. *)
From Verif Require Export PSeek.

Set Implicit Arguments.

Section Seek2.
Context {pd : PrettyDoc} {env : Env} {ideq : IdEq pd}.

Variable P : failure (perr Er) -> Prop.
Hypothesis P_eol : P (FErr TextAfterEndOfLine).
Hypothesis P_ovf : ovf = true -> P (FPanic POverflow).
Variable Q : Id -> shape -> Prop.
Hypothesis Q_concat : forall j a b, Q j (SConcat a b) -> Q j a /\ Q j b.
Hypothesis Q_choice : forall j a b, Q j (SChoice a b) -> Q j a /\ Q j b.
Hypothesis Q_child : forall j n j' s, Q j (SChild n (Ok j') s) -> Q j' s.
Hypothesis Q_text : forall j t n, Q j (SText t) -> Q j (SText (snd (split_at t n))).

Notation ritems := (ritems P Q).
Notation rblock := (rblock P Q).
Notation okpart := (okpart P Q).
Notation allf := (allf P).

Variable w : N.
Notation stepF := (stepF P Q w).
Notation rp := (rp P Q w).
Notation vall := (vall w).

(** ** seek_text *)

Definition is_ftext (e : event) : bool :=
  match e with EText _ t => tx_from_text t | _ => false end.

Lemma seek_text_spec p c pos j s gp g gn :
  rp p gp (g :: gn) -> cden c j s -> okpart j s ->
  let v := vall gp (set_items g (GI j s :: g_items g) :: gn) in
  exists r, ev (fun n => seek_text n p c pos) r /\
    match r with
    | Ok p' => exists gp' gm gn' mid j2 t its,
        vall gp' (gm :: gn') = v /\ adv gp g gp' gm mid /\ existsb is_ftext mid = false /\
        g_items gm = GI j2 (SText t) :: its /\ tx_from_text t = true /\ Q j2 (SText t) /\
        rp p' gp' (add_ev gm [EText j2 (fst (split_at t pos))]
                     (GI j2 (SText (snd (split_at t pos))) :: its) :: gn')
    | Fail f => (P f /\ v = None) \/
        (P f /\ exists gp' gm gn' mid j2 t its,
           vall gp' (gm :: gn') = v /\ adv gp g gp' gm mid /\
           g_items gm = GI j2 (SText t) :: its /\ tx_from_text t = true /\ Q j2 (SText t) /\
           prun pos0 (g_done gm ++ [EText j2 (fst (split_at t pos))]) = None) \/
        (f = FErr MissingText /\ exists mid,
           v = oapp (vblocks w (rev gp)) (Some (g_done g ++ mid)) /\ existsb is_ftext mid = false)
    end.
Proof.
  intros Hrp Hc Ho v.
  destruct (seek_start_spec P_ovf Q_concat Hrp Hc Ho) as (r & Hev & Hr).
  assert (Heq : forall n, seek_text n p c pos =
    (p' <- seek_start n p c ;; loop n (seek_text_outer n pos) p')).
  { intros n. unfold seek_text, seek_start. destruct (pr_next p); [reflexivity|].
    destruct (expand_first n (set_next p l) b c) as [[]|]; reflexivity. }
  destruct r as [p1|f].
  2: { exists (Fail f). split.
       - eapply ev_ext; [intros; symmetry; apply Heq|].
         apply (ev_bind_fail (fun n p' => loop n (seek_text_outer n pos) p')). exact Hev.
       - left. exact Hr. }
  destruct Hr as (g1 & gn1 & Hrp1 & Hh1 & Hbd1 & Hv1 & _).
  assert (Hadv0 : adv gp g gp g1 []).
  { apply adv_refl; auto. rewrite app_nil_r. auto. }
  destruct Hc as [Hcid Hcd].
  assert (Hgo : forall r, loops (fun n => seek_text_outer n pos) p1 r -> ev (fun n => seek_text n p c pos) r).
  { intros r Hl. eapply ev_ext; [intros; symmetry; apply Heq|].
    eapply (ev_bind_ok (fun n p' => loop n (seek_text_outer n pos) p')); [exact Hev|].
    apply loops_ev in Hl. exact Hl. }
  destruct (@walk_outer _ _ P P_eol P_ovf Q Q_concat Q_choice Q_child w
    (fun n => seek_text_body n pos) (fun n => seek_text_outer n pos)
    (fun x => match ck_note x with CTextual t => tx_from_text t | _ => false end)
    is_ftext (FErr MissingText)) with (m := its_size (g_items g1) + gs_size gn1)
    (p := p1) (gp := gp) (g := g1) (gn := gn1) as [H|[H|H]]; auto.
  - intros n q b Hb. unfold seek_text_body. rewrite Hb. reflexivity.
  - intros n q b x cs Hb Hs. unfold seek_text_body, print_next_body. rewrite Hb.
    destruct (ck_note x); try reflexivity.
    + rewrite Hs. destruct (push_text _ _); reflexivity.
    + destruct (choose _ _ _ _ _); [|reflexivity]. simpl. destruct (expand_first _ _ _ _); reflexivity.
    + destruct (chunk_new _); [|reflexivity]. simpl. destruct (expand_first _ _ _ _); reflexivity.
  - intros n q Hq. unfold seek_text_outer. rewrite Hq. reflexivity.
  - intros n q b bs Hq. unfold seek_text_outer. rewrite Hq. reflexivity.
  - intros x Hx. unfold cev. destruct (ck_note x); simpl; auto. rewrite Hx. reflexivity.
  - destruct H as (p' & b' & x & cs & gp' & g' & gn' & mid & (Hrp' & Hb' & Hstop & Hv & Hadv & Hns) & Hok & Hfl).
    assert (Hb : rblock b' g') by (destruct Hrp' as [_ _ H3 _ _]; inversion H3; auto).
    assert (Hi := rb_items Hb). rewrite Hb' in Hi.
    apply ritems_cons in Hi as (ex & j2 & s2 & its & Hex & Hi & [Hxi Hxd] & Ho2 & Hx2 & Hits).
    destruct (ck_note x) as [| | |t| | | |] eqn:En; try discriminate.
    destruct s2 as [| | | |t2| | | |]; try contradiction. simpl in Hxd. subst t2.
    set (g0 := add_ev g' ex (GI j2 (SText t) :: its)).
    assert (Hb0 : rblock b' g0).
    { refine (rblock_exits Hb Hex Hi _). rewrite Hb'. constructor; auto. split; auto. rewrite En.
      simpl. reflexivity. }
    assert (Hv0 : vall gp' (g0 :: gn') = v).
    { unfold v. rewrite <- Hv1, <- Hv, !vall_split. f_equal. f_equal.
      apply (vblock_exits w _ _ _ Hi). }
    assert (Hadv1 : adv gp g gp' g0 (mid ++ ex)).
    { eapply (adv_trans (m := [])); [exact Hadv0|].
      eapply adv_trans; [exact Hadv|].
      apply adv_refl; reflexivity. }
    assert (Hns1 : existsb is_ftext (mid ++ ex) = false).
    { rewrite existsb_app, Hns. simpl. apply exits_nostop; auto. }
    assert (Hits' : ritems (GI j2 (SText (snd (split_at t pos))) :: its)
      (Chunk (CTextual (snd (split_at t pos))) (ck_id x) :: cs)).
    { constructor; auto; [split; simpl; auto|]. split; [exact I|]. eapply Q_text. apply Ho2. }
    pose proof (rblock_items Hb0 Hits) as Hb00.
    destruct (push_text_spec P_eol P_ovf (fst (split_at t pos)) j2 Hb00 Hits) as [(b2 & Ep & Hb2 & Hc2)|(f & Ep & HP & HV)].
    + exists (Ok (push_next p' (set_chunks b2 (Chunk (CTextual (snd (split_at t pos))) (ck_id x) :: cs)))).
      split.
      { apply Hgo, Hok, loops_done. exists 0. intros n _. unfold seek_text_body. rewrite Hb', En, Hstop.
        change (split_at t pos) with (fst (split_at t pos), snd (split_at t pos)).
        change (set_chunks (set_chunks b' cs) cs) with (set_chunks b' cs) in Ep.
        cbv beta iota zeta. rewrite Ep. cbn [bind]. rewrite Hc2. reflexivity. }
      exists gp', g0, gn', (mid ++ ex), j2, t, its.
      split; [exact Hv0|]. split; [exact Hadv1|]. split; [exact Hns1|]. split; [reflexivity|].
      split; [exact Hstop|]. split; [apply Ho2|].
      destruct Hrp' as [H1 H2 H3 H4 H5]. constructor; simpl; auto.
      * constructor; [|inversion H3; auto].
        pose proof (rblock_items Hb2 Hits') as Hb3. exact Hb3.
      * eapply heads_ok_replace; eauto.
    + exists (Fail f). split.
      { apply Hgo, Hfl, loops_fail. exists 0. intros n _. unfold seek_text_body. rewrite Hb', En, Hstop.
        change (split_at t pos) with (fst (split_at t pos), snd (split_at t pos)).
        change (set_chunks (set_chunks b' cs) cs) with (set_chunks b' cs) in Ep.
        cbv beta iota zeta. rewrite Ep. reflexivity. }
      right; left. split; auto. exists gp', g0, gn', (mid ++ ex), j2, t, its.
      repeat (split; [solve [auto]|]). split; [apply Ho2|]. exact HV.
  - destruct H as (mid & Hl & Hv & Hns).
    exists (Fail (FErr MissingText)). split; [apply Hgo; auto|]. right; right. split; auto.
    exists mid. split; auto.
    unfold v. rewrite <- Hv1, Hv. f_equal. f_equal.
    unfold g_done. rewrite Hh1, Hbd1. reflexivity.
  - destruct H as (f & Hl & HP & HV). exists (Fail f). split; [apply Hgo; auto|]. left.
    split; auto. unfold v. rewrite <- Hv1. auto.
Qed.

(** ** seek_child *)

Section SeekChild.
Variable pid : Id.
Variable i : nat.

(** This item does not lead to child [i] of [pid]. *)
Definition irr_item (it : item) : Prop :=
  match it with
  | GI j (SChild n _ _) => ~ (j = pid /\ n = i)
  | GI j (SChoice _ _) => j <> pid
  | _ => True
  end.
Definition girr (g : gblock) : Prop := Forall irr_item (g_items g).

Lemma irr_items its cs : ritems its cs -> existsb (relevant_chunk pid i) cs = false -> Forall irr_item its.
Proof.
  induction 1 as [|j n its cs H IH|c j s its cs [Hc1 Hc2] Ho He H IH]; simpl; intros E.
  - constructor.
  - constructor; simpl; auto.
  - apply orb_false_iff in E as [E1 E2]. constructor; auto.
    unfold relevant_chunk in E1. subst j.
    destruct s; simpl in Hc2; auto; destruct (ck_note c); try contradiction; simpl.
    + intros Ej. apply id_eqb_spec in Ej. congruence.
    + destruct Hc2 as (-> & _). intros [Ej ->].
      rewrite Nat.eqb_refl in E1. apply id_eqb_spec in Ej. rewrite Ej in E1. discriminate.
Qed.

Lemma cev_enter c e : In (EEnter pid i) (cev c) -> cev c = [e] ->
  relevant_chunk pid i c = true.
Proof.
  unfold cev, relevant_chunk. destruct (ck_note c); simpl; intros H E; try (destruct H as [H|[]]; discriminate); auto.
  destruct H as [H|[]]. injection H as -> ->. rewrite Nat.eqb_refl.
  assert (Hp : id_eqb pid pid = true) by (apply id_eqb_spec; reflexivity). rewrite Hp. reflexivity.
Qed.

Lemma exits_no_enter ex : exits ex -> ~ In (EEnter pid i) ex.
Proof.
  unfold exits. rewrite forallb_forall. intros H Hin. apply H in Hin. discriminate.
Qed.

Lemma set_items_add g es its its' : set_items (add_ev g es its) its' = add_ev g es its'.
Proof. reflexivity. Qed.

Lemma sc_inner : forall cs p b gp g gn,
  bl_chunks b = cs -> rp (push_next p b) gp (g :: gn) -> existsb (relevant_chunk pid i) cs = true ->
  exists r, loops (fun n => seek_child_body n pid i) (p, b) r /\
    match r with
    | Ok (ScFound p' d) => exists g' gn' s' mid its,
        let ci := lift (m_id (dl_doc d)) in
        rp p' gp (g' :: gn') /\ g_head g' = g_head g /\
        g_body g' = g_body g ++ mid ++ [EEnter pid i] /\ ~ In (EEnter pid i) mid /\
        g_items g' = GE (EExit pid i) :: its /\
        den ci s' (eval d) /\ okpart pid (SChild i ci s') /\
        vall gp (g :: gn) =
          match ci with
          | Ok j' => vall gp (set_items g' (GI j' s' :: g_items g') :: gn')
          | Fail _ => None
          end
    | Ok (ScBreak p') => exists g' gn' mid gnb,
        rp p' gp (g' :: gn') /\ vall gp (g' :: gn') = vall gp (g :: gn) /\
        g_head g' = g_head g /\ g_body g' = g_body g ++ mid /\ ~ In (EEnter pid i) mid /\
        gn' = gnb ++ gn /\ Forall fresh gnb /\
        its_size (g_items g') + gs_size gn' < its_size (g_items g) + gs_size gn
    | Ok (ScExhausted _) => False
    | Fail f => P f /\ vall gp (g :: gn) = None
    end.
Proof.
  induction cs as [|c cs IH]; intros p b gp g gn Ec Hrp Hrel; [discriminate|].
  assert (Hb : rblock b g) by (destruct Hrp as [_ _ H3 _ _]; inversion H3; auto).
  assert (Hw : pr_width p = w) by apply Hrp.
  destruct (relevant_chunk pid i c && match ck_note c with CChild _ _ => true | _ => false end) eqn:Efound.
  - (* found *)
    apply andb_true_iff in Efound as [Er Ek].
    pose proof (rb_items Hb) as Hi. rewrite Ec in Hi.
    apply ritems_cons in Hi as (ex & j & s & its & Hex & Hi & [Hci Hcd] & Ho & Hx & Hits).
    unfold relevant_chunk in Er.
    destruct (ck_note c) as [| | | | | |n d|] eqn:En; try discriminate.
    pose proof Er as Er0.
    apply andb_true_iff in Er as [Er1 Er2]. apply id_eqb_spec in Er1. apply Nat.eqb_eq in Er2. subst n.
    assert (Ej : j = pid) by congruence. rewrite Ej in *. clear Ej j.
    destruct s as [| | | | | | |cn ci s'|]; try contradiction. destruct Hcd as (-> & Hid & Hd).
    exists (Ok (ScFound (push_next p (set_chunks b cs)) d)). split.
    { apply loops_done. exists 0. intros k _. unfold seek_child_body. rewrite Ec, En, Er0. reflexivity. }
    set (g0 := add_ev g ex (GI pid (SChild i ci s') :: its)).
    assert (Hb0 : rblock b g0).
    { refine (rblock_exits Hb Hex Hi _). rewrite Ec. constructor; auto. split; auto. rewrite En. simpl. auto. }
    assert (Hv0 : vall gp (g0 :: gn) = vall gp (g :: gn)).
    { rewrite !vall_split. f_equal. f_equal. apply (vblock_exits w _ _ _ Hi). }
    exists (add_ev g0 [EEnter pid i] (GE (EExit pid i) :: its)), gn, s', ex, its.
    cbv zeta. rewrite Hid.
    split.
    { destruct Hrp as [H1 H2 H3 H4 H5]. constructor; simpl; auto.
      - constructor; [|inversion H3; auto]. apply rblock_silent; auto. constructor; auto.
      - eapply heads_ok_replace; eauto. }
    split; [reflexivity|]. split; [simpl; rewrite <- app_assoc; reflexivity|].
    split; [apply exits_no_enter; auto|]. split; [reflexivity|]. split; [exact Hd|].
    split; [exact Ho|].
    rewrite <- Hv0. destruct ci as [j'|f].
    + rewrite !vall_split. f_equal. f_equal. rewrite set_items_add.
      unfold vblock. simpl g_items. rewrite vfront_child_ok, g_done_add. reflexivity.
    + apply vall_fail. unfold vblock. simpl g_items. apply vfront_child_fail.
  - destruct (next_step P_eol P_ovf Q_concat Q_choice Q_child p Hb Ec Hw) as (r & Hev & Hr).
    assert (Hcev : forall ex, exits ex -> ~ In (EEnter pid i) (ex ++ cev c)).
    { intros ex Hex Hin. apply in_app_or in Hin as [Hin|Hin]; [eapply exits_no_enter; eauto|].
      assert (Hr0 : relevant_chunk pid i c = true).
      { destruct (cev c) as [|e l] eqn:El; [contradiction|].
        assert (l = []). { unfold cev in El. destruct (ck_note c); try discriminate El; injection El; auto. }
        subst l. rewrite <- El in Hin. eapply cev_enter; eauto. }
      rewrite Hr0 in Efound. unfold cev in Hin. destruct (ck_note c); simpl in *; try discriminate; try contradiction;
        destruct Hin as [Hin|[]]; discriminate. }
    destruct r as [[[p' b']|]|f]; [|contradiction|].
    + destruct Hr as (ex & [Hex _] & Hst).
      destruct (stepF_rp Hrp Hst) as (g' & gn' & Hrp' & Hv & Hh & Hbd & Hz & Hpp & Hpw & (gnb & Hgn & Hfr & _)).
      assert (Hsil : (forall n, seek_child_body n pid i (p, b) =
          match print_next_body n (p, b) with
          | Ok (Next s) => Ok (Next s)
          | Ok (Done _) => Panic PUnexpandedChunk
          | Fail f => Fail f end) ->
        bl_chunks b' = cs -> p' = p -> existsb (relevant_chunk pid i) cs = true ->
        exists r, loops (fun n => seek_child_body n pid i) (p, b) r /\
        match r with
        | Ok (ScFound p' d) => exists g' gn' s' mid its,
            let ci := lift (m_id (dl_doc d)) in
            rp p' gp (g' :: gn') /\ g_head g' = g_head g /\
            g_body g' = g_body g ++ mid ++ [EEnter pid i] /\ ~ In (EEnter pid i) mid /\
            g_items g' = GE (EExit pid i) :: its /\
            den ci s' (eval d) /\ okpart pid (SChild i ci s') /\
            vall gp (g :: gn) =
              match ci with
              | Ok j' => vall gp (set_items g' (GI j' s' :: g_items g') :: gn')
              | Fail _ => None
              end
        | Ok (ScBreak p') => exists g' gn' mid gnb,
            rp p' gp (g' :: gn') /\ vall gp (g' :: gn') = vall gp (g :: gn) /\
            g_head g' = g_head g /\ g_body g' = g_body g ++ mid /\ ~ In (EEnter pid i) mid /\
            gn' = gnb ++ gn /\ Forall fresh gnb /\
            its_size (g_items g') + gs_size gn' < its_size (g_items g) + gs_size gn
        | Ok (ScExhausted _) => False
        | Fail f => P f /\ vall gp (g :: gn) = None
        end).
      { intros Hsame Hb'c Hp'p Hrel'. subst p'.
        destruct (IH p b' gp g' gn' Hb'c Hrp' Hrel') as (r & Hl & Hr).
        exists r. split.
        { eapply loops_next; [|exact Hl]. destruct Hev as [N Hev]. exists N. intros n Hn.
          rewrite Hsame, Hev by auto. reflexivity. }
        destruct r as [[p2 d|p2|p2]|f]; [| |contradiction|].
        - destruct Hr as (g2 & gn2 & s' & mid & its & H1 & H2 & H3 & H4 & H5 & H6 & H7 & H8).
          exists g2, gn2, s', ((ex ++ cev c) ++ mid), its. cbv zeta in *.
          split; [auto|]. split; [congruence|]. split; [rewrite H3, Hbd, <- !app_assoc; reflexivity|].
          split. { intros Hin. apply in_app_or in Hin as [Hin|Hin]; [eapply Hcev; eauto|auto]. }
          split; [auto|]. split; [auto|]. split; [auto|]. rewrite <- Hv. exact H8.
        - destruct Hr as (g2 & gn2 & mid & gnb2 & H1 & H2 & H3 & H4 & H5 & H6 & H7 & H8).
          exists g2, gn2, ((ex ++ cev c) ++ mid), (gnb2 ++ gnb).
          split; [auto|]. split; [congruence|]. split; [congruence|].
          split; [rewrite H4, Hbd, <- !app_assoc; reflexivity|].
          split. { intros Hin. apply in_app_or in Hin as [Hin|Hin]; [eapply Hcev; eauto|auto]. }
          split; [rewrite H6, Hgn, app_assoc; reflexivity|].
          split; [apply Forall_app; auto|]. lia.
        - destruct Hr as [HP HV]. split; auto. congruence. }
      assert (Hbrk : (forall n, seek_child_body n pid i (p, b) =
          match print_next_body n (p, b) with
          | Ok (Next (p, b)) => Ok (Done (ScBreak (push_next p b)))
          | Ok (Done _) => Panic PUnexpandedChunk
          | Fail f => Fail f end) ->
        exists r, loops (fun n => seek_child_body n pid i) (p, b) r /\
        match r with
        | Ok (ScFound p' d) => exists g' gn' s' mid its,
            let ci := lift (m_id (dl_doc d)) in
            rp p' gp (g' :: gn') /\ g_head g' = g_head g /\
            g_body g' = g_body g ++ mid ++ [EEnter pid i] /\ ~ In (EEnter pid i) mid /\
            g_items g' = GE (EExit pid i) :: its /\
            den ci s' (eval d) /\ okpart pid (SChild i ci s') /\
            vall gp (g :: gn) =
              match ci with
              | Ok j' => vall gp (set_items g' (GI j' s' :: g_items g') :: gn')
              | Fail _ => None
              end
        | Ok (ScBreak p') => exists g' gn' mid gnb,
            rp p' gp (g' :: gn') /\ vall gp (g' :: gn') = vall gp (g :: gn) /\
            g_head g' = g_head g /\ g_body g' = g_body g ++ mid /\ ~ In (EEnter pid i) mid /\
            gn' = gnb ++ gn /\ Forall fresh gnb /\
            its_size (g_items g') + gs_size gn' < its_size (g_items g) + gs_size gn
        | Ok (ScExhausted _) => False
        | Fail f => P f /\ vall gp (g :: gn) = None
        end).
      { intros Hsame. exists (Ok (ScBreak (push_next p' b'))). split.
        { apply loops_done. destruct Hev as [N Hev]. exists N. intros n Hn.
          rewrite Hsame, Hev by auto. reflexivity. }
        exists g', gn', (ex ++ cev c), gnb. repeat (split; [solve [auto]|]). exact Hz. }
      assert (Hdet : forall x, (forall n, print_next_body n (p, b) = x) -> Ok (Next (p', b')) = x).
      { intros x Hx. eapply ev_det; [exact Hev|]. exists 0. intros. apply Hx. }
      simpl in Hrel.
      destruct (ck_note c) as [| |ind'|t'|da db|da db|n' d|] eqn:En.
      * exfalso. assert (Ex : @Ok (perr Er) (step (printer * block) (printer * block)) (Next (p', b')) = Panic PUnexpandedChunk); [|discriminate Ex].
        apply Hdet. intros n. unfold print_next_body. rewrite Ec, En. reflexivity.
      * assert (Ex : @Ok (perr Er) (step (printer * block) (printer * block)) (Next (p', b')) = Ok (Next (p, set_eol (set_chunks b cs)))).
        { apply Hdet. intros n. unfold print_next_body. rewrite Ec, En. reflexivity. }
        injection Ex as E1 E2.
        apply Hsil; subst; auto.
        -- intros n. unfold seek_child_body, print_next_body. rewrite Ec, En. reflexivity.
        -- unfold relevant_chunk in Hrel. rewrite En in Hrel. exact Hrel.
      * exfalso. assert (Ex : @Ok (perr Er) (step (printer * block) (printer * block)) (Next (p', b')) = Panic PUnexpandedChunk); [|discriminate Ex].
        apply Hdet. intros n. unfold print_next_body. rewrite Ec, En. reflexivity.
      * destruct (push_text (set_chunks b cs) t') as [b2|f] eqn:Ept.
        -- assert (Ex : @Ok (perr Er) (step (printer * block) (printer * block)) (Next (p', b')) = Ok (Next (p, b2))).
           { apply Hdet. intros n. unfold print_next_body. rewrite Ec, En, Ept. reflexivity. }
           injection Ex as E1 E2.
           apply Hsil; subst; auto.
           ++ intros n. unfold seek_child_body, print_next_body. rewrite Ec, En, Ept. reflexivity.
           ++ unfold push_text in Ept. destruct (bl_at_eol _); [discriminate|].
              destruct (add16 _ _ _); [|discriminate]. injection Ept as <-. reflexivity.
           ++ unfold relevant_chunk in Hrel. rewrite En in Hrel. exact Hrel.
        -- exfalso. assert (Ex : @Ok (perr Er) (step (printer * block) (printer * block)) (Next (p', b')) = Fail f); [|discriminate Ex].
           apply Hdet. intros n. unfold print_next_body. rewrite Ec, En, Ept. reflexivity.
      * exfalso. assert (Ex : @Ok (perr Er) (step (printer * block) (printer * block)) (Next (p', b')) = Panic PUnexpandedChunk); [|discriminate Ex].
        apply Hdet. intros n. unfold print_next_body. rewrite Ec, En. reflexivity.
      * apply Hbrk. intros n. unfold seek_child_body, print_next_body. rewrite Ec, En.
        destruct (choose _ _ _ _ _); [|reflexivity]. simpl. destruct (expand_first _ _ _ _) as [[]|]; reflexivity.
      * apply Hbrk. intros n. unfold seek_child_body, print_next_body. rewrite Ec, En.
        unfold relevant_chunk in Efound. rewrite En in Efound. rewrite andb_true_r in Efound. rewrite Efound.
        destruct (chunk_new _); [|reflexivity]. simpl. destruct (expand_first _ _ _ _) as [[]|]; reflexivity.
      * assert (Ex : @Ok (perr Er) (step (printer * block) (printer * block)) (Next (p', b')) = Ok (Next (p, set_chunks b cs))).
        { apply Hdet. intros n. unfold print_next_body. rewrite Ec, En. reflexivity. }
        injection Ex as E1 E2.
        apply Hsil; subst; auto.
        -- intros n. unfold seek_child_body, print_next_body. rewrite Ec, En. reflexivity.
        -- unfold relevant_chunk in Hrel. rewrite En in Hrel. exact Hrel.
    + exists (Fail f). destruct Hr as [HP HV]. split; [|split; auto; apply vall_fail; auto].
      apply loops_fail. destruct Hev as [N Hev]. exists N. intros n Hn.
      specialize (Hev n Hn). unfold print_next_body in Hev.
      unfold seek_child_body. rewrite Ec in *.
      destruct (ck_note c) as [| |ind'|t'|da db|da db|n' d|] eqn:En; try discriminate Hev;
        try (injection Hev as <-; reflexivity).
      * destruct (push_text _ _); [discriminate|]. injection Hev as <-. reflexivity.
      * destruct (choose _ _ _ _ _); simpl in *.
        -- destruct (expand_first _ _ _ _) as [[]|]; [discriminate|]. injection Hev as <-. reflexivity.
        -- injection Hev as <-. reflexivity.
      * unfold relevant_chunk in Efound. rewrite En in Efound. rewrite andb_true_r in Efound. rewrite Efound.
        destruct (chunk_new _); simpl in *.
        -- destruct (expand_first _ _ _ _) as [[]|]; [discriminate|]. injection Hev as <-. reflexivity.
        -- injection Hev as <-. reflexivity.
Qed.

(** The blocks walked over. *)
Lemma walk_spec : forall next prev gp gn,
  Forall2 rblock prev gp -> Forall2 rblock next gn ->
  exists nd gn', gn = nd ++ gn' /\ Forall girr nd /\
    Forall2 rblock (fst (walk pid i prev next)) (rev nd ++ gp) /\
    Forall2 rblock (snd (walk pid i prev next)) gn' /\
    match snd (walk pid i prev next) with
    | [] => True
    | b :: _ => contains_relevant_chunk pid i b = true
    end.
Proof.
  induction next as [|b next IH]; intros prev gp gn Hp Hn; inversion Hn as [|? g ? gn0 Hb Hn' E1 E2]; subst.
  - exists [], []. simpl. auto.
  - simpl. destruct (contains_relevant_chunk pid i b) eqn:Er.
    + exists [], (g :: gn0). simpl. auto.
    + destruct (IH (b :: prev) (g :: gp) gn0) as (nd & gn' & -> & H1 & H2 & H3 & H4); auto.
      exists (g :: nd), gn'. split; [reflexivity|]. split.
      { constructor; auto. eapply irr_items; [apply Hb|exact Er]. }
      split; [|auto]. simpl. rewrite <- app_assoc. exact H2.
Qed.

(** Since the search for the child started at [d0], it was not seen. *)
Definition trail (d0 : list event) (gs : list gblock) : Prop :=
  match gs with
  | [] => False
  | g :: gs' => exists m, g_done g = d0 ++ m /\ ~ In (EEnter pid i) m /\
      Forall (fun g => ~ In (EEnter pid i) (g_done g)) gs'
  end.

Lemma trail_step d0 pre g g' gnb gn mid :
  trail d0 (pre ++ g :: gn) -> g_head g' = g_head g -> g_body g' = g_body g ++ mid ->
  ~ In (EEnter pid i) mid -> Forall fresh gnb ->
  trail d0 (pre ++ g' :: gnb ++ gn).
Proof.
  intros Ht Hh Hb Hm Hf.
  assert (Hd : g_done g' = g_done g ++ mid).
  { unfold g_done. rewrite Hh, Hb, app_assoc. reflexivity. }
  assert (Hf' : Forall (fun g => ~ In (EEnter pid i) (g_done g)) gnb).
  { eapply Forall_impl; [|exact Hf]. intros x [Hx1 Hx2]. unfold g_done. rewrite Hx2, app_nil_r.
    destruct (g_head x); simpl; intros []; [discriminate|auto]. }
  destruct pre as [|g1 pre]; simpl in *.
  - destruct Ht as (m & H1 & H2 & H3). exists (m ++ mid).
    split; [rewrite Hd, H1, app_assoc; reflexivity|].
    split; [intros Hin; apply in_app_or in Hin as []; auto|]. apply Forall_app. auto.
  - destruct Ht as (m & H1 & H2 & H3). exists m. split; auto. split; auto.
    apply Forall_app in H3 as [H3 H4]. inversion H4; subst.
    apply Forall_app. split; auto. constructor; [|apply Forall_app; auto].
    rewrite Hd. intros Hin; apply in_app_or in Hin as []; auto.
Qed.

Lemma rp_walk p gp nd gn' :
  rp p gp (nd ++ gn') -> gn' <> [] ->
  forall prev next, Forall2 rblock prev (rev nd ++ gp) -> Forall2 rblock next gn' ->
  rp (Printer (pr_width p) prev next) (rev nd ++ gp) gn'.
Proof.
  intros [H1 H2 H3 H4 H5] Hne prev next Hp Hn. constructor; simpl; auto.
  - rewrite rev_app_distr, rev_involutive, <- app_assoc. exact H4.
  - destruct nd as [|g nd]; simpl in *; auto.
    apply Forall_app in H5 as [_ H5]. destruct gn'; simpl; auto. inversion H5; auto.
Qed.

Lemma vall_walk gp nd gn : vall (rev nd ++ gp) gn = vall gp (nd ++ gn).
Proof. unfold PSeek.vall. rewrite rev_app_distr, rev_involutive, <- app_assoc. reflexivity. Qed.

Lemma sc_outer : forall m p nd0 gp0 gn d0,
  gs_size gn <= m ->
  rp p (rev nd0 ++ gp0) gn -> Forall girr nd0 -> trail d0 (nd0 ++ gn) ->
  exists r, loops (fun n => seek_child_outer n pid i) p r /\
    match r with
    | Ok (p', x) => exists gp' g' gn' j' s' d1 its,
        rp p' gp' (g' :: gn') /\
        g_done g' = d1 ++ [EEnter pid i] /\
        g_items g' = GE (EExit pid i) :: its /\
        cden x j' s' /\ okpart j' s' /\ Q pid (SChild i (Ok j') s') /\
        vall gp' (set_items g' (GI j' s' :: g_items g') :: gn') = vall gp0 (nd0 ++ gn)
    | Fail f => (P f /\ vall gp0 (nd0 ++ gn) = None) \/
        (f = FErr (InvalidPath i) /\
         exists bs gs, Forall2 rblock bs gs /\ Forall girr gs /\ trail d0 gs /\
           vall gp0 (nd0 ++ gn) = vall gp0 gs)
    end.
Proof.
  induction m as [m IH] using lt_wf_ind.
  intros p nd0 gp0 gn d0 Hm Hrp Hirr Htr.
  destruct (walk_spec (rp_prev Hrp) (rp_next Hrp)) as (nd & gn' & -> & Hnd & Hp & Hn & Hh).
  destruct (walk pid i (pr_prev p) (pr_next p)) as [prev next] eqn:Ew. simpl in *.
  destruct next as [|b bs].
  - inversion Hn; subst. exists (Fail (FErr (InvalidPath i))). split.
    { apply loops_fail. exists 0. intros n _. unfold seek_child_outer. rewrite Ew. reflexivity. }
    right. split; auto. rewrite app_nil_r in *.
    rewrite app_assoc in Hp.
    apply Forall2_app_inv_r in Hp as (l1 & l2 & Hl1 & Hl2 & ->).
    exists (rev l1), (nd0 ++ nd).
    split.
    { assert (H : Forall2 rblock (rev l1) (rev (rev nd ++ rev nd0))).
      { clear -Hl1. induction Hl1; simpl; auto. apply Forall2_app; auto. }
      rewrite rev_app_distr, !rev_involutive in H. exact H. }
    split; [apply Forall_app; auto|]. split; [exact Htr|reflexivity].
  - inversion Hn as [|? g ? gn Hb Hn' E1 E2]; subst.
    assert (Hrp1 : rp (Printer (pr_width p) prev (b :: bs)) (rev nd ++ rev nd0 ++ gp0) (g :: gn)).
    { eapply rp_walk; eauto. discriminate. }
    destruct (@sc_inner (bl_chunks b) (Printer (pr_width p) prev bs) b (rev nd ++ rev nd0 ++ gp0) g gn eq_refl Hrp1 Hh)
      as (r & Hl & Hr).
    assert (HV : vall (rev nd ++ rev nd0 ++ gp0) (g :: gn) = vall gp0 (nd0 ++ nd ++ g :: gn)).
    { rewrite !vall_walk. reflexivity. }
    apply loops_ev in Hl.
    assert (Hev : ev (fun n => seek_child_outer n pid i p)
      (match r with
       | Ok (ScFound p' d) => x <- chunk_new d ;; Ok (Done (p', x))
       | Ok (ScBreak p') | Ok (ScExhausted p') => Ok (Next p')
       | Fail f => Fail f end)).
    { eapply ev_ext with (f := fun n => r <- loop n (seek_child_body n pid i) (Printer (pr_width p) prev bs, b) ;;
        match r with
        | ScFound p' d => x <- chunk_new d ;; Ok (Done (p', x))
        | ScBreak p' | ScExhausted p' => Ok (Next p')
        end).
      { intros n. unfold seek_child_outer. rewrite Ew. reflexivity. }
      destruct r as [e|f].
      - eapply (ev_bind_ok (fun n r => match r with
          | ScFound p' d => x <- chunk_new d ;; Ok (Done (p', x))
          | ScBreak p' | ScExhausted p' => Ok (Next p')
          end)); [exact Hl|]. destruct e; ev_now.
      - apply (ev_bind_fail (fun n r => match r with
          | ScFound p' d => x <- chunk_new d ;; Ok (Done (p', x))
          | ScBreak p' | ScExhausted p' => Ok (Next p')
          end)). exact Hl. }
    destruct r as [[p' d|p'|p']|f]; [| |contradiction|].
    + destruct Hr as (g' & gn' & s' & mid & its & H1 & H2 & H3 & H4 & H5 & H6 & H7 & H8).
      cbv zeta in *.
      destruct (lift (m_id (dl_doc d))) as [j'|f] eqn:Eid.
      * destruct (chunk_new_spec _ _ Eid H6) as [(x & Ex & Hx & _)|(f & Ex & ->)].
        -- exists (Ok (p', x)). rewrite Ex in Hev. simpl in Hev. split; [apply loops_done; exact Hev|].
           exists (rev nd ++ rev nd0 ++ gp0), g', gn', j', s', (g_done g ++ mid), its.
           split; [auto|]. split.
           { unfold g_done. rewrite H2, H3, <- !app_assoc. reflexivity. }
           split; [auto|]. split; [auto|]. destruct H7 as [[_ H7] H9].
           split; [split; eauto|]. split; [auto|]. rewrite <- HV, H8. reflexivity.
        -- exists (Fail f). rewrite Ex in Hev. simpl in Hev. split; [apply loops_fail; exact Hev|].
           left. split; [apply H7|]. rewrite <- HV, H8. apply vall_fail. unfold vblock. simpl.
           apply vfront_fail.
      * exists (Fail f). split.
        { apply loops_fail. unfold chunk_new in Hev. rewrite Eid in Hev. exact Hev. }
        left. split; [apply H7|]. congruence.
    + destruct Hr as (g' & gn' & mid & gnb & H1 & H2 & H3 & H4 & H5 & H6 & H7 & H8).
      subst gn'.
      destruct (IH (gs_size (g' :: gnb ++ gn))) with (p := p') (nd0 := nd0 ++ nd) (gp0 := gp0)
        (gn := g' :: gnb ++ gn) (d0 := d0) as (r & Hl2 & Hr2); auto.
      { rewrite gs_size_app in Hm. simpl in *. lia. }
      { rewrite rev_app_distr, <- app_assoc. exact H1. }
      { apply Forall_app; auto. }
      { rewrite <- app_assoc in *. rewrite app_assoc in Htr |- *. eapply trail_step; eauto. }
      assert (HV2 : vall gp0 ((nd0 ++ nd) ++ g' :: gnb ++ gn) = vall gp0 (nd0 ++ nd ++ g :: gn)).
      { rewrite <- HV, <- H2. rewrite <- app_assoc, !vall_walk. reflexivity. }
      rewrite HV2 in Hr2.
      exists r. split; [eapply loops_next; [exact Hev|exact Hl2]|]. exact Hr2.
    + exists (Fail f). split; [apply loops_fail; exact Hev|]. destruct Hr. left. split; auto. congruence.
Qed.

End SeekChild.

Lemma seek_child_spec p c j s i gp g gn :
  rp p gp (g :: gn) -> cden c j s -> okpart j s ->
  let v := vall gp (set_items g (GI j s :: g_items g) :: gn) in
  exists r, ev (fun n => seek_child n p c i) r /\
    match r with
    | Ok (p', x) => exists gp' g' gn' j' s' d1 its,
        rp p' gp' (g' :: gn') /\
        g_done g' = d1 ++ [EEnter j i] /\
        g_items g' = GE (EExit j i) :: its /\
        cden x j' s' /\ okpart j' s' /\ Q j (SChild i (Ok j') s') /\
        vall gp' (set_items g' (GI j' s' :: g_items g') :: gn') = v
    | Fail f => (P f /\ v = None) \/
        (f = FErr (InvalidPath i) /\
         exists bs gs, Forall2 rblock bs gs /\ Forall (girr j i) gs /\ trail j i (g_done g) gs /\
           v = vall gp gs)
    end.
Proof.
  intros Hrp Hc Ho v.
  destruct (seek_start_spec P_ovf Q_concat Hrp Hc Ho) as (r & Hev & Hr).
  assert (Heq : forall n, seek_child n p c i =
    (p' <- seek_start n p c ;; loop n (seek_child_outer n (ck_id c) i) p')).
  { intros n. unfold seek_child, seek_start. destruct (pr_next p); [reflexivity|].
    destruct (expand_first n (set_next p l) b c) as [[]|]; reflexivity. }
  destruct r as [p1|f].
  2: { exists (Fail f). split.
       - eapply ev_ext; [intros; symmetry; apply Heq|].
         apply (ev_bind_fail (fun n p' => loop n (seek_child_outer n (ck_id c) i) p')). exact Hev.
       - left. exact Hr. }
  destruct Hr as (g1 & gn1 & Hrp1 & Hh1 & Hbd1 & Hv1 & _).
  destruct Hc as [Hcid Hcd]. rewrite Hcid in Heq.
  assert (Hgo : forall r, loops (fun n => seek_child_outer n j i) p1 r -> ev (fun n => seek_child n p c i) r).
  { intros r Hl. eapply ev_ext; [intros; symmetry; apply Heq|].
    eapply (ev_bind_ok (fun n p' => loop n (seek_child_outer n j i) p')); [exact Hev|].
    apply loops_ev in Hl. exact Hl. }
  destruct (@sc_outer j i (gs_size (g1 :: gn1)) p1 [] gp (g1 :: gn1) (g_done g)) as (r & Hl & Hr); auto.
  { exists []. split; [|split; [intros []|]].
    - unfold g_done. rewrite Hh1, Hbd1, app_nil_r. reflexivity.
    - assert (Hf := rp_fresh Hrp1). simpl in Hf.
      eapply Forall_impl; [|exact Hf]. intros x [Hx1 Hx2]. unfold g_done. rewrite Hx2, app_nil_r.
      destruct (g_head x); simpl; intros []; [discriminate|auto]. }
  exists r. split; [apply Hgo; auto|]. simpl in Hr. unfold v. rewrite <- Hv1. exact Hr.
Qed.

End Seek2.
