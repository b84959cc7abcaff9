(** Printing lines of documents with holes. *)
From Verif Require Export PPeek2.

Set Implicit Arguments.

Section PPeek3.
Context {pd : PrettyDoc} {env : Env}.

Variable Q : Id -> shape -> Prop.
Hypothesis Q_concat : forall j a b, Q j (SConcat a b) -> Q j a /\ Q j b.
Hypothesis Q_choice : forall j a b, Q j (SChoice a b) -> Q j a /\ Q j b.
Hypothesis Q_child : forall j n j' s, Q j (SChild n (Ok j') s) -> Q j' s.
Variable w : N.

Notation pritems := (pritems Q).
Notation prblock := (prblock Q).

(** The next item is known. *)
Definition known_item (it_s : shape) (k : look) (p : pos) : Prop :=
  match it_s with
  | SText t => text_pos p t <> None
  | SChoice a b => head_fails a = false /\
      exists f, picks_first w a k p = Some f /\ opens (if f : bool then a else b) = true
  | SChild n i s' => (exists j', i = Ok j') /\ opens s' = true
  | _ => True
  end.

(** An expanded item is known, or it is a gap. *)
Lemma peek_known s j k p : expanded s ->
  known_item s k p \/ (exists g, peek w s j k (Some p) = ([Gap g], None)).
Proof.
  intros He. destruct s as [f| | |ind|t|a b|a b|n i s'|]; simpl in He; try contradiction; cbn [known_item peek]; auto.
  - cbn [obind]. destruct (text_pos p t); [left; discriminate|right; eauto].
  - destruct (head_fails a); [right; eauto|].
    destruct (picks_first w a k p) as [[]|]; [| |right; eauto].
    + destruct (opens a) eqn:E; [left; split; auto; exists true; auto|right; eauto].
    + destruct (opens b) eqn:E; [left; split; auto; exists false; auto|right; eauto].
  - destruct i as [j'|]; [|right; eauto].
    destruct (opens s') eqn:E; [left; eauto|right; eauto].
Qed.

(** ** One step, keeping the focus on the first block *)

(** The items after a step: the first one is replaced by parts of it. *)
Definition pnewF (g g' : gblock) (gnb : list gblock) : Prop :=
  exists ex j s its new, exits ex /\ g_items g = map GE ex ++ GI j s :: its /\
    g_items g' ++ flat gnb = new ++ its /\
    forall R, closedR R -> R j s -> Forall (rit R) new.

Definition pstepF (p : printer) (g : gblock) (es : list event) (r : printer * block) : Prop :=
  exists g' nbs gnb,
    fst r = set_next p (nbs ++ pr_next p) /\ prblock (snd r) g' /\
    Forall2 prblock nbs gnb /\ Forall fresh gnb /\
    g_head g' = g_head g /\ g_body g' = g_body g ++ es /\
    vb w g' ++ vbs w gnb = vb w g /\
    its_size (g_items g') + gs_size gnb < its_size (g_items g) /\
    pnewF g g' gnb.

Lemma pexpand_first_step p b g g0 c j s its es j0 s0 its0 pre :
  prblock b g0 -> g_items g = GI j0 s0 :: its0 -> its = pre ++ its0 ->
  (forall R, closedR R -> R j0 s0 -> R j s /\ Forall (rit R) pre) -> g0 = add_ev g es its -> pcden c j s -> Q j s -> opens s = true ->
  vb w (set_items g0 (GI j s :: its)) = vb w g ->
  size s + its_size its < its_size (g_items g) ->
  exists pb, ev (fun n => expand_first n p b c) (Ok pb) /\ pstepF p g es pb.
Proof.
  intros Hb Hgi Hpre HR0 Hg0 Hc Ho Hop Hv Hz.
  assert (Hits : pritems its (bl_chunks b)).
  { destruct Hb as [_ _ _ Hb]. subst g0. exact Hb. }
  destruct (pexpand_first Q_concat w p b Hc Ho Hop Hits)
    as (its' & cs' & nbs & gnb & Hev & Hi' & Hn & Hh & Hvf & Hzz & new & En1 & En2).
  eexists. split; [exact Hev|].
  exists (set_items g0 its'), nbs, gnb. simpl. repeat (split; [first [solve [auto] | idtac]|]).
  - apply prblock_items; auto.
  - subst g0; reflexivity.
  - subst g0; reflexivity.
  - rewrite <- Hv. exact (Hvf (map Ev (g_done g0))).
  - simpl in *. lia.
  - exists [], j0, s0, its0, (new ++ pre). split; [reflexivity|]. split; [exact Hgi|].
    split; [simpl; rewrite En1, Hpre, app_assoc; reflexivity|].
    intros R HR Hj. destruct (HR0 R HR Hj) as [H1 H2]. apply Forall_app. auto.
Qed.

Lemma pchild_first p b g c cs j n j' s its d :
  prblock b g -> bl_chunks b = c :: cs -> g_items g = GI j (SChild n (Ok j') s) :: its ->
  pritems its cs -> Q j (SChild n (Ok j') s) -> opens s = true ->
  lift (m_id (dl_doc d)) = Ok j' -> pden (Ok j') s (eval d) ->
  exists pb, ev (fun k => x <- chunk_new d ;; expand_first k p (set_chunks b cs) x) (Ok pb) /\
    pstepF p g [EEnter j n] pb.
Proof.
  intros Hb Hbc Hgi Hits Hq Hop Hi Hd.
  destruct (pchunk_new _ _ Hi Hd (opens_head _ Hop)) as (x & Ex & Hx).
  rewrite Ex. cbn [bind].
  set (its0 := GE (EExit j n) :: its).
  apply pexpand_first_step with (g0 := add_ev g [EEnter j n] its0) (its := its0) (j := j') (s := s)
    (j0 := j) (s0 := SChild n (Ok j') s) (its0 := its) (pre := [GE (EExit j n)]); auto.
  - apply prblock_silent; auto. constructor; auto.
  - intros R HR Hj. split; [eapply (R_child HR); eauto|]. constructor; auto. simpl. eauto.
  - eapply Q_child; eauto.
  - unfold vb. simpl. rewrite Hgi. rewrite (vf_child w _ j n j' s its look_end (prb_pos Hb) Hop).
    unfold g_done. simpl. rewrite <- app_assoc. reflexivity.
  - rewrite Hgi. simpl. lia.
Qed.

Lemma pchoice_first p b g c cs j sa sb its da db f :
  prblock b g -> pr_width p = w ->
  bl_chunks b = c :: cs -> g_items g = GI j (SChoice sa sb) :: its ->
  pritems its cs -> Q j (SChoice sa sb) ->
  lift (m_id (dl_doc da)) = Ok j -> pden (Ok j) sa (eval da) ->
  lift (m_id (dl_doc db)) = Ok j -> pden (Ok j) sb (eval db) ->
  head_fails sa = false ->
  picks_first w sa (fits_its its look_end) (bl_prefix_len b, bl_at_eol b) = Some f ->
  opens (if f then sa else sb) = true ->
  exists pb, ev (fun k => x <- choose k p (set_chunks b cs) da db ;;
                         expand_first k p (set_chunks b cs) x) (Ok pb) /\
    pstepF p g [] pb.
Proof.
  intros Hb Hw Hbc Hgi Hits Hq Hia Hda Hib Hdb Hh Hp Hop.
  destruct (@pchoose _ _ Q p (set_chunks b cs) da db j sa sb its f Hits Hia Hda Hib Hdb Hh) as (x & Hev & Hx).
  { cbn [set_chunks bl_prefix_len bl_at_eol]. rewrite Hw. exact Hp. }
  { apply opens_head; auto. }
  destruct (Q_choice Hq) as [Hqa Hqb].
  destruct (@pexpand_first_step p (set_chunks b cs) g (add_ev g [] its) x j (if f then sa else sb) its []
    j (SChoice sa sb) its []) as (r & Hev2 & Hr2); auto.
  - unfold add_ev. rewrite app_nil_r. apply prblock_items; auto.
  - intros R HR Hj. split; [|constructor]. apply (R_choice HR) in Hj as [H1 H2]. destruct f; auto.
  - destruct f; auto.
  - unfold vb. simpl. rewrite Hgi.
    rewrite (vf_choice w _ j sa sb its look_end (prb_pos Hb) Hh Hp Hop).
    unfold g_done; simpl. rewrite app_nil_r. reflexivity.
  - rewrite Hgi. simpl. pose proof (size_pos sa). pose proof (size_pos sb). destruct f; lia.
  - exists r. split; [|exact Hr2].
    eapply (ev_bind_ok (fun k x => expand_first k p (set_chunks b cs) x)); eauto.
Qed.

Lemma pstepF_add p b' g g0 es0 es its j s :
  prblock b' (add_ev g0 es its) -> g0 = add_ev g es0 (g_items g0) ->
  exits es0 -> g_items g = map GE es0 ++ GI j s :: its ->
  vb w (add_ev g0 es its) = vb w g ->
  its_size its < its_size (g_items g) ->
  pstepF p g (es0 ++ es) (p, b').
Proof.
  intros Hb Hg He Hgi Hv Hz. exists (add_ev g0 es its), [], []. simpl.
  split; [destruct p; reflexivity|]. split; [auto|]. split; [constructor|]. split; [constructor|].
  split; [rewrite Hg; reflexivity|]. split; [rewrite Hg; simpl; rewrite <- app_assoc; reflexivity|].
  split; [rewrite app_nil_r; exact Hv|]. split; [lia|].
  exists es0, j, s, its, []. split; [auto|]. split; [auto|]. split; [apply app_nil_r|]. constructor.
Qed.

Lemma pstepF_pre p g es0 its0 es r j s its :
  pstepF p (add_ev g es0 its0) es r -> its0 = GI j s :: its ->
  exits es0 -> g_items g = map GE es0 ++ its0 ->
  vb w (add_ev g es0 its0) = vb w g ->
  its_size its0 = its_size (g_items g) ->
  pstepF p g (es0 ++ es) r.
Proof.
  intros (g' & nbs & gnb & H1 & H2 & H3 & H4 & H5 & H6 & H7 & H8 & H9) Hi0 He Hgi Hv Hz.
  exists g', nbs, gnb. repeat (split; [solve [auto]|]).
  split; [rewrite H6; simpl; rewrite <- app_assoc; reflexivity|].
  split; [congruence|]. simpl in H8. split; [lia|].
  destruct H9 as (ex & j1 & s1 & its1 & new & E1 & E2 & E3 & E4). simpl in E2.
  rewrite Hi0 in E2. destruct ex as [|e ex]; [|discriminate]. simpl in E2. injection E2 as <- <- <-.
  exists es0, j, s, its, new. repeat (split; [solve [auto]|]).
  split; [rewrite Hgi, Hi0; reflexivity|]. auto.
Qed.

(** The first item of the block, after its pending exits, is known. *)
Definition next_known (b : block) (g : gblock) : Prop :=
  forall es j s its, exits es -> g_items g = map GE es ++ GI j s :: its -> expanded s ->
    known_item s (fits_its its look_end) (bl_prefix_len b, bl_at_eol b).

Lemma pnext_step p b g c cs :
  prblock b g -> bl_chunks b = c :: cs -> pr_width p = w -> next_known b g ->
  exists pb, ev (fun n => print_next_body n (p, b)) (Ok (Next pb)) /\
    exists ex, exits ex /\ pstepF p g (ex ++ cev c) pb.
Proof.
  intros Hb Ec Hw Hk.
  pose proof (prb_items Hb) as Hi. rewrite Ec in Hi.
  apply pritems_cons in Hi as (es & j & s & its & He & Hi & Hc & Ho & Hx & Hits).
  specialize (Hk es j s its He Hi Hx).
  set (g0 := add_ev g es (GI j s :: its)).
  assert (Hb0 : prblock b g0).
  { eapply prblock_exits; eauto. rewrite Ec. constructor; auto. }
  assert (Hv0 : vb w g0 = vb w g) by (apply vb_exits; auto).
  assert (Hz0 : its_size (GI j s :: its) = its_size (g_items g)).
  { rewrite Hi, its_size_ge. reflexivity. }
  assert (Hg0i : g_items g0 = GI j s :: its) by reflexivity.
  destruct Hc as [Hci Hcd].
  assert (Hcev : cev c = match ck_note c with
    | CFocusMark => [EMark j] | CEndOfLine => [EEol] | CTextual t => [EText j t]
    | CChild n _ => [EEnter j n] | _ => [] end) by (unfold cev; rewrite Hci; reflexivity).
  destruct s as [f| | |ind|t|a sb|a sb|cn ci s'|]; simpl in Hx; try contradiction; simpl in Hcd;
    destruct (ck_note c) as [| |ind'|t'|da db|da db|n' d|] eqn:En; try contradiction; rewrite Hcev.
  - eexists. split.
    { exists 0. intros n _. unfold print_next_body. rewrite Ec, En. reflexivity. }
    exists es. split; auto. eapply pstepF_add with (g0 := g0) (its := its); eauto.
    + apply prblock_eol; auto.
    + rewrite <- Hv0. unfold vb. rewrite g_done_add, Hg0i, vf_eol. reflexivity.
    + simpl in Hz0. lia.
  - subst t'. cbn [known_item] in Hk. destruct (text_pos (bl_prefix_len b, bl_at_eol b) t) as [q|] eqn:Eq; [|elim Hk; reflexivity].
    destruct (ppush_text t j Hb0 Hits Eq) as (b' & Ep & Hb' & _).
    exists (p, b'). split.
    { exists 0. intros n _. unfold print_next_body. rewrite Ec, En, Ep. reflexivity. }
    exists es. split; auto. eapply pstepF_add with (g0 := g0) (its := its); eauto.
    + rewrite <- Hv0. unfold vb. rewrite g_done_add, Hg0i.
      erewrite vf_text; [reflexivity|]. rewrite <- (g_done_add g0 [EText j t] its). apply (prb_pos Hb').
    + simpl in Hz0. lia.
  - destruct Hcd as [[Hia Hda] [Hib Hdb]]. destruct Hk as (Hh & f & Hp & Hop).
    destruct (@pchoice_first p b g0 c cs j a sb its da db f) as (r & Hev & Hr); auto.
    exists r. split.
    { eapply ev_ext with (f := fun n =>
        bind (x <- choose n p (set_chunks b cs) da db ;; expand_first n p (set_chunks b cs) x)
          (fun s => Ok (Next s))).
      { intros n. unfold print_next_body. rewrite Ec, En.
        destruct (choose n p (set_chunks b cs) da db); reflexivity. }
      eapply (ev_bind_ok (fun _ s => Ok (Next s))); [exact Hev|]. ev_now. }
    exists es. split; auto. eapply pstepF_pre; eauto.
  - destruct Hcd as (<- & Hd). destruct Hk as ((j' & ->) & Hop).
    destruct Hd as [Hd|[Hid Hd]]; [rewrite (opens_head _ Hop) in Hd; discriminate|].
    destruct (@pchild_first p b g0 c cs j cn j' s' its d) as (r & Hev & Hr); auto.
    exists r. split.
    { eapply ev_ext with (f := fun n =>
        bind (x <- chunk_new d ;; expand_first n p (set_chunks b cs) x) (fun s => Ok (Next s))).
      { intros n. unfold print_next_body. rewrite Ec, En. destruct (chunk_new d); reflexivity. }
      eapply (ev_bind_ok (fun _ s => Ok (Next s))); [exact Hev|]. ev_now. }
    exists es. split; auto. eapply pstepF_pre; eauto.
  - eexists. split.
    { exists 0. intros n _. unfold print_next_body. rewrite Ec, En. reflexivity. }
    exists es. split; auto. eapply pstepF_add with (g0 := g0) (its := its); eauto.
    + apply prblock_silent; auto.
    + rewrite <- Hv0. unfold vb. rewrite g_done_add, Hg0i, vf_mark. reflexivity.
    + simpl in Hz0. lia.
Qed.

(** ** print_next_line *)

(** What is to come on the block. *)
Definition tl_of (b : block) (g : gblock) : list pev :=
  peek_its w (g_items g) look_end (Some (bl_prefix_len b, bl_at_eol b)).

Lemma vb_tl b g : prblock b g -> vb w g = map Ev (g_done g) ++ tl_of b g.
Proof. intros Hb. unfold vb, vf, vp, tl_of. rewrite (pprun_prun _ _ (prb_pos Hb)). reflexivity. Qed.

Lemma peek_its_exits es its k q : exits es ->
  peek_its w (map GE es ++ its) k q = map Ev es ++ peek_its w its k q.
Proof.
  unfold exits. induction es as [|[] es IH]; simpl; intros H; try discriminate; auto.
  rewrite <- IH by auto. destruct q; reflexivity.
Qed.

Lemma fk_next_known b g : fk (tl_of b g) -> next_known b g.
Proof.
  intros H es j s its He Hi Hx. unfold tl_of in H. rewrite Hi, peek_its_exits in H by auto.
  apply fk_app_nonl in H; [|apply exits_nonl; auto].
  destruct (peek_known s j (fits_its its look_end) (bl_prefix_len b, bl_at_eol b) Hx) as [Hk|(gp & E)]; auto.
  cbn [peek_its] in H. unfold pos in *. rewrite E in H. simpl in H. contradiction.
Qed.

Lemma cev_nonl c : no_newline (cev c).
Proof. unfold cev. destruct (ck_note c); reflexivity. Qed.

Lemma pstepF_tl b g es b' g' gnb :
  prblock b g -> prblock b' g' -> g_head g' = g_head g -> g_body g' = g_body g ++ es ->
  vb w g' ++ vbs w gnb = vb w g ->
  tl_of b g = map Ev es ++ tl_of b' g' ++ vbs w gnb.
Proof.
  intros Hb Hb' Hh Hbd Hv. rewrite (vb_tl Hb), (vb_tl Hb') in Hv.
  assert (Ed : g_done g' = g_done g ++ es) by (unfold g_done; rewrite Hh, Hbd, app_assoc; reflexivity).
  rewrite Ed, map_app, <- !app_assoc in Hv. apply app_inv_head in Hv. auto.
Qed.

Definition pdoneF (p : printer) (g : gblock) (es : list event) (r : printer * block) : Prop :=
  exists g' nbs gnb,
    fst r = set_next p (nbs ++ pr_next p) /\ prblock (snd r) g' /\
    Forall2 prblock nbs gnb /\ Forall fresh gnb /\
    g_head g' = g_head g /\ g_body g' = g_body g ++ es /\
    g_items g' = [] /\ bl_chunks (snd r) = [] /\
    map Ev (g_done g') ++ vbs w gnb = vb w g /\
    gs_size gnb <= its_size (g_items g).

Lemma pdoneF_step p g es p' b' g' es2 pb nbs gnb :
  p' = set_next p (nbs ++ pr_next p) -> prblock b' g' -> Forall2 prblock nbs gnb -> Forall fresh gnb ->
  g_head g' = g_head g -> g_body g' = g_body g ++ es ->
  vb w g' ++ vbs w gnb = vb w g ->
  its_size (g_items g') + gs_size gnb <= its_size (g_items g) ->
  pdoneF p' g' es2 pb -> pdoneF p g (es ++ es2) pb.
Proof.
  intros Hp Hb Hn Hf Hh Hbd Hv Hz
    (g2 & nbs2 & gnb2 & Hp2 & Hb2 & Hn2 & Hf2 & Hh2 & Hbd2 & Hi2 & Hc2 & Hv2 & Hz2).
  exists g2, (nbs2 ++ nbs), (gnb2 ++ gnb).
  split. { rewrite Hp2, Hp. unfold set_next. simpl. rewrite <- app_assoc. reflexivity. }
  split; [auto|]. split; [apply Forall2_app; auto|]. split; [apply Forall_app; auto|].
  split; [congruence|]. split; [rewrite Hbd2, Hbd, app_assoc; reflexivity|].
  split; [auto|]. split; [auto|]. split.
  - rewrite vbs_app, app_assoc, Hv2. exact Hv.
  - rewrite gs_size_app. lia.
Qed.

Lemma pdoneF_nil p b g :
  prblock b g -> bl_chunks b = [] -> exists ex, exits ex /\ pdoneF p g ex (p, b).
Proof.
  intros Hb Ec.
  pose proof (prb_items Hb) as Hi. rewrite Ec in Hi. apply pritems_nil in Hi as (es & He & Hi).
  assert (Hi' : g_items g = map GE es ++ []) by (rewrite app_nil_r; exact Hi).
  assert (Hb' : prblock b (add_ev g es [])).
  { eapply prblock_exits; eauto. rewrite Ec. constructor. }
  exists es. split; auto.
  exists (add_ev g es []), [], []. cbn [fst snd].
  split; [destruct p; reflexivity|]. repeat (split; [solve [auto]|]).
  split; [|simpl; lia].
  cbn [vbs flat_map]. rewrite app_nil_r. rewrite <- (vb_exits w _ _ _ Hi'). unfold vb. cbn [g_items add_ev].
  rewrite vf_nil. reflexivity.
Qed.

Lemma pprint_next_loop : forall m p b g,
  its_size (g_items g) <= m -> pr_width p = w -> prblock b g -> fk (tl_of b g) ->
  exists pb, loops print_next_body (p, b) (Ok pb) /\ exists es, pdoneF p g es pb.
Proof.
  induction m as [m IH] using lt_wf_ind.
  intros p b g Hm Hw Hb Hk.
  destruct (bl_chunks b) as [|c cs] eqn:Ec.
  - exists (p, b). split.
    { apply loops_done. exists 0. intros n _. unfold print_next_body. rewrite Ec. reflexivity. }
    destruct (pdoneF_nil p Hb Ec) as (es & _ & H). eauto.
  - destruct (pnext_step p Hb Ec Hw (fk_next_known b g Hk)) as ((p' & b') & Hev & ex & Hex & Hr).
    destruct Hr as (g' & nbs & gnb & Hp & Hb' & Hn & Hf & Hh & Hbd & Hv & Hz & _). simpl in *.
    assert (Et := @pstepF_tl b g (ex ++ cev c) b' g' gnb Hb Hb' Hh Hbd Hv).
    assert (Hk' : fk (tl_of b' g')).
    { rewrite Et in Hk. apply fk_app_nonl in Hk; [apply fk_app_l in Hk; exact Hk|].
      apply no_newline_app; [apply exits_nonl; auto|apply cev_nonl]. }
    destruct (IH (its_size (g_items g'))) with (p := p') (b := b') (g := g') as (pb & Hl & es2 & Hr2); auto.
    { lia. }
    { rewrite Hp. exact Hw. }
    exists pb. split; [eapply loops_next; [exact Hev|exact Hl]|].
    eexists. eapply pdoneF_step; eauto. lia.
Qed.

Lemma pprint_next_line p b bs g :
  pr_next p = b :: bs -> pr_width p = w -> prblock b g -> fk (tl_of b g) ->
  exists g' nbs gnb es,
    ev (fun n => print_next_line n p) (Ok (set_next p (nbs ++ bs), Some (g_segs g'))) /\
    Forall2 prblock nbs gnb /\ Forall fresh gnb /\
    g_head g' = g_head g /\ g_body g' = g_body g ++ es /\ no_newline (g_body g') /\
    map Ev (g_done g') ++ vbs w gnb = vb w g /\
    gs_size gnb <= its_size (g_items g).
Proof.
  intros Hnx Hw Hb Hk.
  destruct (pprint_next_loop (set_next p bs) (le_n _) Hw Hb Hk) as ((p' & b') & Hl & es & Hr).
  apply loops_ev in Hl.
  destruct Hr as (g' & nbs & gnb & Hp & Hb' & Hn & Hf & Hh & Hbd & Hi & Hc & Hv & Hz). simpl in *.
  exists g', nbs, gnb, es. split.
  { unfold print_next_line. rewrite Hnx.
    eapply (ev_bind_ok (fun n x => match x with (p, b) => _ end)); [exact Hl|].
    unfold block_print. rewrite Hc, (prb_segs Hb'), Hp. ev_now. }
  repeat (split; [solve [auto]|]). split; [apply Hb'|]. auto.
Qed.

(** ** One step of the loops that keep the focus on the last block *)

Lemma pfront_split h gs g d front rest k :
  heads_ok h (gs ++ [g]) ->
  vp w (vbs w gs ++ vf w (g_done g) front (fits_its rest k)) rest k = d ->
  vbs w gs ++ vf w (g_done g) (front ++ rest) k = d.
Proof.
  intros Hh <-. unfold vf at 1. rewrite vp_app.
  symmetry. apply vp_prefix.
  destruct gs as [|g1 gs]; [left; reflexivity|right].
  simpl in Hh. destruct Hh as [_ Hh]. apply Forall_app in Hh as [_ Hh].
  inversion Hh; subst. unfold vf, vp. apply snl_app. apply snl_done. auto.
Qed.

Definition pstepL (p : printer) (g : gblock) (front rest : list item) (rc : list chunk)
    (r : printer * block) : Prop :=
  exists g' nbs gnb front' fc',
    fst r = set_prev p (nbs ++ pr_prev p) /\ prblock (snd r) g' /\
    Forall2 prblock nbs gnb /\ g_items g' = front' ++ rest /\
    pritems front' fc' /\ bl_chunks (snd r) = fc' ++ rc /\
    heads_ok (g_head g) (rev gnb ++ [g']) /\
    vbs w (rev gnb) ++ vf w (g_done g') front' (fits_its rest look_end) =
      vf w (g_done g) front (fits_its rest look_end) /\
    its_size front' + gs_size gnb < its_size front.

Lemma pexpand_last_step p b g g0 c j s front front0 rest fc0 rc :
  prblock b g0 -> g_items g0 = front0 ++ rest -> g_head g0 = g_head g ->
  pritems front0 fc0 -> bl_chunks b = fc0 ++ rc ->
  pcden c j s -> Q j s -> opens s = true ->
  vf w (g_done g0) (GI j s :: front0) (fits_its rest look_end) =
    vf w (g_done g) front (fits_its rest look_end) ->
  size s + its_size front0 < its_size front ->
  exists pb, ev (fun n => expand_last n p b c) (Ok pb) /\ pstepL p g front rest rc pb.
Proof.
  intros Hb Hg0 Hh0 Hf0 Hbc Hc Ho Hop Hv Hz.
  destruct (pexpand_last Q_concat w p Hc Ho Hop Hb)
    as (front1 & fc & nbs & gnb & b' & g' & Hev & Hn & Hb' & Hgi & Hh & Hfc & Hbc' & Hvf & Hzz).
  eexists. split; [exact Hev|].
  change (GI j s :: front0) with ([GI j s] ++ front0) in Hv. unfold vf at 1 in Hv. rewrite vp_app in Hv.
  exists g', nbs, gnb, (front1 ++ front0), (fc ++ fc0). cbn [fst snd].
  split; [reflexivity|]. split; [auto|]. split; [auto|].
  split; [rewrite Hgi, Hg0, app_assoc; reflexivity|].
  split; [apply pritems_app; auto|]. split; [rewrite Hbc', Hbc, app_assoc; reflexivity|].
  split; [congruence|]. split.
  - eapply pfront_split; [exact Hh|]. rewrite Hvf. exact Hv.
  - rewrite its_size_app. lia.
Qed.

Lemma pstepL_add p b' g es ft front rest fc rc :
  prblock b' (add_ev g es (ft ++ rest)) ->
  pritems ft fc -> bl_chunks b' = fc ++ rc ->
  vf w (g_done g ++ es) ft (fits_its rest look_end) =
    vf w (g_done g) front (fits_its rest look_end) ->
  its_size ft < its_size front ->
  pstepL p g front rest rc (p, b').
Proof.
  intros Hb Hf Hc Hv Hz. exists (add_ev g es (ft ++ rest)), [], [], ft, fc. cbn [fst snd].
  split; [destruct p; reflexivity|]. split; [auto|]. split; [constructor|].
  split; [reflexivity|]. split; [auto|]. split; [auto|].
  split; [simpl; auto|]. split; [|simpl; lia].
  cbn [rev vbs flat_map app]. rewrite g_done_add. exact Hv.
Qed.

(** No gap after the last newline: then the next item is known. *)
Lemma lk_known b g es j s ft k fc :
  prblock b g -> exits es -> pritems ft fc -> expanded s ->
  lk (vf w (g_done g) (map GE es ++ GI j s :: ft) k) ->
  known_item s (fits_its ft k) (bl_prefix_len b, bl_at_eol b).
Proof.
  intros Hb He Hft Hx H.
  destruct (peek_known s j (fits_its ft k) (bl_prefix_len b, bl_at_eol b) Hx) as [Hk|(gp & E)]; auto.
  exfalso. unfold vf, vp in H. rewrite (pprun_prun _ _ (prb_pos Hb)), peek_its_exits in H by auto.
  cbn [peek_its] in H. rewrite E in H. cbn [fst app pprun ppstep] in H. rewrite app_assoc in H.
  revert H. apply lk_gap. apply (peek_its_none w k (pritems_exp Hft)).
Qed.

Lemma pprev_step p b g front rest c fc rc :
  prblock b g -> g_items g = front ++ rest -> pritems front (c :: fc) -> pritems rest rc ->
  bl_chunks b = c :: fc ++ rc -> pr_width p = w ->
  lk (vf w (g_done g) front (fits_its rest look_end)) ->
  exists pb, ev (fun n => print_prev_body n (p, b)) (Ok (Next pb)) /\ pstepL p g front rest rc pb.
Proof.
  intros Hb Hgi Hfr Hre Ec Hw Hlk.
  apply pritems_cons in Hfr as (es & j & s & ft & He & Hfr & Hc & Hq & Hx & Hft).
  rewrite Hfr in Hlk. assert (Hk := @lk_known b g es j s ft _ fc Hb He Hft Hx Hlk). rewrite <- Hfr in Hlk.
  set (g0 := add_ev g es (GI j s :: ft ++ rest)).
  assert (Hgi' : g_items g = map GE es ++ GI j s :: ft ++ rest).
  { rewrite Hgi, Hfr, <- app_assoc. reflexivity. }
  assert (Hall : pritems (ft ++ rest) (fc ++ rc)) by (apply pritems_app; auto).
  assert (Hb0 : prblock b g0).
  { eapply prblock_exits; eauto. rewrite Ec. constructor; auto. }
  assert (Hv0 : vf w (g_done g0) (GI j s :: ft) (fits_its rest look_end) =
                vf w (g_done g) front (fits_its rest look_end)).
  { unfold g0. rewrite g_done_add, Hfr, vf_events. reflexivity. }
  assert (Hz0 : its_size (GI j s :: ft) = its_size front).
  { rewrite Hfr, its_size_ge. reflexivity. }
  assert (Hg0i : g_items g0 = GI j s :: ft ++ rest) by reflexivity.
  assert (Hg0d : g_done g0 = g_done g ++ es) by apply g_done_add.
  assert (Hadd : forall e its, add_ev g0 e its = add_ev g (es ++ e) its).
  { intros. unfold add_ev; simpl. rewrite <- app_assoc. reflexivity. }
  destruct Hc as [Hci Hcd].
  destruct s as [f| | |ind|t|a sb|a sb|cn ci s'|]; simpl in Hx; try contradiction; simpl in Hcd;
    destruct (ck_note c) as [| |ind'|t'|da db|da db|n' d|] eqn:En; try contradiction.
  - exists (p, set_eol (set_chunks b (fc ++ rc))). split.
    { exists 0. intros n _. unfold print_prev_body. rewrite Ec, En. reflexivity. }
    apply pstepL_add with (es := es ++ [EEol]) (ft := ft) (fc := fc); auto.
    + rewrite <- Hadd. apply prblock_eol; auto.
    + rewrite <- Hv0, Hg0d, vf_eol, <- app_assoc. reflexivity.
    + simpl in Hz0. lia.
  - subst t'. cbn [known_item] in Hk. destruct (text_pos (bl_prefix_len b, bl_at_eol b) t) as [q|] eqn:Eq; [|elim Hk; reflexivity].
    destruct (ppush_text t j Hb0 Hall Eq) as (b' & Ep & Hb' & Hc').
    exists (p, b'). split.
    { exists 0. intros n _. unfold print_prev_body. rewrite Ec, En, Ep. reflexivity. }
    apply pstepL_add with (es := es ++ [EText j t]) (ft := ft) (fc := fc); auto.
    + rewrite <- Hadd. exact Hb'.
    + rewrite <- Hv0. erewrite vf_text.
      * rewrite Hg0d, <- app_assoc. reflexivity.
      * rewrite <- (g_done_add g0 [EText j t] (ft ++ rest)). apply (prb_pos Hb').
    + simpl in Hz0. lia.
  - destruct Hcd as [[Hia Hda] [Hib Hdb]]. destruct Hk as (Hh & f & Hp & Hop).
    assert (Hp' : picks_first w a (fits_its (ft ++ rest) look_end) (bl_prefix_len b, bl_at_eol b) = Some f)
      by (rewrite fits_its_app; exact Hp).
    destruct (@pchoose _ _ Q p (set_chunks b (fc ++ rc)) da db j a sb (ft ++ rest) f Hall Hia Hda Hib Hdb Hh) as (x & Hev & Hxd).
    { cbn [set_chunks bl_prefix_len bl_at_eol]. rewrite Hw. exact Hp'. }
    { apply opens_head; auto. }
    assert (Hbody : forall n, print_prev_body n (p, b) =
        bind (x <- choose n p (set_chunks b (fc ++ rc)) da db ;;
              expand_last n p (set_chunks b (fc ++ rc)) x) (fun s => Ok (Next s))).
    { intros n. unfold print_prev_body. rewrite Ec, En.
      destruct (choose n p (set_chunks b (fc ++ rc)) da db); reflexivity. }
    destruct (Q_choice Hq) as [Hqa Hqb].
    destruct (@pexpand_last_step p (set_chunks b (fc ++ rc)) g (add_ev g es (ft ++ rest)) x j
      (if f then a else sb) front ft rest fc rc) as (r & Hev2 & Hr2); auto.
    + change (add_ev g es (ft ++ rest)) with (set_items g0 (ft ++ rest)).
      apply prblock_items; auto.
    + destruct f; auto.
    + rewrite <- Hv0. rewrite (vf_choice w _ j a sb ft (fits_its rest look_end) (prb_pos Hb0) Hh Hp Hop).
      rewrite Hg0d, g_done_add. reflexivity.
    + simpl in Hz0. pose proof (size_pos a). pose proof (size_pos sb). destruct f; lia.
    + exists r. split; auto. eapply ev_ext; [intros n; symmetry; apply Hbody|].
      eapply (ev_bind_ok (fun _ s => Ok (Next s))); [|ev_now].
      eapply (ev_bind_ok (fun k x => expand_last k p (set_chunks b (fc ++ rc)) x)); eauto.
  - destruct Hcd as (<- & Hd). destruct Hk as ((j' & ->) & Hop).
    destruct Hd as [Hd|[Hid Hd]]; [rewrite (opens_head _ Hop) in Hd; discriminate|].
    assert (Hbody : forall n, print_prev_body n (p, b) =
        bind (x <- chunk_new d ;; expand_last n p (set_chunks b (fc ++ rc)) x) (fun s => Ok (Next s))).
    { intros n. unfold print_prev_body. rewrite Ec, En. destruct (chunk_new d); reflexivity. }
    rewrite (vf_child w _ j cn j' s' ft (fits_its rest look_end) (prb_pos Hb0) Hop) in Hv0.
    destruct (pchunk_new _ _ Hid Hd (opens_head _ Hop)) as (x & Ex & Hxd).
    set (ft0 := GE (EExit j cn) :: ft).
    destruct (@pexpand_last_step p (set_chunks b (fc ++ rc)) g (add_ev g0 [EEnter j cn] (ft0 ++ rest)) x j'
      s' front ft0 rest fc rc) as (r & Hev2 & Hr2); auto.
    + apply prblock_silent; auto. simpl. constructor; auto.
    + constructor; auto.
    + eapply Q_child; eauto.
    + rewrite g_done_add. exact Hv0.
    + simpl in *. lia.
    + exists r. split; auto. eapply ev_ext; [intros n; symmetry; apply Hbody|]. rewrite Ex. cbn [bind].
      eapply (ev_bind_ok (fun _ s => Ok (Next s))); [exact Hev2|ev_now].
  - exists (p, set_chunks b (fc ++ rc)). split.
    { exists 0. intros n _. unfold print_prev_body. rewrite Ec, En. reflexivity. }
    apply pstepL_add with (es := es ++ [EMark j]) (ft := ft) (fc := fc); auto.
    + rewrite <- Hadd. apply prblock_silent; auto.
    + rewrite <- Hv0, Hg0d, vf_mark, <- app_assoc. reflexivity.
    + simpl in Hz0. lia.
Qed.

(** ** print_prev_line and seek_end *)

Definition pdoneL (p : printer) (g : gblock) (front rest : list item) (rc : list chunk)
    (r : printer * block) : Prop :=
  exists g' nbs gnb,
    fst r = set_prev p (nbs ++ pr_prev p) /\ prblock (snd r) g' /\
    Forall2 prblock nbs gnb /\ g_items g' = rest /\ bl_chunks (snd r) = rc /\
    heads_ok (g_head g) (rev gnb ++ [g']) /\
    vbs w (rev gnb) ++ map Ev (g_done g') = vf w (g_done g) front (fits_its rest look_end) /\
    gs_size gnb <= its_size front.

Lemma pdoneL_step p g front rest rc p' b' g' nbs gnb front' fc' pb :
  p' = set_prev p (nbs ++ pr_prev p) -> prblock b' g' -> Forall2 prblock nbs gnb ->
  g_items g' = front' ++ rest -> pritems front' fc' ->
  heads_ok (g_head g) (rev gnb ++ [g']) ->
  vbs w (rev gnb) ++ vf w (g_done g') front' (fits_its rest look_end) =
    vf w (g_done g) front (fits_its rest look_end) ->
  its_size front' + gs_size gnb <= its_size front ->
  pdoneL p' g' front' rest rc pb -> pdoneL p g front rest rc pb.
Proof.
  intros Hp Hb Hn Hgi Hfr Hh Hv Hz
    (g2 & nbs2 & gnb2 & Hp2 & Hb2 & Hn2 & Hi2 & Hc2 & Hh2 & Hv2 & Hz2).
  exists g2, (nbs2 ++ nbs), (gnb2 ++ gnb).
  split. { rewrite Hp2, Hp. unfold set_prev. simpl. rewrite <- app_assoc. reflexivity. }
  split; [auto|]. split; [apply Forall2_app; auto|]. split; [auto|]. split; [auto|].
  split. { rewrite rev_app_distr, <- app_assoc. eapply heads_ok_trans; eauto. }
  split.
  - rewrite rev_app_distr, vbs_app, <- app_assoc, Hv2. exact Hv.
  - rewrite gs_size_app. lia.
Qed.

Lemma pdoneL_nil p b g front rest rc :
  prblock b g -> g_items g = front ++ rest -> pritems front [] -> pritems rest rc -> bl_chunks b = rc ->
  pdoneL p g front rest rc (p, b).
Proof.
  intros Hb Hgi Hfr Hre Hc. apply pritems_nil in Hfr as (es & He & ->).
  assert (Hb' : prblock b (add_ev g es rest)).
  { eapply prblock_exits; eauto. rewrite Hc. exact Hre. }
  exists (add_ev g es rest), [], []. cbn [fst snd].
  split; [destruct p; reflexivity|]. split; [auto|]. split; [constructor|].
  split; [reflexivity|]. split; [auto|]. split; [simpl; auto|]. split; [|simpl; lia].
  cbn [rev vbs flat_map app].
  rewrite <- (app_nil_r (map GE es)), vf_events, g_done_add, vf_nil. reflexivity.
Qed.

Lemma pseek_end_loop : forall m p b g front rest fc rc,
  its_size front <= m ->
  prblock b g -> g_items g = front ++ rest -> pritems front fc -> pritems rest rc ->
  bl_chunks b = fc ++ rc -> pr_width p = w ->
  lk (vf w (g_done g) front (fits_its rest look_end)) ->
  exists pb, loops (fun n => seek_end_body n (length rc)) (p, b) (Ok pb) /\
    pdoneL p g front rest rc pb.
Proof.
  induction m as [m IH] using lt_wf_ind.
  intros p b g front rest fc rc Hm Hb Hgi Hfr Hre Hc Hw Hk.
  destruct fc as [|c fc].
  - exists (p, b). split.
    { apply loops_done. exists 0. intros n _. unfold seek_end_body. simpl in Hc.
      rewrite Hc, Nat.leb_refl. reflexivity. }
    eapply pdoneL_nil; eauto.
  - destruct (@pprev_step p b g front rest c fc rc) as ((p' & b') & Hev & Hr); auto.
    assert (Hev' : ev (fun n => seek_end_body n (length rc) (p, b)) (Ok (Next (p', b')))).
    { eapply ev_ext; [|exact Hev]. intros n. unfold seek_end_body, print_prev_body. rewrite Hc.
      simpl app. replace (Nat.leb (length (c :: fc ++ rc)) (length rc)) with false; [reflexivity|].
      symmetry. apply Nat.leb_gt. simpl. rewrite app_length. lia. }
    destruct Hr as (g' & nbs & gnb & front' & fc' & Hp & Hb' & Hn & Hgi' & Hfr' & Hc' & Hh & Hv & Hz).
    simpl in *.
    destruct (IH (its_size front')) with (p := p') (b := b') (g := g') (front := front')
      (rest := rest) (fc := fc') (rc := rc) as (pb & Hl & Hr2); auto.
    { lia. }
    { rewrite Hp. exact Hw. }
    { rewrite <- Hv in Hk. apply lk_app_r in Hk. exact Hk. }
    exists pb. split; [eapply loops_next; [exact Hev'|exact Hl]|].
    eapply pdoneL_step; eauto. lia.
Qed.

Lemma pprint_prev_loop : forall m p b g,
  its_size (g_items g) <= m -> prblock b g -> pr_width p = w -> lk (vb w g) ->
  exists pb, loops print_prev_body (p, b) (Ok pb) /\ pdoneL p g (g_items g) [] [] pb.
Proof.
  induction m as [m IH] using lt_wf_ind.
  intros p b g Hm Hb Hw Hk.
  destruct (bl_chunks b) as [|c fc] eqn:Hc.
  - exists (p, b). split.
    { apply loops_done. exists 0. intros n _. unfold print_prev_body. rewrite Hc. reflexivity. }
    eapply pdoneL_nil; eauto; try constructor.
    + rewrite app_nil_r. reflexivity.
    + rewrite <- Hc. apply Hb.
  - destruct (@pprev_step p b g (g_items g) [] c fc []) as ((p' & b') & Hev & Hr); auto; try constructor.
    { rewrite app_nil_r. reflexivity. }
    { rewrite <- Hc. apply Hb. }
    { rewrite app_nil_r. exact Hc. }
    destruct Hr as (g' & nbs & gnb & front' & fc' & Hp & Hb' & Hn & Hgi' & Hfr' & Hc' & Hh & Hv & Hz).
    simpl in *. rewrite app_nil_r in Hgi'. subst front'.
    destruct (IH (its_size (g_items g'))) with (p := p') (b := b') (g := g') as (pb & Hl & Hr2); auto.
    { lia. }
    { rewrite Hp. exact Hw. }
    { unfold vb in Hk. rewrite <- Hv in Hk. apply lk_app_r in Hk. exact Hk. }
    exists pb. split; [eapply loops_next; [exact Hev|exact Hl]|].
    eapply pdoneL_step; eauto; [rewrite app_nil_r; reflexivity|lia].
Qed.

Lemma pprint_prev_line p b bs g :
  pr_prev p = b :: bs -> pr_width p = w -> prblock b g -> lk (vb w g) ->
  exists g' nbs gnb,
    ev (fun n => print_prev_line n p) (Ok (set_prev p (nbs ++ bs), Some (g_segs g'))) /\
    Forall2 prblock nbs gnb /\ heads_ok (g_head g) (rev gnb ++ [g']) /\
    no_newline (g_body g') /\
    vbs w (rev gnb) ++ map Ev (g_done g') = vb w g /\
    gs_size gnb <= its_size (g_items g).
Proof.
  intros Hpv Hw Hb Hk.
  destruct (pprint_prev_loop (set_prev p bs) (le_n _) Hb Hw Hk) as ((p' & b') & Hl & Hr).
  apply loops_ev in Hl.
  destruct Hr as (g' & nbs & gnb & Hp & Hb' & Hn & Hi & Hc & Hh & Hv & Hz). simpl in *.
  exists g', nbs, gnb. split.
  { unfold print_prev_line. rewrite Hpv.
    eapply (ev_bind_ok (fun n x => match x with (p, b) => _ end)); [exact Hl|].
    unfold block_print. rewrite Hc, (prb_segs Hb'), Hp. ev_now. }
  repeat (split; [solve [auto]|]). split; [apply Hb'|]. auto.
Qed.

Lemma pseek_end p b bs g c j s :
  pr_next p = b :: bs -> pr_width p = w -> prblock b g -> pcden c j s -> Q j s -> opens s = true ->
  lk (vf w (g_done g) [GI j s] (fits_its (g_items g) look_end)) ->
  exists g' b' nbs gnb,
    ev (fun n => seek_end n p c) (Ok (Printer (pr_width p) (nbs ++ pr_prev p) (b' :: bs))) /\
    prblock b' g' /\ Forall2 prblock nbs gnb /\ g_items g' = g_items g /\
    heads_ok (g_head g) (rev gnb ++ [g']) /\
    vbs w (rev gnb) ++ map Ev (g_done g') =
      vf w (g_done g) [GI j s] (fits_its (g_items g) look_end).
Proof.
  intros Hnx Hw Hb Hc Ho Hop Hk.
  destruct (pexpand_last Q_concat w (set_next p bs) Hc Ho Hop Hb)
    as (front & fc & nbs & gnb & b' & g' & Hev & Hn & Hb' & Hgi & Hh & Hfc & Hbc & Hv & Hz).
  destruct (@pseek_end_loop (its_size front) (set_prev (set_next p bs) (nbs ++ pr_prev (set_next p bs)))
    b' g' front (g_items g) fc (bl_chunks b)) as ((p2 & b2) & Hl & Hr); auto.
  { apply Hb. }
  { rewrite <- Hv in Hk. apply lk_app_r in Hk. exact Hk. }
  apply loops_ev in Hl.
  destruct Hr as (g2 & nbs2 & gnb2 & Hp2 & Hb2 & Hn2 & Hi2 & Hc2 & Hh2 & Hv2 & Hz2).
  simpl in *. exists g2, b2, (nbs2 ++ nbs), (gnb2 ++ gnb).
  split.
  { unfold seek_end. rewrite Hnx.
    eapply (ev_bind_ok (fun n s => '(p, b) <- loop n (seek_end_body n (length (bl_chunks b))) s ;;
                                   Ok (push_next p b))); [exact Hev|].
    eapply (ev_bind_ok (fun n x => match x with (p, b) => _ end)); [exact Hl|].
    rewrite Hp2. unfold set_prev, push_next. simpl. rewrite <- app_assoc. ev_now. }
  split; [auto|]. split; [apply Forall2_app; auto|]. split; [auto|].
  split. { rewrite rev_app_distr, <- app_assoc. eapply heads_ok_trans; eauto. }
  rewrite rev_app_distr, vbs_app, <- app_assoc, Hv2. apply Hv.
Qed.

End PPeek3.
