(** Printing lines and seeking preserve the layout. *)
From Verif Require Export PRefine.

Set Implicit Arguments.

Section Print.
Context {pd : PrettyDoc} {env : Env}.

Variable P : failure (perr Er) -> Prop.
Hypothesis P_eol : P (FErr TextAfterEndOfLine).
Hypothesis P_ovf : ovf = true -> P (FPanic POverflow).
Variable Q : Id -> shape -> Prop.
Hypothesis Q_concat : forall j a b, Q j (SConcat a b) -> Q j a /\ Q j b.
Hypothesis Q_choice : forall j a b, Q j (SChoice a b) -> Q j a /\ Q j b.
Hypothesis Q_child : forall j n j' s, Q j (SChild n (Ok j') s) -> Q j' s.

Notation ritems := (ritems P Q).
Notation rblock := (rblock P Q).
Notation okpart := (okpart P Q).
Notation allf := (allf P).

Variable w : N.

(** ** Exits *)

Definition is_exit (e : event) : bool := match e with EExit _ _ => true | _ => false end.
Definition exits (es : list event) : Prop := forallb is_exit es = true.

Lemma exits_silent es : exits es -> forall p, prun p es = Some p.
Proof.
  unfold exits. induction es as [|[] es IH]; simpl; intros H p; try discriminate; auto.
Qed.
Lemma exits_texts es : exits es -> texts es = [].
Proof. unfold exits. induction es as [|[] es IH]; simpl; intros H; try discriminate; auto. Qed.
Lemma exits_nonl es : exits es -> no_newline es.
Proof.
  unfold exits, no_newline.
  induction es as [|[] es IH]; simpl; intros H; try discriminate; auto.
Qed.

Lemma vfront_events done es its k :
  vfront w done (map GE es ++ its) k = vfront w (done ++ es) its k.
Proof.
  revert done; induction es as [|e es IH]; intros done; simpl.
  - rewrite app_nil_r. reflexivity.
  - rewrite vfront_event, IH, <- app_assoc. reflexivity.
Qed.

Lemma ritems_nil its : ritems its [] -> exists es, exits es /\ its = map GE es.
Proof.
  remember [] as cs eqn:E. intros H. induction H; try discriminate.
  - exists []. split; reflexivity.
  - destruct (IHritems E) as (es & He & ->). exists (EExit j n :: es). split; auto.
Qed.

Lemma ritems_cons its c cs : ritems its (c :: cs) ->
  exists es j s its', exits es /\ its = map GE es ++ GI j s :: its' /\
    cden c j s /\ okpart j s /\ expanded s /\ ritems its' cs.
Proof.
  remember (c :: cs) as l eqn:E. intros H. induction H; try discriminate.
  - destruct (IHritems E) as (es & j' & s & its' & He & -> & Hrest).
    exists (EExit j n :: es), j', s, its'. split; [exact He|]. auto.
  - injection E as -> ->. exists [], j, s, its. split; [reflexivity|]. auto.
Qed.

Lemma its_size_ge es its : its_size (map GE es ++ its) = its_size its.
Proof. induction es; simpl; auto. Qed.

(** Emitting pending exits. *)
Lemma rblock_exits b g es its :
  rblock b g -> exits es -> g_items g = map GE es ++ its ->
  ritems its (bl_chunks b) ->
  rblock b (add_ev g es its).
Proof.
  intros [H1 H2 H3 H4] He Hi Hr. constructor; simpl; auto.
  - rewrite g_segs_add, exits_texts, app_nil_r; auto.
  - rewrite g_done_add, prun_app, H2. simpl. apply exits_silent; auto.
  - apply no_newline_app; auto. apply exits_nonl; auto.
Qed.

Lemma vblock_exits g es its :
  g_items g = map GE es ++ its -> vblock w (add_ev g es its) = vblock w g.
Proof.
  intros Hi. unfold vblock. rewrite g_done_add, Hi, vfront_events. reflexivity.
Qed.

(** ** One step, keeping the focus on the first block *)

(** What an item of node [j] is replaced by when it is resolved. *)
Definition grown (j : Id) (s : shape) (X : list item) : Prop :=
  match s with
  | SChild n i s' => exists j' Y, i = Ok j' /\ X = Y ++ [GE (EExit j n)] /\ Forall (tagged j') Y
  | SChoice _ _ => Forall (tagged j) X
  | _ => X = []
  end.

Lemma front_unique (a b : list event) j s x j' s' y :
  map GE a ++ GI j s :: x = map GE b ++ GI j' s' :: y -> a = b /\ j = j' /\ s = s' /\ x = y.
Proof.
  revert b; induction a as [|e a IH]; intros [|e' b] H; simpl in H; try discriminate.
  - injection H as -> -> ->. auto.
  - injection H as -> H. destruct (IH _ H) as (-> & ? & ? & ?). auto.
Qed.

(** Outcome: new blocks were pushed after the current one, which now stands
    for [g']. *)
Definition stepF (p : printer) (g : gblock) (es : list event) (r : printer * block) : Prop :=
  exists g' nbs gnb,
    fst r = set_next p (nbs ++ pr_next p) /\ rblock (snd r) g' /\
    Forall2 rblock nbs gnb /\ Forall fresh gnb /\
    g_head g' = g_head g /\ g_body g' = g_body g ++ es /\
    oapp (vblock w g') (vblocks w gnb) = vblock w g /\
    its_size (g_items g') + gs_size gnb < its_size (g_items g) /\
    (forall ex j s its, g_items g = map GE ex ++ GI j s :: its ->
       exists X, g_items g' ++ gitems gnb = X ++ its /\ grown j s X).

Lemma expand_first_step p b g g0 c j s its es :
  rblock b g0 -> g0 = add_ev g es its -> cden c j s -> okpart j s ->
  vblock w (set_items g0 (GI j s :: its)) = vblock w g ->
  size s + its_size its < its_size (g_items g) ->
  (forall X, Forall (tagged j) X -> forall ex j1 s1 its1, g_items g = map GE ex ++ GI j1 s1 :: its1 ->
     exists X', X ++ its = X' ++ its1 /\ grown j1 s1 X') ->
  exists r, ev (fun n => expand_first n p b c) r /\
    match r with
    | Ok pb => stepF p g es pb
    | Fail f => P f /\ vblock w g = None
    end.
Proof.
  intros Hb Hg0 Hc Ho Hv Hz Hgr.
  assert (Hits : ritems its (bl_chunks b)).
  { destruct Hb as [_ _ _ Hb]. subst g0. exact Hb. }
  destruct (expand_first_spec P_ovf Q_concat w p b Hc Ho Hits) as (r & Hev & Hr).
  exists r. split; [exact Hev|].
  destruct r as [[p' b']|f].
  - destruct Hr as (its' & cs' & nbs & gnb & -> & -> & Hi' & Hn & Hh & Hvf & Hzz & X & HX1 & HX2).
    exists (set_items g0 its'), nbs, gnb. simpl. repeat (split; [first [solve [auto] | idtac]|]).
    + apply rblock_items; auto.
    + subst g0; reflexivity.
    + subst g0; reflexivity.
    + rewrite <- Hv. unfold vblock at 1 2. simpl. exact (Hvf (g_done g0)).
    + simpl in *. lia.
    + intros ex j1 s1 its1 E. rewrite HX1. eauto.
  - destruct Hr as [Hp Hr]. split; auto. rewrite <- Hv. unfold vblock. simpl. apply Hr.
Qed.

Lemma child_first p b g c cs j n i s its d :
  rblock b g -> bl_chunks b = c :: cs -> g_items g = GI j (SChild n i s) :: its ->
  ritems its cs -> okpart j (SChild n i s) ->
  lift (m_id (dl_doc d)) = i -> den i s (eval d) ->
  exists r, ev (fun k => x <- chunk_new d ;; expand_first k p (set_chunks b cs) x) r /\
    match r with
    | Ok pb => stepF p g [EEnter j n] pb
    | Fail f => P f /\ vblock w g = None
    end.
Proof.
  intros Hb Hbc Hgi Hits [[Hfi Hfs] Hq] Hi Hd.
  destruct i as [j'|f].
  - destruct (chunk_new_spec _ _ Hi Hd) as [(x & Ex & Hx & _)|(f & Ex & ->)].
    + rewrite Ex. cbn [bind].
      set (its0 := GE (EExit j n) :: its).
      apply expand_first_step with (g0 := add_ev g [EEnter j n] its0) (its := its0) (j := j') (s := s);
        auto.
      * apply rblock_silent; auto. constructor; auto.
      * split; auto. eapply Q_child; eauto.
      * unfold vblock. simpl. rewrite Hgi. rewrite vfront_child_ok.
        unfold g_done. simpl. rewrite <- app_assoc. reflexivity.
      * rewrite Hgi. simpl. lia.
      * intros X HX ex j1 s1 its1 E. rewrite Hgi in E. apply (front_unique []) in E as (_ & <- & <- & <-).
        exists (X ++ [GE (EExit j n)]). rewrite <- app_assoc. split; [reflexivity|]. simpl. eauto.
    + exists (Fail f). split; [rewrite Ex; ev_now|]. split; auto.
      unfold vblock. rewrite Hgi, vfront_child_ok, vfront_fail. reflexivity.
  - exists (Fail f). split.
    + unfold chunk_new. rewrite Hi. ev_now.
    + split; auto. unfold vblock. rewrite Hgi. apply vfront_child_fail.
Qed.

Lemma choice_first p b g c cs j sa sb its da db :
  rblock b g -> pr_width p = w ->
  bl_chunks b = c :: cs -> g_items g = GI j (SChoice sa sb) :: its ->
  ritems its cs -> okpart j (SChoice sa sb) ->
  lift (m_id (dl_doc da)) = Ok j -> den (Ok j) sa (eval da) ->
  lift (m_id (dl_doc db)) = Ok j -> den (Ok j) sb (eval db) ->
  exists r, ev (fun k => x <- choose k p (set_chunks b cs) da db ;;
                         expand_first k p (set_chunks b cs) x) r /\
    match r with
    | Ok pb => stepF p g [] pb
    | Fail f => P f /\ vblock w g = None
    end.
Proof.
  intros Hb Hw Hbc Hgi Hits [[Hfa Hfb] Hq] Hia Hda Hib Hdb.
  assert (Hch : vblock w g = if head_fails sa then None else
    match picks_first w sa (fits_its its look_end) (bl_prefix_len b, bl_at_eol b) with
    | None => None
    | Some true => vfront w (g_done g) (GI j sa :: its) look_end
    | Some false => vfront w (g_done g) (GI j sb :: its) look_end
    end).
  { unfold vblock. rewrite Hgi. apply vfront_choice. apply Hb. }
  destruct (choose_spec p (set_chunks b cs) da db sa sb Hits Hia Hda Hib Hdb Hfa Hfb)
    as (r & Hev & Hr). cbn [set_chunks bl_prefix_len bl_at_eol] in Hr. rewrite Hw in Hr.
  destruct r as [x|f].
  - destruct Hr as (f & Hh & Hp & Hx & _).
    destruct (Q_choice Hq) as [Hqa Hqb].
    destruct (@expand_first_step p (set_chunks b cs) g (add_ev g [] its) x j (if f then sa else sb) its [])
      as (r & Hev2 & Hr2); auto.
    + unfold add_ev. rewrite app_nil_r. apply rblock_items; auto.
    + split; destruct f; auto.
    + rewrite Hch, Hh, Hp. unfold vblock. simpl. unfold g_done; simpl. rewrite app_nil_r.
      destruct f; reflexivity.
    + rewrite Hgi. simpl. pose proof (size_pos sa). pose proof (size_pos sb). destruct f; lia.
    + intros X HX ex j1 s1 its1 E. rewrite Hgi in E. apply (front_unique []) in E as (_ & <- & <- & <-). simpl. eauto.
    + exists r. split; [|exact Hr2].
      eapply (ev_bind_ok (fun k x => expand_first k p (set_chunks b cs) x)); eauto.
  - exists (Fail f). split.
    + apply (ev_bind_fail (fun k x => expand_first k p (set_chunks b cs) x)). exact Hev.
    + destruct Hr as [Hp Hr]. split; auto. rewrite Hch.
      destruct Hr as [-> | [-> | [-> Hs]]]; auto.
      * destruct (head_fails sa); reflexivity.
      * destruct (head_fails sa); auto. destruct sb; try discriminate. apply vfront_fail.
Qed.

Lemma text_step b g c cs j t its :
  rblock b g -> bl_chunks b = c :: cs -> g_items g = GI j (SText t) :: its -> ritems its cs ->
  (exists b', push_text (set_chunks b cs) t = Ok b' /\ rblock b' (add_ev g [EText j t] its) /\
     bl_chunks b' = cs) \/
  (exists f, push_text (set_chunks b cs) t = Fail f /\ P f /\ vblock w g = None).
Proof.
  intros Hb Hbc Hgi Hits.
  destruct (push_text_spec P_eol P_ovf t j Hb Hits) as [H|(f & H1 & H2 & H3)]; auto.
  right. exists f. repeat split; auto.
  unfold vblock. rewrite Hgi, vfront_text. unfold vfront. rewrite H3. reflexivity.
Qed.


(** ** One step of any of the loops that keep the focus on the first block *)

(** The event a chunk is resolved to. *)
Definition cev (c : chunk) : list event :=
  match ck_note c with
  | CFocusMark => [EMark (ck_id c)]
  | CEndOfLine => [EEol]
  | CTextual t => [EText (ck_id c) t]
  | CChild n _ => [EEnter (ck_id c) n]
  | _ => []
  end.

Lemma stepF_add p b' g g0 es0 es its :
  rblock b' (add_ev g0 es its) -> g0 = add_ev g es0 (g_items g0) ->
  vblock w (add_ev g0 es its) = vblock w g ->
  its_size its < its_size (g_items g) ->
  (exists ex j s, g_items g = map GE ex ++ GI j s :: its /\ grown j s []) ->
  stepF p g (es0 ++ es) (p, b').
Proof.
  intros Hb Hg Hv Hz (ex0 & j0 & s0 & E0 & G0). exists (add_ev g0 es its), [], []. simpl.
  split; [destruct p; reflexivity|]. split; [auto|]. split; [constructor|]. split; [constructor|].
  split; [rewrite Hg; reflexivity|]. split; [rewrite Hg; simpl; rewrite <- app_assoc; reflexivity|].
  split; [rewrite oapp_nil_r; exact Hv|]. split; [lia|].
  intros ex j s its1 E. rewrite E0 in E. apply front_unique in E as (_ & <- & <- & <-). exists []. simpl. rewrite app_nil_r. auto.
Qed.

Lemma stepF_pre p g es0 its0 es r :
  stepF p (add_ev g es0 its0) es r ->
  vblock w (add_ev g es0 its0) = vblock w g ->
  its_size its0 = its_size (g_items g) -> g_items g = map GE es0 ++ its0 ->
  stepF p g (es0 ++ es) r.
Proof.
  intros (g' & nbs & gnb & H1 & H2 & H3 & H4 & H5 & H6 & H7 & H8 & H9) Hv Hz Hi.
  exists g', nbs, gnb. repeat (split; [solve [auto]|]).
  split; [rewrite H6; simpl; rewrite <- app_assoc; reflexivity|].
  split; [congruence|]. simpl in H8. split; [lia|].
  intros ex j s its E. rewrite Hi in E.
  assert (E' : exists ex', its0 = map GE ex' ++ GI j s :: its).
  { clear - E. revert ex E. induction es0 as [|e es0 IH]; intros ex E; [eauto|]. destruct ex as [|e' ex]; [discriminate|]. injection E as _ E. eauto. }
  destruct E' as [ex' E']. eapply H9. exact E'.
Qed.

Lemma next_step p b g c cs :
  rblock b g -> bl_chunks b = c :: cs -> pr_width p = w ->
  exists r, ev (fun n => print_next_body n (p, b)) r /\
    match r with
    | Ok (Next pb) => exists ex, (exits ex /\ exists j s its, g_items g = map GE ex ++ GI j s :: its /\
        ck_id c = j /\ okpart j s) /\ stepF p g (ex ++ cev c) pb
    | Ok (Done _) => False
    | Fail f => P f /\ vblock w g = None
    end.
Proof.
  intros Hb Ec Hw.
  pose proof (rb_items Hb) as Hi. rewrite Ec in Hi.
  apply ritems_cons in Hi as (es & j & s & its & He & Hi & Hc & Ho & Hx & Hits).
  set (g0 := add_ev g es (GI j s :: its)).
  assert (Hb0 : rblock b g0).
  { eapply rblock_exits; eauto. rewrite Ec. constructor; auto. }
  assert (Hv0 : vblock w g0 = vblock w g) by (apply vblock_exits; auto).
  assert (Hz0 : its_size (GI j s :: its) = its_size (g_items g)).
  { rewrite Hi, its_size_ge. reflexivity. }
  assert (Hg0i : g_items g0 = GI j s :: its) by reflexivity.
  destruct Hc as [Hci Hcd].
  assert (Hcev : cev c = match ck_note c with
    | CFocusMark => [EMark j] | CEndOfLine => [EEol] | CTextual t => [EText j t]
    | CChild n _ => [EEnter j n] | _ => [] end) by (unfold cev; rewrite Hci; reflexivity).
  destruct s as [f| | |ind|t|a sb|a sb|cn ci s'|]; simpl in Hcd; simpl in Hx; try contradiction;
    destruct (ck_note c) as [| |ind'|t'|da db|da db|n' d|] eqn:En; try contradiction; rewrite Hcev.
  - exists (Ok (Next (p, set_eol (set_chunks b cs)))). split.
    { exists 0. intros n _. unfold print_next_body. rewrite Ec, En. reflexivity. }
    exists es. split; [split; [exact He|]; do 3 eexists; split; [exact Hi|split; [exact Hci|exact Ho]]|]. apply stepF_add with (g0 := g0) (its := its); auto; [..|solve [do 3 eexists; split; [exact Hi|reflexivity]]].
    + apply rblock_eol; auto.
    + rewrite <- Hv0. unfold vblock. rewrite g_done_add, Hg0i, vfront_eol. reflexivity.
    + simpl in Hz0. lia.
  - subst t'.
    destruct (@text_step b g0 c cs j t its Hb0 Ec Hg0i Hits)
      as [(b' & Ep & Hb' & _)|(f & Ep & HP & HV)].
    + exists (Ok (Next (p, b'))). split.
      { exists 0. intros n _. unfold print_next_body. rewrite Ec, En, Ep. reflexivity. }
      exists es. split; [split; [exact He|]; do 3 eexists; split; [exact Hi|split; [exact Hci|exact Ho]]|]. apply stepF_add with (g0 := g0) (its := its); auto; [..|solve [do 3 eexists; split; [exact Hi|reflexivity]]].
      * rewrite <- Hv0. unfold vblock. rewrite g_done_add, Hg0i, vfront_text. reflexivity.
      * simpl in Hz0. lia.
    + exists (Fail f). split.
      { exists 0. intros n _. unfold print_next_body. rewrite Ec, En, Ep. reflexivity. }
      split; auto. congruence.
  - destruct Hcd as [[Hia Hda] [Hib Hdb]].
    destruct (@choice_first p b g0 c cs j a sb its da db) as (r & Hev & Hr); auto.
    exists (match r with Ok pb => Ok (Next pb) | Fail f => Fail f end). split.
    { eapply ev_ext with (f := fun n =>
        bind (x <- choose n p (set_chunks b cs) da db ;; expand_first n p (set_chunks b cs) x)
          (fun s => Ok (Next s))).
      { intros n. unfold print_next_body. rewrite Ec, En.
        destruct (choose n p (set_chunks b cs) da db); reflexivity. }
      destruct r as [pb|f].
      - eapply (ev_bind_ok (fun _ s => Ok (Next s))); [exact Hev|]. ev_now.
      - apply (ev_bind_fail (fun _ s => Ok (Next s))). exact Hev. }
    destruct r as [pb|f].
    + exists es. split; [split; [exact He|]; do 3 eexists; split; [exact Hi|split; [exact Hci|exact Ho]]|]. eapply stepF_pre; eauto.
    + destruct Hr. split; auto. congruence.
  - destruct Hcd as (<- & Hid & Hd).
    destruct (@child_first p b g0 c cs j cn ci s' its d) as (r & Hev & Hr); auto.
    exists (match r with Ok pb => Ok (Next pb) | Fail f => Fail f end). split.
    { eapply ev_ext with (f := fun n =>
        bind (x <- chunk_new d ;; expand_first n p (set_chunks b cs) x) (fun s => Ok (Next s))).
      { intros n. unfold print_next_body. rewrite Ec, En. destruct (chunk_new d); reflexivity. }
      destruct r as [pb|f].
      - eapply (ev_bind_ok (fun _ s => Ok (Next s))); [exact Hev|]. ev_now.
      - apply (ev_bind_fail (fun _ s => Ok (Next s))). exact Hev. }
    destruct r as [pb|f].
    + exists es. split; [split; [exact He|]; do 3 eexists; split; [exact Hi|split; [exact Hci|exact Ho]]|]. eapply stepF_pre; eauto.
    + destruct Hr. split; auto. congruence.
  - exists (Ok (Next (p, set_chunks b cs))). split.
    { exists 0. intros n _. unfold print_next_body. rewrite Ec, En. reflexivity. }
    exists es. split; [split; [exact He|]; do 3 eexists; split; [exact Hi|split; [exact Hci|exact Ho]]|]. apply stepF_add with (g0 := g0) (its := its); auto; [..|solve [do 3 eexists; split; [exact Hi|reflexivity]]].
    + apply rblock_silent; auto.
    + rewrite <- Hv0. unfold vblock. rewrite g_done_add, Hg0i, vfront_mark. reflexivity.
    + simpl in Hz0. lia.
Qed.

(** ** print_next_line *)

(** The block is completely laid out, on one line; the rest went to new blocks. *)
Definition doneF (p : printer) (g : gblock) (es : list event) (r : printer * block) : Prop :=
  exists g' nbs gnb,
    fst r = set_next p (nbs ++ pr_next p) /\ rblock (snd r) g' /\
    Forall2 rblock nbs gnb /\ Forall fresh gnb /\
    g_head g' = g_head g /\ g_body g' = g_body g ++ es /\
    g_items g' = [] /\ bl_chunks (snd r) = [] /\
    oapp (Some (g_done g')) (vblocks w gnb) = vblock w g /\
    gs_size gnb <= its_size (g_items g).

(** A step followed by completion is completion. *)
Lemma doneF_step p g es p' b' g' es2 pb nbs gnb :
  p' = set_next p (nbs ++ pr_next p) -> rblock b' g' -> Forall2 rblock nbs gnb -> Forall fresh gnb ->
  g_head g' = g_head g -> g_body g' = g_body g ++ es ->
  oapp (vblock w g') (vblocks w gnb) = vblock w g ->
  its_size (g_items g') + gs_size gnb <= its_size (g_items g) ->
  doneF p' g' es2 pb -> doneF p g (es ++ es2) pb.
Proof.
  intros Hp Hb Hn Hf Hh Hbd Hv Hz
    (g2 & nbs2 & gnb2 & Hp2 & Hb2 & Hn2 & Hf2 & Hh2 & Hbd2 & Hi2 & Hc2 & Hv2 & Hz2).
  exists g2, (nbs2 ++ nbs), (gnb2 ++ gnb).
  split. { rewrite Hp2, Hp. unfold set_next. simpl. rewrite <- app_assoc. reflexivity. }
  split; [auto|]. split; [apply Forall2_app; auto|]. split; [apply Forall_app; auto|].
  split; [congruence|]. split; [rewrite Hbd2, Hbd, app_assoc; reflexivity|].
  split; [auto|]. split; [auto|]. split.
  - rewrite vblocks_app, oapp_assoc, Hv2. exact Hv.
  - rewrite gs_size_app. lia.
Qed.

(** Out of chunks: only exits are left. *)
Lemma doneF_nil p b g :
  rblock b g -> bl_chunks b = [] -> exists ex, exits ex /\ doneF p g ex (p, b).
Proof.
  intros Hb Ec.
  pose proof (rb_items Hb) as Hi. rewrite Ec in Hi. apply ritems_nil in Hi as (es & He & Hi).
  assert (Hi' : g_items g = map GE es ++ []) by (rewrite app_nil_r; exact Hi).
  assert (Hb' : rblock b (add_ev g es [])).
  { eapply rblock_exits; eauto. rewrite Ec. constructor. }
  exists es. split; auto.
  exists (add_ev g es []), [], []. cbn [fst snd].
  split; [destruct p; reflexivity|]. repeat (split; [solve [auto]|]).
  split; [|simpl; lia].
  cbn [vblocks]. rewrite oapp_nil_r. rewrite <- (vblock_exits _ _ _ Hi'). unfold vblock. cbn [g_items add_ev].
  erewrite vfront_nil; [reflexivity|]. apply Hb'.
Qed.

Lemma print_next_loop : forall m p b g,
  its_size (g_items g) <= m -> pr_width p = w -> rblock b g ->
  exists r, loops print_next_body (p, b) r /\
    match r with
    | Ok pb => exists es, doneF p g es pb
    | Fail f => P f /\ vblock w g = None
    end.
Proof.
  induction m as [m IH] using lt_wf_ind.
  intros p b g Hm Hw Hb.
  destruct (bl_chunks b) as [|c cs] eqn:Ec.
  - exists (Ok (p, b)). split.
    { apply loops_done. exists 0. intros n _. unfold print_next_body. rewrite Ec. reflexivity. }
    destruct (doneF_nil p Hb Ec) as (es & _ & H). eauto.
  - destruct (next_step p Hb Ec Hw) as (r & Hev & Hr).
    destruct r as [[[p' b']|]|f]; [|contradiction|].
    + destruct Hr as (ex & _ & g' & nbs & gnb & Hp & Hb' & Hn & Hf & Hh & Hbd & Hv & Hz & _). simpl in *.
      destruct (IH (its_size (g_items g'))) with (p := p') (b := b') (g := g') as (r & Hl & Hr2); auto.
      { lia. }
      { rewrite Hp. exact Hw. }
      exists r. split; [eapply loops_next; [exact Hev|exact Hl]|].
      destruct r as [pb|f].
      * destruct Hr2 as (es2 & Hr2). eexists. eapply doneF_step; eauto. lia.
      * destruct Hr2 as [HP HV]. split; auto. rewrite <- Hv, HV. reflexivity.
    + exists (Fail f). split; auto. apply loops_fail. exact Hev.
Qed.

Lemma print_next_line_spec p b bs g :
  pr_next p = b :: bs -> pr_width p = w -> rblock b g ->
  exists r, ev (fun n => print_next_line n p) r /\
    match r with
    | Ok (p', ol) => exists g' nbs gnb es,
        p' = set_next p (nbs ++ bs) /\ ol = Some (g_segs g') /\
        Forall2 rblock nbs gnb /\ Forall fresh gnb /\
        g_head g' = g_head g /\ g_body g' = g_body g ++ es /\ no_newline (g_body g') /\
        oapp (Some (g_done g')) (vblocks w gnb) = vblock w g /\
        gs_size gnb <= its_size (g_items g)
    | Fail f => P f /\ vblock w g = None
    end.
Proof.
  intros Hnx Hw Hb.
  destruct (print_next_loop (set_next p bs) (le_n _) Hw Hb) as (r & Hl & Hr).
  apply loops_ev in Hl.
  destruct r as [[p' b']|f].
  - destruct Hr as (es & g' & nbs & gnb & Hp & Hb' & Hn & Hf & Hh & Hbd & Hi & Hc & Hv & Hz). simpl in *.
    exists (Ok (p', Some (bl_segments b'))). split.
    { unfold print_next_line. rewrite Hnx.
      eapply (ev_bind_ok (fun n x => match x with (p, b) => _ end)); [exact Hl|].
      unfold block_print. rewrite Hc. ev_now. }
    exists g', nbs, gnb, es. split; [exact Hp|].
    split; [rewrite (rb_segs Hb'); reflexivity|].
    repeat (split; [solve [auto]|]). split; [apply Hb'|]. auto.
  - exists (Fail f). split; auto.
    unfold print_next_line. rewrite Hnx.
    apply (ev_bind_fail (fun n x => match x with (p, b) => _ end)). exact Hl.
Qed.

(** ** Prefixing with earlier lines *)

Definition starts_newline (es : list event) : Prop :=
  match es with ENewline _ :: _ => True | _ => False end.

Lemma g_done_head g : has_head g -> starts_newline (g_done g).
Proof. unfold has_head, g_done. destruct (g_head g); simpl; auto. intros H. elim H. reflexivity. Qed.

Lemma starts_newline_app a b : starts_newline a -> starts_newline (a ++ b).
Proof. destruct a as [|[] a]; simpl; auto; contradiction. Qed.

Lemma prun_newline p q es : starts_newline es -> prun p es = prun q es.
Proof. destruct es as [|[] es]; simpl; try contradiction. reflexivity. Qed.

Lemma prun_prefix x d p : (x = [] \/ starts_newline d) -> prun pos0 x = Some p ->
  prun pos0 (x ++ d) = prun pos0 d.
Proof.
  intros [->|H] Hx; [reflexivity|]. rewrite prun_app, Hx. simpl. apply prun_newline; auto.
Qed.

Lemma vfront_prefix x d its k p : (x = [] \/ starts_newline d) -> prun pos0 x = Some p ->
  vfront w (x ++ d) its k = oapp (Some x) (vfront w d its k).
Proof.
  intros H Hx. unfold vfront. erewrite prun_prefix by eauto.
  destruct (prun pos0 d) as [q|]; simpl; auto.
  destruct (rend_its w its k q) as [[es q']|]; simpl; auto.
  rewrite app_assoc. reflexivity.
Qed.

Lemma vblock_newline g y : has_head g -> vblock w g = Some y -> starts_newline y.
Proof.
  intros Hh Hv. apply vfront_incl in Hv as (es & ->).
  apply starts_newline_app. apply g_done_head; auto.
Qed.

Lemma vblocks_prun gs x : Forall has_head gs -> vblocks w gs = Some x ->
  exists p, prun pos0 x = Some p.
Proof.
  revert x; induction gs as [|g gs IH]; cbn [vblocks]; intros x Hh H.
  - injection H as <-. simpl. eauto.
  - inversion Hh as [|? ? Hg Hgs]; subst. apply oapp_some in H as (y & z & H1 & H2 & ->).
    destruct (vfront_prun _ _ _ _ H1) as (p & Hp). destruct (IH _ Hgs H2) as (q & Hq).
    rewrite prun_app, Hp. simpl.
    destruct z as [|e z]; [simpl; eauto|].
    destruct gs as [|g2 gs]; [discriminate|].
    cbn [vblocks] in H2. apply oapp_some in H2 as (y2 & z2 & H3 & H4 & E).
    pose proof (vblock_newline (Forall_inv Hgs) H3) as Hn.
    erewrite (prun_newline p pos0); eauto. rewrite E. apply starts_newline_app; auto.
Qed.

Lemma vblocks_prun1 h gs x : heads_ok h gs -> vblocks w gs = Some x ->
  exists p, prun pos0 x = Some p.
Proof.
  destruct gs as [|g gs]; simpl; [contradiction|]. intros [_ Hh] H.
  apply oapp_some in H as (y & z & H1 & H2 & ->).
  destruct (vfront_prun _ _ _ _ H1) as (p & Hp).
  rewrite prun_app, Hp. simpl.
  destruct z as [|e z]; [simpl; eauto|].
  destruct (vblocks_prun Hh H2) as (q & Hq).
  destruct gs as [|g2 gs]; [discriminate|].
  cbn [vblocks] in H2. apply oapp_some in H2 as (y2 & z2 & H3 & H4 & E).
  pose proof (vblock_newline (Forall_inv Hh) H3) as Hn.
  erewrite (prun_newline p pos0); eauto. rewrite E. apply starts_newline_app; auto.
Qed.

(** Completing a layout whose front has been split into lines. *)
Lemma front_split h gs g d front rest k :
  heads_ok h (gs ++ [g]) ->
  obind (oapp (vblocks w gs) (vfront w (g_done g) front (fits_its rest k)))
    (fun d => vfront w d rest k) = d ->
  oapp (vblocks w gs) (vfront w (g_done g) (front ++ rest) k) = d.
Proof.
  intros Hh <-. rewrite vfront_app.
  destruct (vblocks w gs) as [x|] eqn:Ex; [|reflexivity].
  destruct (vfront w (g_done g) front (fits_its rest k)) as [y|] eqn:Ey; [|reflexivity].
  cbn [obind oapp].
  assert (Hx : exists p, prun pos0 x = Some p).
  { destruct gs as [|g1 gs]; [injection Ex as <-; simpl; eauto|].
    simpl in Hh. destruct Hh as [Hh1 Hh2]. apply Forall_app in Hh2 as [Hh2 _].
    apply vblocks_prun1 with (h := h) (gs := g1 :: gs); simpl; auto. }
  destruct Hx as (p & Hp).
  symmetry. apply vfront_prefix with (p := p); auto.
  destruct gs as [|g1 gs]; [left; injection Ex as <-; reflexivity|right].
  simpl in Hh. destruct Hh as [_ Hh]. apply Forall_app in Hh as [_ Hh].
  inversion Hh; subst. apply vfront_incl in Ey as (es & ->).
  apply starts_newline_app, g_done_head. auto.
Qed.

(** ** One step of the loops that keep the focus on the last block *)

Definition stepL (p : printer) (g : gblock) (front rest : list item) (rc : list chunk)
    (r : printer * block) : Prop :=
  exists g' nbs gnb front' fc',
    fst r = set_prev p (nbs ++ pr_prev p) /\ rblock (snd r) g' /\
    Forall2 rblock nbs gnb /\ g_items g' = front' ++ rest /\
    ritems front' fc' /\ bl_chunks (snd r) = fc' ++ rc /\
    heads_ok (g_head g) (rev gnb ++ [g']) /\
    oapp (vblocks w (rev gnb)) (vfront w (g_done g') front' (fits_its rest look_end)) =
      vfront w (g_done g) front (fits_its rest look_end) /\
    its_size front' + gs_size gnb < its_size front.

Lemma expand_last_step p b g g0 c j s front front0 rest fc0 rc :
  rblock b g0 -> g_items g0 = front0 ++ rest -> g_head g0 = g_head g ->
  ritems front0 fc0 -> bl_chunks b = fc0 ++ rc ->
  cden c j s -> okpart j s ->
  vfront w (g_done g0) (GI j s :: front0) (fits_its rest look_end) =
    vfront w (g_done g) front (fits_its rest look_end) ->
  size s + its_size front0 < its_size front ->
  exists r, ev (fun n => expand_last n p b c) r /\
    match r with
    | Ok pb => stepL p g front rest rc pb
    | Fail f => P f /\ vfront w (g_done g) front (fits_its rest look_end) = None
    end.
Proof.
  intros Hb Hg0 Hh0 Hf0 Hbc Hc Ho Hv Hz.
  destruct (expand_last_spec P_ovf Q_concat w p Hc Ho Hb) as (r & Hev & Hr).
  exists r. split; [exact Hev|].
  change (GI j s :: front0) with ([GI j s] ++ front0) in Hv. rewrite vfront_app in Hv.
  destruct r as [[p' b']|f].
  - destruct Hr as (front1 & nbs & gnb & g' & -> & Hn & Hb' & Hgi & Hh & (fc & Hfc & Hbc') & Hvf & Hzz).
    exists g', nbs, gnb, (front1 ++ front0), (fc ++ fc0). cbn [fst snd].
    split; [reflexivity|]. split; [auto|]. split; [auto|].
    split; [rewrite Hgi, Hg0, app_assoc; reflexivity|].
    split; [apply ritems_app; auto|]. split; [rewrite Hbc', Hbc, app_assoc; reflexivity|].
    split; [congruence|]. split.
    + eapply front_split; [exact Hh|]. rewrite Hvf. exact Hv.
    + rewrite its_size_app. lia.
  - destruct Hr as [Hp Hr]. split; auto. rewrite <- Hv. rewrite Hr. reflexivity.
Qed.

(** Picking with the rest of the line known only through [k]. *)
Lemma vfront_choice_rest g b j sa sb ft rest :
  rblock b g ->
  vfront w (g_done g) (GI j (SChoice sa sb) :: ft) (fits_its rest look_end) =
  if head_fails sa then None else
  match picks_first w sa (fits_its (ft ++ rest) look_end) (bl_prefix_len b, bl_at_eol b) with
  | None => None
  | Some true => vfront w (g_done g) (GI j sa :: ft) (fits_its rest look_end)
  | Some false => vfront w (g_done g) (GI j sb :: ft) (fits_its rest look_end)
  end.
Proof.
  intros Hb. rewrite fits_its_app. apply vfront_choice. apply Hb.
Qed.

Lemma stepL_add p b' g es ft front rest fc rc :
  rblock b' (add_ev g es (ft ++ rest)) ->
  ritems ft fc -> bl_chunks b' = fc ++ rc ->
  vfront w (g_done g ++ es) ft (fits_its rest look_end) =
    vfront w (g_done g) front (fits_its rest look_end) ->
  its_size ft < its_size front ->
  stepL p g front rest rc (p, b').
Proof.
  intros Hb Hf Hc Hv Hz. exists (add_ev g es (ft ++ rest)), [], [], ft, fc. cbn [fst snd].
  split; [destruct p; reflexivity|]. split; [auto|]. split; [constructor|].
  split; [reflexivity|]. split; [auto|]. split; [auto|].
  split; [simpl; auto|]. split; [|simpl; lia].
  cbn [rev vblocks]. rewrite oapp_nil_l, g_done_add. exact Hv.
Qed.

Lemma prev_step p b g front rest c fc rc :
  rblock b g -> g_items g = front ++ rest -> ritems front (c :: fc) -> ritems rest rc ->
  bl_chunks b = c :: fc ++ rc -> pr_width p = w ->
  exists r, ev (fun n => print_prev_body n (p, b)) r /\
    match r with
    | Ok (Next pb) => stepL p g front rest rc pb
    | Ok (Done _) => False
    | Fail f => P f /\ vfront w (g_done g) front (fits_its rest look_end) = None
    end.
Proof.
  intros Hb Hgi Hfr Hre Ec Hw.
  apply ritems_cons in Hfr as (es & j & s & ft & He & Hfr & Hc & Ho & Hx & Hft).
  set (g0 := add_ev g es (GI j s :: ft ++ rest)).
  assert (Hgi' : g_items g = map GE es ++ GI j s :: ft ++ rest).
  { rewrite Hgi, Hfr, <- app_assoc. reflexivity. }
  assert (Hall : ritems (ft ++ rest) (fc ++ rc)) by (apply ritems_app; auto).
  assert (Hb0 : rblock b g0).
  { eapply rblock_exits; eauto. rewrite Ec. constructor; auto. }
  assert (Hv0 : vfront w (g_done g0) (GI j s :: ft) (fits_its rest look_end) =
                vfront w (g_done g) front (fits_its rest look_end)).
  { unfold g0. rewrite g_done_add, Hfr, vfront_events. reflexivity. }
  assert (Hz0 : its_size (GI j s :: ft) = its_size front).
  { rewrite Hfr, its_size_ge. reflexivity. }
  assert (Hg0i : g_items g0 = GI j s :: ft ++ rest) by reflexivity.
  assert (Hg0d : g_done g0 = g_done g ++ es) by apply g_done_add.
  assert (Hadd : forall e its, add_ev g0 e its = add_ev g (es ++ e) its).
  { intros. unfold add_ev; simpl. rewrite <- app_assoc. reflexivity. }
  destruct Hc as [Hci Hcd].
  destruct s as [f| | |ind|t|a sb|a sb|cn ci s'|]; simpl in Hcd; simpl in Hx; try contradiction;
    destruct (ck_note c) as [| |ind'|t'|da db|da db|n' d|] eqn:En; try contradiction.
  - exists (Ok (Next (p, set_eol (set_chunks b (fc ++ rc))))). split.
    { exists 0. intros n _. unfold print_prev_body. rewrite Ec, En. reflexivity. }
    apply stepL_add with (es := es ++ [EEol]) (ft := ft) (fc := fc); auto.
    + rewrite <- Hadd. apply rblock_eol; auto.
    + rewrite <- Hv0, Hg0d, vfront_eol, <- app_assoc. reflexivity.
    + simpl in Hz0. lia.
  - subst t'.
    destruct (push_text_spec P_eol P_ovf t j Hb0 Hall) as [(b' & Ep & Hb' & Hc')|(f & Ep & HP & HV)].
    + exists (Ok (Next (p, b'))). split.
      { exists 0. intros n _. unfold print_prev_body. rewrite Ec, En, Ep. reflexivity. }
      apply stepL_add with (es := es ++ [EText j t]) (ft := ft) (fc := fc); auto.
      * rewrite <- Hadd. exact Hb'.
      * rewrite <- Hv0, Hg0d, vfront_text, <- app_assoc. reflexivity.
      * simpl in Hz0. lia.
    + exists (Fail f). split.
      { exists 0. intros n _. unfold print_prev_body. rewrite Ec, En, Ep. reflexivity. }
      split; auto. rewrite <- Hv0, vfront_text. unfold vfront. rewrite HV. reflexivity.
  - destruct Hcd as [[Hia Hda] [Hib Hdb]]. destruct Ho as [[Hfa Hfb] Hq].
    pose proof (vfront_choice_rest j a sb ft rest Hb0) as Hch. rewrite Hv0 in Hch.
    destruct (choose_spec p (set_chunks b (fc ++ rc)) da db a sb Hall Hia Hda Hib Hdb Hfa Hfb)
      as (r & Hev & Hr). cbn [set_chunks bl_prefix_len bl_at_eol] in Hr. rewrite Hw in Hr.
    assert (Hbody : forall n, print_prev_body n (p, b) =
        bind (x <- choose n p (set_chunks b (fc ++ rc)) da db ;;
              expand_last n p (set_chunks b (fc ++ rc)) x) (fun s => Ok (Next s))).
    { intros n. unfold print_prev_body. rewrite Ec, En.
      destruct (choose n p (set_chunks b (fc ++ rc)) da db); reflexivity. }
    destruct r as [x|f].
    + destruct Hr as (f & Hh & Hp & Hxd & _). destruct (Q_choice Hq) as [Hqa Hqb].
      destruct (@expand_last_step p (set_chunks b (fc ++ rc)) g (add_ev g es (ft ++ rest)) x j
        (if f then a else sb) front ft rest fc rc) as (r & Hev2 & Hr2); auto.
      * change (add_ev g es (ft ++ rest)) with (set_items g0 (ft ++ rest)).
        apply rblock_items; auto.
      * split; destruct f; auto.
      * rewrite Hch, Hh, Hp, g_done_add, Hg0d. destruct f; reflexivity.
      * simpl in Hz0. pose proof (size_pos a). pose proof (size_pos sb). destruct f; lia.
      * exists (match r with Ok pb => Ok (Next pb) | Fail f => Fail f end). split.
        { eapply ev_ext; [intros n; symmetry; apply Hbody|].
          destruct r as [pb|e].
          - eapply (ev_bind_ok (fun _ s => Ok (Next s))); [|ev_now].
            eapply (ev_bind_ok (fun k x => expand_last k p (set_chunks b (fc ++ rc)) x)); eauto.
          - apply (ev_bind_fail (fun _ s => Ok (Next s))).
            eapply (ev_bind_ok (fun k x => expand_last k p (set_chunks b (fc ++ rc)) x)); eauto. }
        destruct r; auto.
    + exists (Fail f). split.
      { eapply ev_ext; [intros n; symmetry; apply Hbody|].
        apply (ev_bind_fail (fun _ s => Ok (Next s))).
        apply (ev_bind_fail (fun k x => expand_last k p (set_chunks b (fc ++ rc)) x)). exact Hev. }
      destruct Hr as [Hp Hr]. split; auto. rewrite Hch.
      destruct Hr as [-> | [-> | [-> Hs]]]; auto.
      * destruct (head_fails a); reflexivity.
      * destruct (head_fails a); auto. destruct sb; try discriminate. apply vfront_fail.
  - destruct Hcd as (<- & Hid & Hd). destruct Ho as [[Hfi Hfs] Hq].
    assert (Hbody : forall n, print_prev_body n (p, b) =
        bind (x <- chunk_new d ;; expand_last n p (set_chunks b (fc ++ rc)) x) (fun s => Ok (Next s))).
    { intros n. unfold print_prev_body. rewrite Ec, En. destruct (chunk_new d); reflexivity. }
    destruct ci as [j'|f].
    + rewrite vfront_child_ok in Hv0.
      destruct (chunk_new_spec _ _ Hid Hd) as [(x & Ex & Hxd & _)|(f & Ex & ->)].
      * set (ft0 := GE (EExit j cn) :: ft).
        destruct (@expand_last_step p (set_chunks b (fc ++ rc)) g (add_ev g0 [EEnter j cn] (ft0 ++ rest)) x j'
          s' front ft0 rest fc rc) as (r & Hev2 & Hr2); auto.
        -- apply rblock_silent; auto. simpl. constructor; auto.
        -- constructor; auto.
        -- split; auto. eapply Q_child; eauto.
        -- rewrite g_done_add. exact Hv0.
        -- simpl in *. lia.
        -- exists (match r with Ok pb => Ok (Next pb) | Fail f => Fail f end). split.
           { eapply ev_ext; [intros n; symmetry; apply Hbody|]. rewrite Ex. cbn [bind].
             destruct r as [pb|e].
             - eapply (ev_bind_ok (fun _ s => Ok (Next s))); [exact Hev2|ev_now].
             - apply (ev_bind_fail (fun _ s => Ok (Next s))). exact Hev2. }
           destruct r; auto.
      * exists (Fail f). split.
        { eapply ev_ext; [intros n; symmetry; apply Hbody|]. rewrite Ex. ev_now. }
        split; auto. rewrite <- Hv0. apply vfront_fail.
    + exists (Fail f). split.
      { eapply ev_ext; [intros n; symmetry; apply Hbody|]. unfold chunk_new. rewrite Hid. ev_now. }
      split; auto. rewrite <- Hv0. apply vfront_child_fail.
  - exists (Ok (Next (p, set_chunks b (fc ++ rc)))). split.
    { exists 0. intros n _. unfold print_prev_body. rewrite Ec, En. reflexivity. }
    apply stepL_add with (es := es ++ [EMark j]) (ft := ft) (fc := fc); auto.
    + rewrite <- Hadd. apply rblock_silent; auto.
    + rewrite <- Hv0, Hg0d, vfront_mark, <- app_assoc. reflexivity.
    + simpl in Hz0. lia.
Qed.

(** ** print_prev_line and seek_end *)

(** The front is completely laid out; only [rest] remains in the block. *)
Definition doneL (p : printer) (g : gblock) (front rest : list item) (rc : list chunk)
    (r : printer * block) : Prop :=
  exists g' nbs gnb,
    fst r = set_prev p (nbs ++ pr_prev p) /\ rblock (snd r) g' /\
    Forall2 rblock nbs gnb /\ g_items g' = rest /\ bl_chunks (snd r) = rc /\
    heads_ok (g_head g) (rev gnb ++ [g']) /\
    oapp (vblocks w (rev gnb)) (Some (g_done g')) =
      vfront w (g_done g) front (fits_its rest look_end) /\
    gs_size gnb <= its_size front.

Lemma heads_ok_trans h gs g' gs2 :
  heads_ok h (gs ++ [g']) -> heads_ok (g_head g') gs2 -> heads_ok h (gs ++ gs2).
Proof.
  destruct gs as [|g gs]; simpl.
  - intros [<- _] H. exact H.
  - intros [H1 H2] H3. split; auto. apply Forall_app in H2 as [H2 H4].
    apply Forall_app. split; auto. inversion H4; subst.
    destruct gs2 as [|g2 gs2]; [contradiction|]. destruct H3 as [H3 H9].
    constructor; auto. unfold has_head in *. congruence.
Qed.

Lemma doneL_step p g front rest rc p' b' g' nbs gnb front' fc' pb :
  p' = set_prev p (nbs ++ pr_prev p) -> rblock b' g' -> Forall2 rblock nbs gnb ->
  g_items g' = front' ++ rest -> ritems front' fc' ->
  heads_ok (g_head g) (rev gnb ++ [g']) ->
  oapp (vblocks w (rev gnb)) (vfront w (g_done g') front' (fits_its rest look_end)) =
    vfront w (g_done g) front (fits_its rest look_end) ->
  its_size front' + gs_size gnb <= its_size front ->
  doneL p' g' front' rest rc pb -> doneL p g front rest rc pb.
Proof.
  intros Hp Hb Hn Hgi Hfr Hh Hv Hz
    (g2 & nbs2 & gnb2 & Hp2 & Hb2 & Hn2 & Hi2 & Hc2 & Hh2 & Hv2 & Hz2).
  exists g2, (nbs2 ++ nbs), (gnb2 ++ gnb).
  split. { rewrite Hp2, Hp. unfold set_prev. simpl. rewrite <- app_assoc. reflexivity. }
  split; [auto|]. split; [apply Forall2_app; auto|]. split; [auto|]. split; [auto|].
  split. { rewrite rev_app_distr, <- app_assoc. eapply heads_ok_trans; eauto. }
  split.
  - rewrite rev_app_distr, vblocks_app, <- oapp_assoc, Hv2. exact Hv.
  - rewrite gs_size_app. lia.
Qed.

Lemma doneL_nil p b g front rest rc :
  rblock b g -> g_items g = front ++ rest -> ritems front [] -> ritems rest rc -> bl_chunks b = rc ->
  doneL p g front rest rc (p, b).
Proof.
  intros Hb Hgi Hfr Hre Hc. apply ritems_nil in Hfr as (es & He & ->).
  assert (Hb' : rblock b (add_ev g es rest)).
  { eapply rblock_exits; eauto. rewrite Hc. exact Hre. }
  exists (add_ev g es rest), [], []. cbn [fst snd].
  split; [destruct p; reflexivity|]. split; [auto|]. split; [constructor|].
  split; [reflexivity|]. split; [auto|]. split; [simpl; auto|]. split; [|simpl; lia].
  cbn [rev vblocks]. rewrite oapp_nil_l.
  rewrite <- (app_nil_r (map GE es)), vfront_events, g_done_add.
  symmetry. eapply vfront_nil. rewrite <- g_done_add with (its := rest). apply Hb'.
Qed.

Lemma seek_end_loop : forall m p b g front rest fc rc,
  its_size front <= m ->
  rblock b g -> g_items g = front ++ rest -> ritems front fc -> ritems rest rc ->
  bl_chunks b = fc ++ rc -> pr_width p = w ->
  exists r, loops (fun n => seek_end_body n (length rc)) (p, b) r /\
    match r with
    | Ok pb => doneL p g front rest rc pb
    | Fail f => P f /\ vfront w (g_done g) front (fits_its rest look_end) = None
    end.
Proof.
  induction m as [m IH] using lt_wf_ind.
  intros p b g front rest fc rc Hm Hb Hgi Hfr Hre Hc Hw.
  destruct fc as [|c fc].
  - exists (Ok (p, b)). split.
    { apply loops_done. exists 0. intros n _. unfold seek_end_body. simpl in Hc.
      rewrite Hc, Nat.leb_refl. reflexivity. }
    eapply doneL_nil; eauto.
  - destruct (@prev_step p b g front rest c fc rc) as (r & Hev & Hr); auto.
    assert (Hev' : ev (fun n => seek_end_body n (length rc) (p, b)) r).
    { eapply ev_ext; [|exact Hev]. intros n. unfold seek_end_body, print_prev_body. rewrite Hc.
      simpl app. replace (Nat.leb (length (c :: fc ++ rc)) (length rc)) with false; [reflexivity|].
      symmetry. apply Nat.leb_gt. simpl. rewrite app_length. lia. }
    destruct r as [[[p' b']|]|f]; [|contradiction|].
    + destruct Hr as (g' & nbs & gnb & front' & fc' & Hp & Hb' & Hn & Hgi' & Hfr' & Hc' & Hh & Hv & Hz).
      simpl in *.
      destruct (IH (its_size front')) with (p := p') (b := b') (g := g') (front := front')
        (rest := rest) (fc := fc') (rc := rc) as (r & Hl & Hr2); auto.
      { lia. }
      { rewrite Hp. exact Hw. }
      exists r. split; [eapply loops_next; [exact Hev'|exact Hl]|].
      destruct r as [pb|f].
      * eapply doneL_step; eauto. lia.
      * destruct Hr2 as [HP HV]. split; auto. rewrite <- Hv, HV. apply oapp_none_r.
    + exists (Fail f). split; auto. apply loops_fail. exact Hev'.
Qed.

Lemma print_prev_loop : forall m p b g,
  its_size (g_items g) <= m -> rblock b g -> pr_width p = w ->
  exists r, loops print_prev_body (p, b) r /\
    match r with
    | Ok pb => doneL p g (g_items g) [] [] pb
    | Fail f => P f /\ vblock w g = None
    end.
Proof.
  induction m as [m IH] using lt_wf_ind.
  intros p b g Hm Hb Hw.
  destruct (bl_chunks b) as [|c fc] eqn:Hc.
  - exists (Ok (p, b)). split.
    { apply loops_done. exists 0. intros n _. unfold print_prev_body. rewrite Hc. reflexivity. }
    eapply doneL_nil; eauto; try constructor.
    + rewrite app_nil_r. reflexivity.
    + rewrite <- Hc. apply Hb.
  - destruct (@prev_step p b g (g_items g) [] c fc []) as (r & Hev & Hr); auto; try constructor.
    { rewrite app_nil_r. reflexivity. }
    { rewrite <- Hc. apply Hb. }
    { rewrite app_nil_r. exact Hc. }
    destruct r as [[[p' b']|]|f]; [|contradiction|].
    + destruct Hr as (g' & nbs & gnb & front' & fc' & Hp & Hb' & Hn & Hgi' & Hfr' & Hc' & Hh & Hv & Hz).
      simpl in *. rewrite app_nil_r in Hgi'. subst front'.
      destruct (IH (its_size (g_items g'))) with (p := p') (b := b') (g := g') as (r & Hl & Hr2); auto.
      { lia. }
      { rewrite Hp. exact Hw. }
      exists r. split; [eapply loops_next; [exact Hev|exact Hl]|].
      destruct r as [pb|f].
      * eapply doneL_step; eauto; [rewrite app_nil_r; reflexivity|lia].
      * destruct Hr2 as [HP HV]. split; auto. unfold vblock. rewrite <- Hv.
        unfold vblock in HV. rewrite HV. apply oapp_none_r.
    + exists (Fail f). split; auto. apply loops_fail. exact Hev.
Qed.

Lemma print_prev_line_spec p b bs g :
  pr_prev p = b :: bs -> pr_width p = w -> rblock b g ->
  exists r, ev (fun n => print_prev_line n p) r /\
    match r with
    | Ok (p', ol) => exists g' nbs gnb,
        p' = set_prev p (nbs ++ bs) /\ ol = Some (g_segs g') /\
        Forall2 rblock nbs gnb /\ heads_ok (g_head g) (rev gnb ++ [g']) /\
        no_newline (g_body g') /\
        oapp (vblocks w (rev gnb)) (Some (g_done g')) = vblock w g /\
        gs_size gnb <= its_size (g_items g)
    | Fail f => P f /\ vblock w g = None
    end.
Proof.
  intros Hpv Hw Hb.
  destruct (print_prev_loop (set_prev p bs) (le_n _) Hb Hw) as (r & Hl & Hr).
  apply loops_ev in Hl.
  destruct r as [[p' b']|f].
  - destruct Hr as (g' & nbs & gnb & Hp & Hb' & Hn & Hi & Hc & Hh & Hv & Hz). simpl in *.
    exists (Ok (p', Some (bl_segments b'))). split.
    { unfold print_prev_line. rewrite Hpv.
      eapply (ev_bind_ok (fun n x => match x with (p, b) => _ end)); [exact Hl|].
      unfold block_print. rewrite Hc. ev_now. }
    exists g', nbs, gnb. split; [exact Hp|].
    split; [rewrite (rb_segs Hb'); reflexivity|].
    repeat (split; [solve [auto]|]). split; [apply Hb'|]. auto.
  - exists (Fail f). split; auto.
    unfold print_prev_line. rewrite Hpv.
    apply (ev_bind_fail (fun n x => match x with (p, b) => _ end)). exact Hl.
Qed.

Lemma seek_end_spec p b bs g c j s :
  pr_next p = b :: bs -> pr_width p = w -> rblock b g -> cden c j s -> okpart j s ->
  exists r, ev (fun n => seek_end n p c) r /\
    match r with
    | Ok p' => exists g' b' nbs gnb,
        p' = Printer (pr_width p) (nbs ++ pr_prev p) (b' :: bs) /\
        rblock b' g' /\ Forall2 rblock nbs gnb /\ g_items g' = g_items g /\
        heads_ok (g_head g) (rev gnb ++ [g']) /\
        oapp (vblocks w (rev gnb)) (Some (g_done g')) =
          vfront w (g_done g) [GI j s] (fits_its (g_items g) look_end)
    | Fail f => P f /\ vfront w (g_done g) [GI j s] (fits_its (g_items g) look_end) = None
    end.
Proof.
  intros Hnx Hw Hb Hc Ho.
  destruct (expand_last_spec P_ovf Q_concat w (set_next p bs) Hc Ho Hb) as (r & Hev & Hr).
  destruct r as [[p' b']|f].
  - destruct Hr as (front & nbs & gnb & g' & -> & Hn & Hb' & Hgi & Hh & (fc & Hfc & Hbc) & Hv & Hz).
    destruct (@seek_end_loop (its_size front) (set_prev (set_next p bs) (nbs ++ pr_prev (set_next p bs)))
      b' g' front (g_items g) fc (bl_chunks b)) as (r & Hl & Hr); auto.
    { apply Hb. }
    apply loops_ev in Hl.
    exists (match r with Ok (p, b) => Ok (push_next p b) | Fail f => Fail f end). split.
    { unfold seek_end. rewrite Hnx.
      eapply (ev_bind_ok (fun n s => '(p, b) <- loop n (seek_end_body n (length (bl_chunks b))) s ;;
                                     Ok (push_next p b))); [exact Hev|].
      destruct r as [[p2 b2]|f].
      - eapply (ev_bind_ok (fun n x => match x with (p, b) => _ end)); [exact Hl|]. ev_now.
      - apply (ev_bind_fail (fun n x => match x with (p, b) => _ end)). exact Hl. }
    destruct r as [[p2 b2]|f].
    + destruct Hr as (g2 & nbs2 & gnb2 & Hp2 & Hb2 & Hn2 & Hi2 & Hc2 & Hh2 & Hv2 & Hz2).
      simpl in *. exists g2, b2, (nbs2 ++ nbs), (gnb2 ++ gnb).
      split. { rewrite Hp2. unfold set_prev, push_next. simpl. rewrite <- app_assoc. reflexivity. }
      split; [auto|]. split; [apply Forall2_app; auto|]. split; [auto|].
      split. { rewrite rev_app_distr, <- app_assoc. eapply heads_ok_trans; eauto. }
      rewrite rev_app_distr, vblocks_app, <- oapp_assoc, Hv2. apply Hv.
    + destruct Hr as [HP HV]. split; auto. rewrite <- Hv, HV. apply oapp_none_r.
  - exists (Fail f). split.
    { unfold seek_end. rewrite Hnx.
      apply (ev_bind_fail (fun n s => '(p, b) <- loop n (seek_end_body n (length (bl_chunks b))) s ;;
                                     Ok (push_next p b))). exact Hev. }
    destruct Hr as [HP HV]. split; auto.
Qed.

End Print.
