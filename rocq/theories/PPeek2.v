(** The printer's blocks refine ghost blocks, for documents with holes: what the
    partial layout knows, the printer computes without looking at the holes. *)
From Verif Require Export PPeek1.

Set Implicit Arguments.

Section PPeek2.
Context {pd : PrettyDoc} {env : Env}.

Variable Q : Id -> shape -> Prop.
Hypothesis Q_concat : forall j a b, Q j (SConcat a b) -> Q j a /\ Q j b.
Hypothesis Q_choice : forall j a b, Q j (SChoice a b) -> Q j a /\ Q j b.
Hypothesis Q_child : forall j n j' s, Q j (SChild n (Ok j') s) -> Q j' s.
Variable w : N.

Definition pcden (c : chunk) (j : Id) (s : shape) : Prop :=
  ck_id c = j /\ pden (Ok j) s (Ok (ck_note c)).

Inductive pritems : list item -> list chunk -> Prop :=
| pri_nil : pritems [] []
| pri_ev j n its cs : pritems its cs -> pritems (GE (EExit j n) :: its) cs
| pri_chunk c j s its cs :
    pcden c j s -> Q j s -> expanded s -> pritems its cs ->
    pritems (GI j s :: its) (c :: cs).

Inductive prstack : list item -> list chunk -> Prop :=
| prs_nil : prstack [] []
| prs_chunk c j s its cs :
    pcden c j s -> Q j s -> opens s = true -> prstack its cs -> prstack (GI j s :: its) (c :: cs).

Record prblock (b : block) (g : gblock) : Prop := {
  prb_segs : bl_segments b = g_segs g;
  prb_pos : prun pos0 (g_done g) = Some (bl_prefix_len b, bl_at_eol b);
  prb_nonl : no_newline (g_body g);
  prb_items : pritems (g_items g) (bl_chunks b)
}.

Lemma pritems_app a b ca cb : pritems a ca -> pritems b cb -> pritems (a ++ b) (ca ++ cb).
Proof. intros Ha Hb. induction Ha; simpl; auto using pritems. Qed.

Lemma pritems_split_chunks its ca cb : pritems its (ca ++ cb) ->
  exists a b, its = a ++ b /\ pritems a ca /\ pritems b cb.
Proof.
  intros H. remember (ca ++ cb) as cs eqn:E. revert ca E.
  induction H as [|j n its cs H IH|c j s its cs Hc Ho He H IH]; intros ca E.
  - destruct ca; [|discriminate]. simpl in E; subst.
    exists [], []. repeat split; constructor.
  - destruct (IH _ E) as (a & b & -> & Ha & Hb).
    exists (GE (EExit j n) :: a), b. repeat split; auto. constructor; auto.
  - destruct ca as [|c' ca]; simpl in E.
    + exists [], (GI j s :: its). repeat split; [constructor|]. subst cb. constructor; auto.
    + injection E as -> E. destruct (IH _ E) as (a & b & -> & Ha & Hb).
      exists (GI j s :: a), b. repeat split; auto. constructor; auto.
Qed.

Lemma pritems_rev its cs : pritems its cs -> pritems (rev its) (rev cs).
Proof.
  induction 1; simpl.
  - constructor.
  - rewrite <- (app_nil_r (rev cs)). apply pritems_app; auto. repeat constructor.
  - apply pritems_app; auto. repeat constructor; auto; try apply H.
Qed.

Lemma pritems_exp its cs : pritems its cs -> Forall exp_item its.
Proof. induction 1; constructor; auto; reflexivity. Qed.

Lemma pritems_nil its : pritems its [] -> exists es, exits es /\ its = map GE es.
Proof.
  remember [] as cs eqn:E. intros H. induction H; try discriminate.
  - exists []. split; reflexivity.
  - destruct (IHpritems E) as (es & He & ->). exists (EExit j n :: es). split; auto.
Qed.

Lemma pritems_cons its c cs : pritems its (c :: cs) ->
  exists es j s its', exits es /\ its = map GE es ++ GI j s :: its' /\
    pcden c j s /\ Q j s /\ expanded s /\ pritems its' cs.
Proof.
  remember (c :: cs) as l eqn:E. intros H. induction H; try discriminate.
  - destruct (IHpritems E) as (es & j' & s & its' & He & -> & Hrest).
    exists (EExit j n :: es), j', s, its'. split; [exact He|]. auto.
  - injection E as -> ->. exists [], j, s, its. split; [reflexivity|]. auto.
Qed.

(** ** Chunk::new *)

Lemma pchunk_new d j s :
  lift (m_id (dl_doc d)) = Ok j -> pden (Ok j) s (eval d) -> head_fails s = false ->
  exists c, chunk_new d = Ok c /\ pcden c j s.
Proof.
  intros Hi Hd Hh. unfold chunk_new. rewrite Hi. simpl.
  destruct (eval d) as [c|f] eqn:Ee; simpl.
  - exists (Chunk c j). repeat split; auto.
  - destruct s; simpl in *; try contradiction. discriminate.
Qed.

Lemma peval i s d : pden i s (eval d) -> head_fails s = false -> exists c, eval d = Ok c.
Proof.
  intros Hd Hh. destruct (eval d) as [c|f] eqn:Ee; eauto.
  destruct s; simpl in *; try contradiction. discriminate.
Qed.

Lemma opens_head s : opens s = true -> head_fails s = false.
Proof. destruct s; simpl; auto; discriminate. Qed.

Lemma fits_head s k r e b : fits_s s k r e = Some b -> head_fails s = false.
Proof. destruct s; simpl; auto; discriminate. Qed.

(** ** fits *)

Definition pcn (c : cnote) (s : shape) : Prop := exists i, pden i s (Ok c).

Lemma pfits_loop : forall m rem eol ns cs ss its b,
  ss_size ss + its_size its <= m ->
  Forall2 pcn ns ss -> pritems its cs ->
  fits_ns ss (fits_its its look_end) rem eol = Some b ->
  loops (fun _ => fits_body) (rem, eol, ns, cs) (Ok b).
Proof.
  induction m as [m IH] using lt_wf_ind.
  assert (Hproc : forall rem eol n ns cs s ss its b body,
    (forall k, body k (rem, eol) = match n with
      | CEmpty | CFocusMark => Ok (Next (rem, eol, ns, cs))
      | CTextual t => if eol then Ok (Done false)
          else if (tx_width t <=? rem)%N then Ok (Next ((rem - tx_width t)%N, eol, ns, cs))
          else Ok (Done false)
      | CEndOfLine => Ok (Next (rem, true, ns, cs))
      | CNewline _ => Ok (Done true)
      | CChild _ d => c <- eval d ;; Ok (Next (rem, eol, c :: ns, cs))
      | CConcat d1 d2 => c2 <- eval d2 ;; c1 <- eval d1 ;; Ok (Next (rem, eol, c1 :: c2 :: ns, cs))
      | CChoice _ d2 => c <- eval d2 ;; Ok (Next (rem, eol, c :: ns, cs))
      end) ->
    size s + ss_size ss + its_size its <= m ->
    pcn n s -> Forall2 pcn ns ss -> pritems its cs ->
    fits_s s (fits_ns ss (fits_its its look_end)) rem eol = Some b ->
    ev (fun k => body k (rem, eol)) (Ok (Done b))
        \/ exists st, ev (fun k => body k (rem, eol)) (Ok (Next st)) /\ loops (fun _ => fits_body) st (Ok b)).
  { intros rem eol n ns cs s ss its b body Hb Hm [i Hd] Hns Hcs Hf.
    assert (Hev : forall x, (forall k, body k (rem, eol) = x) -> ev (fun k => body k (rem, eol)) x)
      by (intros x Hx; exists 0; auto).
    pose proof (size_pos s) as Hsz.
    destruct s as [f| | |ind|t|a b2|a b2|cn ci s'|]; [discriminate| | | | | | | |];
      destruct n as [| |ind'|t'|da db|da db|n' d|]; simpl in Hd; try contradiction.
    - right. eexists. split; [apply Hev; exact Hb|].
      eapply (IH (ss_size ss + its_size its)); eauto; simpl in *; lia.
    - right. eexists. split; [apply Hev; exact Hb|].
      eapply (IH (ss_size ss + its_size its)); eauto; simpl in *; lia.
    - injection Hf as <-. left. apply Hev. exact Hb.
    - subst t'. simpl in Hf. destruct eol.
      { injection Hf as <-. left. apply Hev. exact Hb. }
      destruct (tx_width t <=? rem)%N.
      2: { injection Hf as <-. left. apply Hev. exact Hb. }
      right. eexists. split; [apply Hev; exact Hb|].
      eapply (IH (ss_size ss + its_size its)); eauto; simpl in *; lia.
    - destruct Hd as [[_ Ha] [_ Hb']]. simpl in Hm, Hf.
      destruct (head_fails b2) eqn:Hh2; [discriminate|].
      pose proof (fits_head _ _ _ _ Hf) as Hh1.
      destruct (peval _ _ _ Hb' Hh2) as (cb & Eb). destruct (peval _ _ _ Ha Hh1) as (ca & Ea).
      rewrite Eb in Hb'. rewrite Ea in Ha.
      right. eexists. split; [apply Hev; intros; rewrite Hb, Eb, Ea; reflexivity|].
      apply (IH (ss_size (a :: b2 :: ss) + its_size its)) with (ss := a :: b2 :: ss) (its := its); auto.
      { simpl; lia. }
      constructor; [eexists; eassumption|]. constructor; [eexists; eassumption|auto].
    - destruct Hd as [[_ Ha] [_ Hb']]. simpl in Hm, Hf.
      pose proof (fits_head _ _ _ _ Hf) as Hh2.
      destruct (peval _ _ _ Hb' Hh2) as (cb & Eb). rewrite Eb in Hb'.
      right. eexists. split; [apply Hev; intros; rewrite Hb, Eb; reflexivity|].
      apply (IH (ss_size (b2 :: ss) + its_size its)) with (ss := b2 :: ss) (its := its); auto.
      { simpl; lia. }
      constructor; [eexists; eassumption|auto].
    - destruct Hd as [_ Hd]. simpl in Hm, Hf.
      pose proof (fits_head _ _ _ _ Hf) as Hh2.
      destruct Hd as [Hd|[_ Hd]]; [congruence|].
      destruct (peval _ _ _ Hd Hh2) as (cb & Eb). rewrite Eb in Hd.
      right. eexists. split; [apply Hev; intros; rewrite Hb, Eb; reflexivity|].
      apply (IH (ss_size (s' :: ss) + its_size its)) with (ss := s' :: ss) (its := its); auto.
      constructor; [eexists; eassumption|auto].
    - right. eexists. split; [apply Hev; exact Hb|].
      eapply (IH (ss_size ss + its_size its)); eauto; simpl in *; lia. }
  intros rem eol ns cs ss its b Hm Hns Hcs Hf.
  destruct Hns as [|n s ns ss Hn Hns].
  - simpl in Hf. clear IH.
    induction Hcs as [|j n its cs Hcs IHcs|c j s its cs Hc Ho He Hcs IHcs].
    + injection Hf as <-. apply loops_done; ev_now.
    + apply IHcs; auto.
    + destruct (Hproc rem eol (ck_note c) [] cs s [] its b
        (fun (_ : nat) '(r0, e0) => fits_body (r0, e0, [], c :: cs))) as [Hr|(st & Hr & Hl)]; auto.
      * simpl in *; lia.
      * destruct Hc as [Hc1 Hc2]. eexists; eassumption.
      * apply loops_done; exact Hr.
      * eapply loops_next; [exact Hr|exact Hl].
  - destruct (Hproc rem eol n ns cs s ss its b
      (fun (_ : nat) '(r0, e0) => fits_body (r0, e0, n :: ns, cs))) as [Hr|(st & Hr & Hl)]; auto.
    + apply loops_done; exact Hr.
    + eapply loops_next; [exact Hr|exact Hl].
Qed.

(** ** choose *)

Lemma pchoose p b da db j sa sb its f :
  pritems its (bl_chunks b) ->
  lift (m_id (dl_doc da)) = Ok j -> pden (Ok j) sa (eval da) ->
  lift (m_id (dl_doc db)) = Ok j -> pden (Ok j) sb (eval db) ->
  head_fails sa = false ->
  picks_first (pr_width p) sa (fits_its its look_end) (bl_prefix_len b, bl_at_eol b) = Some f ->
  head_fails (if f then sa else sb) = false ->
  exists c, ev (fun n => choose n p b da db) (Ok c) /\ pcden c j (if f then sa else sb).
Proof.
  intros Hits Hia Hda Hib Hdb Hh Hp Hhf. unfold choose.
  destruct (pchunk_new _ _ Hia Hda Hh) as (c1 & E1 & Hc1).
  assert (Hev : ev (fun n => if (bl_prefix_len b <=? pr_width p)%N
        then fits n (pr_width p - bl_prefix_len b)%N (bl_at_eol b) (ck_note c1) (bl_chunks b)
        else Ok false) (Ok f)).
  { unfold picks_first in Hp. destruct (_ <=? _)%N.
    - assert (Hns' : Forall2 pcn [ck_note c1] [sa]).
      { constructor; [|constructor]. destruct Hc1 as [_ Hc1]. eexists; eassumption. }
      assert (Hl := pfits_loop (m := ss_size [sa] + its_size its) (pr_width p - bl_prefix_len b)%N (bl_at_eol b) (le_n _) Hns' Hits Hp).
      apply loops_ev in Hl. exact Hl.
    - injection Hp as <-. ev_now. }
  destruct f.
  - exists c1. split; auto. rewrite E1. cbn [bind].
    eapply (ev_bind_ok (fun n f => if f : bool then Ok c1 else chunk_new db)); [exact Hev|]. ev_now.
  - destruct (pchunk_new _ _ Hib Hdb Hhf) as (c2 & E2 & Hc2). exists c2. split; auto.
    rewrite E1. cbn [bind].
    eapply (ev_bind_ok (fun n f => if f : bool then Ok c1 else chunk_new db)); [exact Hev|].
    simpl. rewrite E2. ev_now.
Qed.

(** ** Block::new and push_text *)

Lemma pblock_new ind cs its q :
  pritems its cs -> indent_pos ind = Some q ->
  exists b, block_new ind cs = Ok b /\ prblock b (GBlock (Some ind) [] its) /\ bl_chunks b = cs.
Proof.
  intros Hits Hq. unfold block_new. pose proof Hq as Hq0. unfold indent_pos, osum16 in Hq.
  destruct (@to_option_sum16 _ _ (fun _ => True) (fun _ => I) (perr Er) unit (map seg_width (rev ind)))
    as [(v & E1 & E2)|(E1 & E2 & E3)]; rewrite E2 in Hq; [|discriminate]; rewrite E1; simpl.
  eexists. split; [reflexivity|]. split; [|reflexivity].
  constructor; simpl; auto; unfold g_segs, g_done; simpl.
  - rewrite app_nil_r. reflexivity.
  - rewrite Hq0. simpl in *. congruence.
  - reflexivity.
Qed.

Lemma prblock_silent b g e its cs :
  prblock b g -> pritems its cs ->
  pstep (bl_prefix_len b, bl_at_eol b) e = Some (bl_prefix_len b, bl_at_eol b) ->
  texts [e] = [] -> is_newline e = false ->
  prblock (set_chunks b cs) (add_ev g [e] its).
Proof.
  intros [H1 H2 H3 H4] Hi Hp Ht Hn. constructor; simpl; auto.
  - rewrite g_segs_add, Ht, app_nil_r. auto.
  - rewrite g_done_add, prun_app, H2. simpl in *. rewrite Hp. reflexivity.
  - apply no_newline_app; auto. unfold no_newline. simpl. rewrite Hn. reflexivity.
Qed.

Lemma prblock_eol b g its cs :
  prblock b g -> pritems its cs -> prblock (set_eol (set_chunks b cs)) (add_ev g [EEol] its).
Proof.
  intros [H1 H2 H3 H4] Hi. constructor; simpl; auto.
  - rewrite g_segs_add, app_nil_r. auto.
  - rewrite g_done_add, prun_app, H2. reflexivity.
  - apply no_newline_app; auto. reflexivity.
Qed.

Lemma ppush_text b g t j its cs q :
  prblock b g -> pritems its cs -> text_pos (bl_prefix_len b, bl_at_eol b) t = Some q ->
  exists b', push_text (set_chunks b cs) t = Ok b' /\ prblock b' (add_ev g [EText j t] its) /\
     bl_chunks b' = cs.
Proof.
  intros [H1 H2 H3 H4] Hi Hq. unfold push_text. simpl. pose proof Hq as Hq0. unfold text_pos, oadd16 in Hq.
  destruct (bl_at_eol b) eqn:Ee; [discriminate|].
  destruct (@add16_cases _ _ (fun _ => True) (fun _ => I) (perr Er) unit (bl_prefix_len b) (tx_width t))
      as [(v & E1 & E2)|(E1 & E2 & E3)]; rewrite E2 in Hq; [|discriminate]; rewrite E1; simpl.
  eexists. split; [reflexivity|]. split; [|reflexivity]. constructor; simpl; auto.
  - rewrite g_segs_add, H1. reflexivity.
  - rewrite g_done_add, prun_app, H2. cbn [obind prun pstep]. rewrite Hq0. simpl in *. congruence.
  - apply no_newline_app; auto. reflexivity.
Qed.

Lemma prblock_items b g its cs :
  prblock b g -> pritems its cs -> prblock (set_chunks b cs) (set_items g its).
Proof. intros [H1 H2 H3 H4] Hi. constructor; simpl; auto. Qed.

Lemma prblock_exits b g es its :
  prblock b g -> exits es -> g_items g = map GE es ++ its ->
  pritems its (bl_chunks b) ->
  prblock b (add_ev g es its).
Proof.
  intros [H1 H2 H3 H4] He Hi Hr. constructor; simpl; auto.
  - rewrite g_segs_add, exits_texts, app_nil_r; auto.
  - rewrite g_done_add, prun_app, H2. simpl. apply exits_silent; auto.
  - apply no_newline_app; auto. apply exits_nonl; auto.
Qed.

Lemma vb_exits g es its : g_items g = map GE es ++ its -> vb w (add_ev g es its) = vb w g.
Proof. intros Hi. unfold vb. rewrite g_done_add, Hi, vf_events. reflexivity. Qed.

(** ** Where items come from *)

(** All the items of some blocks. *)
Definition flat (gs : list gblock) : list item := flat_map g_items gs.

(** A property inherited by parts. *)
Record closedR (R : Id -> shape -> Prop) : Prop := {
  R_concat : forall j a b, R j (SConcat a b) -> R j a /\ R j b;
  R_choice : forall j a b, R j (SChoice a b) -> R j a /\ R j b;
  R_child : forall j n j' s, R j (SChild n (Ok j') s) -> opens s = true -> R j' s
}.

Definition rit (R : Id -> shape -> Prop) (it : item) : Prop :=
  match it with
  | GI j s => R j s
  | GE (EExit j _) => exists s, R j s
  | GE _ => False
  end.

Lemma flat_app a b : flat (a ++ b) = flat a ++ flat b.
Proof. apply flat_map_app. Qed.

(** ** expand_focusing_first_block *)

Lemma pexpand_first_loop : forall m gst stack p b its,
  its_size gst <= m ->
  prstack gst stack -> pritems its (bl_chunks b) ->
  exists its' cs' nbs gnb,
    loops (fun _ => expand_first_body) (stack, p, b) (Ok (set_next p (nbs ++ pr_next p), set_chunks b cs')) /\
    pritems its' cs' /\ Forall2 prblock nbs gnb /\ Forall fresh gnb /\
    (forall d, vp w d its' look_end ++ vbs w gnb = vp w d (rev gst ++ its) look_end) /\
    its_size its' + gs_size gnb <= its_size gst + its_size its /\
    (exists new, its' ++ flat gnb = new ++ its /\
       forall R, closedR R -> Forall (rit R) gst -> Forall (rit R) new).
Proof.
  induction m as [m IH] using lt_wf_ind.
  intros gst stack p b its Hm Hst Hits.
  destruct Hst as [|c j s gst stack Hc Hoq Hop Hst].
  - exists its, (bl_chunks b), [], []. split; [|repeat split; auto].
    + replace (set_next p ([] ++ pr_next p)) with p by (destruct p; reflexivity).
      replace (set_chunks b (bl_chunks b)) with b by (destruct b; reflexivity).
      apply loops_done; ev_now.
    + intros d. simpl. rewrite app_nil_r. reflexivity.
    + simpl. lia.
    + exists []. split; [apply app_nil_r|]. intros. constructor.
  - assert (Hkeep : expanded s ->
      expand_first_body (c :: stack, p, b) = Ok (Next (stack, p, set_chunks b (c :: bl_chunks b))) ->
      exists its' cs' nbs gnb,
        loops (fun _ => expand_first_body) (c :: stack, p, b) (Ok (set_next p (nbs ++ pr_next p), set_chunks b cs')) /\
        pritems its' cs' /\ Forall2 prblock nbs gnb /\ Forall fresh gnb /\
        (forall d, vp w d its' look_end ++ vbs w gnb = vp w d (rev (GI j s :: gst) ++ its) look_end) /\
        its_size its' + gs_size gnb <= its_size (GI j s :: gst) + its_size its /\
        (exists new, its' ++ flat gnb = new ++ its /\
           forall R, closedR R -> Forall (rit R) (GI j s :: gst) -> Forall (rit R) new)).
    { intros He Hb. pose proof (size_pos s). simpl in Hm.
      edestruct (IH (its_size gst)) with (gst := gst) (stack := stack) (p := p)
        (b := set_chunks b (c :: bl_chunks b)) (its := GI j s :: its)
        as (its' & cs' & nbs & gnb & Hl & Hi' & Hn & Hh & Hv & Hz & new & En1 & En2); auto; try lia.
      { simpl. constructor; auto. }
      exists its', cs', nbs, gnb. split; [eapply loops_next; [|exact Hl]; rewrite Hb; ev_now|].
      repeat split; auto.
      - intros done. rewrite Hv. simpl. rewrite <- app_assoc. reflexivity.
      - simpl in *. lia.
      - exists (new ++ [GI j s]). split; [rewrite <- app_assoc; exact En1|].
        intros R HR HF. inversion HF; subst. apply Forall_app. auto. }
    destruct Hc as [Hci Hcd].
    destruct s as [f| | |ind|t|a sb|a sb|cn ci s'|]; [discriminate| | | | | | | |]; simpl in Hcd;
      destruct (ck_note c) as [| |ind'|t'|da db|da db|n' d|] eqn:En; try contradiction.
    + (* Empty *)
      simpl in Hm.
      edestruct (IH (its_size gst)) with (gst := gst) (stack := stack) (p := p)
        (b := b) (its := its) as (its' & cs' & nbs & gnb & Hl & Hi' & Hn & Hh & Hv & Hz & new & En1 & En2); auto; try lia.
      exists its', cs', nbs, gnb.
      split; [eapply loops_next; [|exact Hl]; unfold expand_first_body; rewrite En; ev_now|].
      repeat split; auto.
      * intros done. rewrite Hv. simpl. rewrite <- app_assoc. simpl.
        rewrite vp_empty_mid. reflexivity.
      * simpl. lia.
      * exists new. split; auto. intros R HR HF. inversion HF; subst. auto.
    + apply Hkeep; simpl; auto. rewrite En. reflexivity.
    + (* Newline *)
      subst ind'. simpl in Hm, Hop.
      destruct (indent_pos ind) as [q|] eqn:Hq; [|discriminate].
      destruct (pblock_new ind Hits Hq) as (nb & Enb & Hnb & Hcs).
      edestruct (IH (its_size gst)) with (gst := gst) (stack := stack) (p := push_next p nb)
        (b := set_chunks b []) (its := @nil item)
        as (its' & cs' & nbs & gnb & Hl & Hi' & Hn & Hh & Hv & Hz & new & En1 & En2); auto; try lia.
      { simpl. constructor. }
      exists its', cs', (nbs ++ [nb]), (gnb ++ [GBlock (Some ind) [] its]).
      split.
      { eapply loops_next.
        - unfold expand_first_body. rewrite En, Enb. ev_now.
        - unfold set_next, push_next in *; simpl in *. rewrite <- app_assoc. exact Hl. }
      repeat split; auto.
      * apply Forall2_app; auto.
      * apply Forall_app. split; auto. constructor; auto. split; [|reflexivity]. unfold has_head. simpl. discriminate.
      * intros d. rewrite vbs_app, app_assoc, Hv.
        simpl. rewrite <- app_assoc. simpl. rewrite (@vp_newline _ _ w d (rev gst) j ind its look_end q Hq), !app_nil_r.
        reflexivity.
      * rewrite gs_size_app. simpl in *. lia.
      * exists new. split.
        -- rewrite flat_app, app_assoc, En1, app_nil_r. simpl. rewrite app_nil_r. reflexivity.
        -- intros R HR HF. inversion HF; subst. auto.
    + apply Hkeep; simpl; auto. rewrite En. reflexivity.
    + (* Concat *)
      destruct Hcd as [[Hia Hda] [Hib Hdb]].
      simpl in Hop. apply andb_true_iff in Hop as [Hoa Hob].
      destruct (Q_concat Hoq) as [Hqa Hqb]. simpl in Hm.
      destruct (pchunk_new _ _ Hia Hda (opens_head _ Hoa)) as (ca & Ea & Hca).
      destruct (pchunk_new _ _ Hib Hdb (opens_head _ Hob)) as (cb & Eb & Hcb).
      edestruct (IH (its_size (GI j sb :: GI j a :: gst))) with (gst := GI j sb :: GI j a :: gst)
        (stack := cb :: ca :: stack) (p := p) (b := b) (its := its)
        as (its' & cs' & nbs & gnb & Hl & Hi' & Hn & Hh & Hv & Hz & new & En1 & En2); auto.
      { simpl; lia. }
      { repeat constructor; auto; try apply Hcb; try apply Hca. }
      exists its', cs', nbs, gnb. split.
      { eapply loops_next; [|exact Hl]. unfold expand_first_body. rewrite En, Ea, Eb. ev_now. }
      repeat split; auto.
      * intros d. rewrite Hv. simpl. rewrite <- !app_assoc. simpl.
        rewrite vp_concat_mid by (apply opens_head; auto). reflexivity.
      * simpl in *. lia.
      * exists new. split; auto. intros R HR HF. inversion HF as [|? ? Hj HF']; subst. apply En2; auto.
        apply (R_concat HR) in Hj as [Hj1 Hj2]. repeat constructor; auto.
    + apply Hkeep; simpl; auto. rewrite En. reflexivity.
    + apply Hkeep; simpl; auto. rewrite En. reflexivity.
    + apply Hkeep; simpl; auto. rewrite En. reflexivity.
Qed.

Lemma pexpand_first p b c j s its :
  pcden c j s -> Q j s -> opens s = true -> pritems its (bl_chunks b) ->
  exists its' cs' nbs gnb,
    ev (fun n => expand_first n p b c) (Ok (set_next p (nbs ++ pr_next p), set_chunks b cs')) /\
    pritems its' cs' /\ Forall2 prblock nbs gnb /\ Forall fresh gnb /\
    (forall d, vp w d its' look_end ++ vbs w gnb = vp w d (GI j s :: its) look_end) /\
    its_size its' + gs_size gnb <= size s + its_size its /\
    (exists new, its' ++ flat gnb = new ++ its /\ forall R, closedR R -> R j s -> Forall (rit R) new).
Proof.
  intros Hc Ho Hop Hi.
  destruct (@pexpand_first_loop (its_size [GI j s]) [GI j s] [c] p b its (le_n _))
    as (its' & cs' & nbs & gnb & Hl & H); auto.
  { repeat constructor; auto; try apply Hc. }
  exists its', cs', nbs, gnb. split; [apply loops_ev in Hl; exact Hl|].
  simpl in H. rewrite Nat.add_0_r in H. destruct H as (H1 & H2 & H3 & H4 & H5 & new & E1 & E2).
  repeat (split; [assumption|]). exists new. split; auto.
Qed.

(** ** expand_focusing_last_block *)

Lemma pexpand_last_loop : forall m gch chunks gst stack p b g,
  its_size gst <= m ->
  pritems gch chunks -> prstack gst stack -> prblock b g ->
  exists gch' chunks' nbs gnb b' g',
    loops (fun _ => expand_last_body) (chunks, stack, p, b)
      (Ok (chunks', set_prev p (nbs ++ pr_prev p), b')) /\
    bl_chunks b' = bl_chunks b /\
    pritems gch' chunks' /\ Forall2 prblock nbs gnb /\ prblock b' g' /\
    g_items g' = g_items g /\ heads_ok (g_head g) (rev gnb ++ [g']) /\
    (forall k, vbs w (rev gnb) ++ vf w (g_done g') (rev gch') k =
               vf w (g_done g) (rev gch ++ gst) k) /\
    its_size gch' + gs_size gnb <= its_size gch + its_size gst.
Proof.
  induction m as [m IH] using lt_wf_ind.
  intros gch chunks gst stack p b g Hm Hch Hst Hb.
  destruct Hst as [|c j s gst stack Hc Hoq Hop Hst].
  - exists gch, chunks, [], [], b, g.
    split. { replace (set_prev p ([] ++ pr_prev p)) with p by (destruct p; reflexivity).
             apply loops_done; ev_now. }
    repeat (split; [solve [auto; constructor]|]). split; [simpl; auto|]. split; [|simpl; lia].
    intros k. cbn [rev app vbs flat_map]. rewrite app_nil_r. reflexivity.
  - assert (Hkeep : expanded s ->
      expand_last_body (chunks, c :: stack, p, b) = Ok (Next (c :: chunks, stack, p, b)) ->
      exists gch' chunks' nbs gnb b' g',
        loops (fun _ => expand_last_body) (chunks, c :: stack, p, b)
          (Ok (chunks', set_prev p (nbs ++ pr_prev p), b')) /\
        bl_chunks b' = bl_chunks b /\
        pritems gch' chunks' /\ Forall2 prblock nbs gnb /\ prblock b' g' /\
        g_items g' = g_items g /\ heads_ok (g_head g) (rev gnb ++ [g']) /\
        (forall k, vbs w (rev gnb) ++ vf w (g_done g') (rev gch') k =
                   vf w (g_done g) (rev gch ++ GI j s :: gst) k) /\
        its_size gch' + gs_size gnb <= its_size gch + its_size (GI j s :: gst)).
    { intros He Hbd. pose proof (size_pos s). simpl in Hm.
      edestruct (IH (its_size gst)) with (gst := gst) (stack := stack) (p := p)
        (b := b) (g := g) (gch := GI j s :: gch) (chunks := c :: chunks)
        as (gch' & chunks' & nbs & gnb & b' & g' & Hl & Hbc & Hi' & Hn & Hb' & Hgi & Hh & Hv & Hz); auto; try lia.
      { constructor; auto. }
      exists gch', chunks', nbs, gnb, b', g'.
      split; [eapply loops_next; [|exact Hl]; rewrite Hbd; ev_now|].
      repeat (split; [solve [auto]|]). split.
      - intros k. rewrite Hv. simpl. rewrite <- app_assoc. reflexivity.
      - simpl in *. lia. }
    destruct Hc as [Hci Hcd].
    destruct s as [f| | |ind|t|a sb|a sb|cn ci s'|]; [discriminate| | | | | | | |]; simpl in Hcd;
      destruct (ck_note c) as [| |ind'|t'|da db|da db|n' d|] eqn:En; try contradiction.
    + (* Empty *)
      simpl in Hm.
      edestruct (IH (its_size gst)) with (gst := gst) (stack := stack) (p := p)
        (b := b) (g := g) (gch := gch) (chunks := chunks)
        as (gch' & chunks' & nbs & gnb & b' & g' & Hl & Hbc & Hi' & Hn & Hb' & Hgi & Hh & Hv & Hz); auto; try lia.
      exists gch', chunks', nbs, gnb, b', g'.
      split; [eapply loops_next; [|exact Hl]; unfold expand_last_body; rewrite En; ev_now|].
      repeat (split; [solve [auto]|]). split.
      * intros k. rewrite Hv. unfold vf. rewrite vp_empty_mid. reflexivity.
      * simpl. lia.
    + apply Hkeep; simpl; auto. rewrite En. reflexivity.
    + (* Newline *)
      subst ind'. simpl in Hm, Hop.
      destruct (indent_pos ind) as [q|] eqn:Hq; [|discriminate].
      destruct (pblock_new ind (prb_items Hb) Hq) as (nb & Enb & Hnb & Hcs).
      set (pb := Block (bl_segments b) (bl_prefix_len b) (bl_at_eol b) (rev chunks)).
      assert (Hpb : prblock pb (set_items g (rev gch))).
      { apply (prblock_items Hb (pritems_rev Hch)). }
      edestruct (IH (its_size gst)) with (gst := gst) (stack := stack) (p := push_prev p pb)
        (b := nb) (g := GBlock (Some ind) [] (g_items g)) (gch := @nil item) (chunks := @nil chunk)
        as (gch' & chunks' & nbs & gnb & b' & g' & Hl & Hbc & Hi' & Hn & Hb' & Hgi & Hh & Hv & Hz); auto; try lia.
      { constructor. }
      exists gch', chunks', (nbs ++ [pb]), (gnb ++ [set_items g (rev gch)]), b', g'.
      split.
      { eapply loops_next.
        - unfold expand_last_body. rewrite En, Enb. ev_now.
        - unfold set_prev, push_prev in *; simpl in *. rewrite <- app_assoc. exact Hl. }
      split. { congruence. }
      split; [auto|]. split; [apply Forall2_app; auto|]. split; [auto|].
      split; [exact Hgi|]. split.
      { rewrite rev_app_distr. simpl. split; auto.
        simpl in Hh. unfold heads_ok in Hh.
        destruct (rev gnb ++ [g']) as [|g0 gs] eqn:Eg; [contradiction|].
        destruct Hh as [Hh1 Hh2]. constructor; auto. unfold has_head. rewrite Hh1. discriminate. }
      split.
      * intros k. rewrite rev_app_distr. cbn [rev app].
        change (vbs w (set_items g (rev gch) :: rev gnb)) with (vb w (set_items g (rev gch)) ++ vbs w (rev gnb)).
        rewrite <- app_assoc, Hv. cbn [rev app].
        unfold vf at 2. rewrite (@vp_newline _ _ w (map Ev (g_done g)) (rev gch) j ind gst k q Hq). reflexivity.
      * rewrite gs_size_app. simpl. rewrite its_size_rev. simpl in Hz. lia.
    + apply Hkeep; simpl; auto. rewrite En. reflexivity.
    + (* Concat *)
      destruct Hcd as [[Hia Hda] [Hib Hdb]].
      simpl in Hop. apply andb_true_iff in Hop as [Hoa Hob].
      destruct (Q_concat Hoq) as [Hqa Hqb]. simpl in Hm.
      destruct (pchunk_new _ _ Hia Hda (opens_head _ Hoa)) as (ca & Ea & Hca).
      destruct (pchunk_new _ _ Hib Hdb (opens_head _ Hob)) as (cb & Eb & Hcb).
      edestruct (IH (its_size (GI j a :: GI j sb :: gst))) with (gst := GI j a :: GI j sb :: gst)
        (stack := ca :: cb :: stack) (p := p) (b := b) (g := g) (gch := gch) (chunks := chunks)
        as (gch' & chunks' & nbs & gnb & b' & g' & Hl & Hbc & Hi' & Hn & Hb' & Hgi & Hh & Hv & Hz); auto.
      { simpl; lia. }
      { repeat constructor; auto; try apply Hcb; try apply Hca. }
      exists gch', chunks', nbs, gnb, b', g'. split.
      { eapply loops_next; [|exact Hl]. unfold expand_last_body. rewrite En, Eb, Ea. ev_now. }
      repeat (split; [solve [auto]|]). split.
      * intros k. rewrite Hv. unfold vf. rewrite vp_concat_mid by (apply opens_head; auto). reflexivity.
      * simpl in *. lia.
    + apply Hkeep; simpl; auto. rewrite En. reflexivity.
    + apply Hkeep; simpl; auto. rewrite En. reflexivity.
    + apply Hkeep; simpl; auto. rewrite En. reflexivity.
Qed.

Lemma pexpand_last p b g c j s :
  pcden c j s -> Q j s -> opens s = true -> prblock b g ->
  exists front fc nbs gnb b' g',
    ev (fun n => expand_last n p b c) (Ok (set_prev p (nbs ++ pr_prev p), b')) /\
    Forall2 prblock nbs gnb /\ prblock b' g' /\
    g_items g' = front ++ g_items g /\ heads_ok (g_head g) (rev gnb ++ [g']) /\
    pritems front fc /\ bl_chunks b' = fc ++ bl_chunks b /\
    (forall k, vbs w (rev gnb) ++ vf w (g_done g') front k = vf w (g_done g) [GI j s] k) /\
    its_size front + gs_size gnb <= size s.
Proof.
  intros Hc Ho Hop Hb.
  destruct (@pexpand_last_loop (its_size [GI j s]) [] []
    [GI j s] [c] p b g (le_n _))
    as (gch' & chunks' & nbs & gnb & b' & g' & Hl & Hbc & Hi' & Hn & Hb' & Hgi & Hh & Hv & Hz); auto.
  { constructor. }
  { repeat constructor; auto; try apply Hc. }
  apply loops_ev in Hl. cbv beta in Hl.
  exists (rev gch'), (rev chunks'), nbs, gnb, (set_chunks b' (rev chunks' ++ bl_chunks b')),
    (set_items g' (rev gch' ++ g_items g')).
  pose proof (pritems_rev Hi') as Hrev.
  split.
  { unfold expand_last. eapply (ev_bind_ok (fun n x => match x with (chunks, p, b) => _ end));
      [exact Hl|]. ev_now. }
  split; [auto|].
  split. { apply prblock_items; auto. apply pritems_app; auto. apply Hb'. }
  split. { simpl. rewrite Hgi. reflexivity. }
  split.
  { unfold heads_ok in *. destruct (rev gnb) as [|g0 gs]; simpl in *.
    - destruct Hh. split; auto.
    - destruct Hh as [Hh1 Hh2]. split; auto. apply Forall_app in Hh2 as [Ha Hb2].
      apply Forall_app. split; auto. inversion Hb2; subst. constructor; auto. }
  split; [auto|]. split; [simpl; rewrite Hbc; reflexivity|].
  split.
  { intros k. exact (Hv k). }
  rewrite its_size_rev. simpl in Hz. lia.
Qed.

End PPeek2.
