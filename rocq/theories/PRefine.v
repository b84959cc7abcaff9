(** The printer's blocks refine ghost blocks, and its building blocks
    ([fits], [choose], the two [expand]s) preserve what the ghost blocks stand
    for. *)
From Verif Require Export PFuel Printer PLayout.

Set Implicit Arguments.

Section Refine.
Context {pd : PrettyDoc} {env : Env}.

(** [P]: the failures that may occur in the tree (plus the printer's own).
    [Q]: any property of nodes inherited by their parts. *)
Variable P : failure (perr Er) -> Prop.
Hypothesis P_eol : P (FErr TextAfterEndOfLine).
Hypothesis P_ovf : ovf = true -> P (FPanic POverflow).
Variable Q : Id -> shape -> Prop.
Hypothesis Q_concat : forall j a b, Q j (SConcat a b) -> Q j a /\ Q j b.
Hypothesis Q_choice : forall j a b, Q j (SChoice a b) -> Q j a /\ Q j b.
Hypothesis Q_child : forall j n j' s, Q j (SChild n (Ok j') s) -> Q j' s.

Fixpoint allf (s : shape) : Prop :=
  match s with
  | SFail f => P f
  | SConcat a b | SChoice a b => allf a /\ allf b
  | SChild _ i s' => match i with Fail f => P f | Ok _ => True end /\ allf s'
  | _ => True
  end.

Definition okpart (j : Id) (s : shape) : Prop := allf s /\ Q j s.

(** A chunk and the piece of tree it stands for. *)
Definition cden (c : chunk) (j : Id) (s : shape) : Prop :=
  ck_id c = j /\ den (Ok j) s (Ok (ck_note c)).

Definition expanded (s : shape) : Prop :=
  match s with
  | SText _ | SChoice _ _ | SChild _ _ _ | SEol | SMark => True
  | _ => False
  end.

Inductive ritems : list item -> list chunk -> Prop :=
| ri_nil : ritems [] []
| ri_ev j n its cs : ritems its cs -> ritems (GE (EExit j n) :: its) cs
| ri_chunk c j s its cs :
    cden c j s -> okpart j s -> expanded s -> ritems its cs ->
    ritems (GI j s :: its) (c :: cs).

(** Chunks on a stack, not necessarily expanded. *)
Inductive rstack : list item -> list chunk -> Prop :=
| rs_nil : rstack [] []
| rs_chunk c j s its cs :
    cden c j s -> okpart j s -> rstack its cs -> rstack (GI j s :: its) (c :: cs).

Definition texts (es : list event) : list segment :=
  flat_map (fun e => match e with EText _ t => [text_seg t] | _ => [] end) es.

Definition g_segs (g : gblock) : list segment :=
  match g_head g with Some ind => rev ind | None => [] end ++ texts (g_body g).

Record rblock (b : block) (g : gblock) : Prop := {
  rb_segs : bl_segments b = g_segs g;
  rb_pos : prun pos0 (g_done g) = Some (bl_prefix_len b, bl_at_eol b);
  rb_nonl : no_newline (g_body g);
  rb_items : ritems (g_items g) (bl_chunks b)
}.

Definition set_items (g : gblock) (its : list item) : gblock :=
  GBlock (g_head g) (g_body g) its.

Definition add_ev (g : gblock) (es : list event) (its : list item) : gblock :=
  GBlock (g_head g) (g_body g ++ es) its.

Lemma ritems_app a b ca cb : ritems a ca -> ritems b cb -> ritems (a ++ b) (ca ++ cb).
Proof.
  intros Ha Hb. induction Ha; simpl; auto using ritems.
Qed.

(** The list of chunks determines how to split the items. *)
Lemma ritems_split_chunks its ca cb : ritems its (ca ++ cb) ->
  exists a b, its = a ++ b /\ ritems a ca /\ ritems b cb.
Proof.
  intros H. remember (ca ++ cb) as cs eqn:E. revert ca E.
  induction H as [|j n its cs H IH|c j s its cs Hc Ho He H IH]; intros ca E.
  - destruct ca; [|discriminate]. simpl in E; subst.
    exists [], []. repeat split; constructor.
  - destruct (IH _ E) as (a & b & -> & Ha & Hb).
    exists (GE (EExit j n) :: a), b. repeat split; auto. constructor; auto.
  - destruct ca as [|c' ca]; simpl in E.
    + exists [], (GI j s :: its). repeat split; [constructor|]. subst cb. constructor; auto.
    + injection E as -> E. destruct (IH _ E) as (a & b & -> & Ha & Hb).
      exists (GI j s :: a), b. repeat split; auto. constructor; auto.
Qed.

(** ** Chunk::new *)

Lemma chunk_new_spec d j s :
  lift (m_id (dl_doc d)) = Ok j -> den (Ok j) s (eval d) ->
  (exists c, chunk_new d = Ok c /\ cden c j s /\ head_fails s = false) \/
  (exists f, chunk_new d = Fail f /\ s = SFail f).
Proof.
  intros Hi Hd. unfold chunk_new. rewrite Hi. simpl.
  destruct (eval d) as [c|f] eqn:Ee; simpl.
  - left. exists (Chunk c j). repeat split; auto.
    destruct s; simpl in *; auto. contradiction.
  - right. exists f. split; auto.
    destruct s; simpl in Hd; try contradiction. subst. reflexivity.
Qed.

Lemma eval_spec i s d : den i s (eval d) ->
  (exists c, eval d = Ok c /\ head_fails s = false) \/ (exists f, eval d = Fail f /\ s = SFail f).
Proof.
  intros Hd. destruct (eval d) as [c|f] eqn:Ee.
  - left. exists c. split; auto. destruct s; simpl in *; auto. contradiction.
  - right. exists f. split; auto.
    destruct s; simpl in Hd; try contradiction. subst. reflexivity.
Qed.

(** ** fits *)

Definition cn_den (c : cnote) (s : shape) : Prop := (exists i, den i s (Ok c)) /\ allf s.

Fixpoint fits_ns (ss : list shape) (k : look) : look :=
  match ss with
  | [] => k
  | s :: ss' => fits_s s (fits_ns ss' k)
  end.

Fixpoint ss_size (ss : list shape) : nat :=
  match ss with [] => 0 | s :: ss' => size s + ss_size ss' end.

Lemma fits_loop : forall m rem eol ns cs ss its,
  ss_size ss + its_size its <= m ->
  Forall2 cn_den ns ss -> ritems its cs ->
  exists r, loops (fun _ => fits_body) (rem, eol, ns, cs) r /\
    match r with
    | Ok b => fits_ns ss (fits_its its look_end) rem eol = Some b
    | Fail f => P f /\ fits_ns ss (fits_its its look_end) rem eol = None
    end.
Proof.
  induction m as [m IH] using lt_wf_ind.
  assert (Hproc : forall rem eol n ns cs s ss its body,
    (forall k, body k (rem, eol) = match n with
      | CEmpty | CFocusMark => Ok (Next (rem, eol, ns, cs))
      | CTextual t => if eol then Ok (Done false)
          else if (tx_width t <=? rem)%N then Ok (Next ((rem - tx_width t)%N, eol, ns, cs))
          else Ok (Done false)
      | CEndOfLine => Ok (Next (rem, true, ns, cs))
      | CNewline _ => Ok (Done true)
      | CChild _ d => c <- eval d ;; Ok (Next (rem, eol, c :: ns, cs))
      | CConcat d1 d2 => c2 <- eval d2 ;; c1 <- eval d1 ;; Ok (Next (rem, eol, c1 :: c2 :: ns, cs))
      | CChoice _ d2 => c <- eval d2 ;; Ok (Next (rem, eol, c :: ns, cs))
      end) ->
    size s + ss_size ss + its_size its <= m ->
    cn_den n s -> Forall2 cn_den ns ss -> ritems its cs ->
    exists r, (ev (fun k => body k (rem, eol)) (match r with Ok b => Ok (Done b) | Fail f => Fail f end)
        \/ exists st, ev (fun k => body k (rem, eol)) (Ok (Next st)) /\ loops (fun _ => fits_body) st r) /\
      match r with
      | Ok b => fits_s s (fits_ns ss (fits_its its look_end)) rem eol = Some b
      | Fail f => P f /\ fits_s s (fits_ns ss (fits_its its look_end)) rem eol = None
      end).
  { intros rem eol n ns cs s ss its body Hb Hm [[i Hd] Hf] Hns Hcs.
    assert (Hev : forall x, (forall k, body k (rem, eol) = x) -> ev (fun k => body k (rem, eol)) x)
      by (intros x Hx; exists 0; auto).
    pose proof (size_pos s) as Hsz.
    destruct s as [f| | |ind|t|a b|a b|cn ci s'|]; destruct n as [| |ind'|t'|da db|da db|n' d|];
      simpl in Hd; try contradiction.
    - (* Empty *)
      destruct (IH (ss_size ss + its_size its) ltac:(simpl in *; lia) (rem) eol ns cs ss its (le_n _) Hns Hcs) as (r & Hl & Hr).
      exists r. split; auto. right. eexists. split; [apply Hev; exact Hb|exact Hl].
    - (* Eol *)
      destruct (IH (ss_size ss + its_size its) ltac:(simpl in *; lia) (rem) true ns cs ss its (le_n _) Hns Hcs) as (r & Hl & Hr).
      exists r. split; auto. right. eexists. split; [apply Hev; exact Hb|exact Hl].
    - (* Newline *)
      exists (Ok true). split; [left; apply Hev; exact Hb|reflexivity].
    - (* Text *)
      subst t'. simpl in Hm. simpl.
      destruct eol.
      { exists (Ok false). split; [left; apply Hev; exact Hb|reflexivity]. }
      destruct (tx_width t <=? rem)%N.
      2: { exists (Ok false). split; [left; apply Hev; exact Hb|reflexivity]. }
      destruct (IH (ss_size ss + its_size its) ltac:(simpl in *; lia) ((rem - tx_width t)%N) false ns cs ss its (le_n _) Hns Hcs) as (r & Hl & Hr).
      exists r. split; auto. right. eexists. split; [apply Hev; exact Hb|exact Hl].
    - (* Concat *)
      destruct Hd as [[_ Ha] [_ Hb']]. destruct Hf as [Hfa Hfb]. simpl in Hm. simpl.
      destruct (eval_spec _ _ _ Hb') as [(cb & Eb & Hhb)|(f & Eb & ->)].
      2: { exists (Fail f). split; [left; apply Hev; intros; rewrite Hb, Eb; reflexivity|].
           split; auto. }
      destruct (eval_spec _ _ _ Ha) as [(ca & Ea & Hha)|(f & Ea & ->)].
      2: { exists (Fail f). split; [left; apply Hev; intros; rewrite Hb, Eb, Ea; reflexivity|].
           split; auto. rewrite Hhb. reflexivity. }
      assert (Hns' : Forall2 cn_den (ca :: cb :: ns) (a :: b :: ss)).
      { constructor; [split; [exists i; rewrite <- Ea; auto|auto]|].
        constructor; auto. split; [exists i; rewrite <- Eb; auto|auto]. }
      destruct (IH (ss_size (a :: b :: ss) + its_size its) ltac:(simpl; lia) rem eol _ cs _ its (le_n _) Hns' Hcs) as (r & Hl & Hr).
      exists r. rewrite Hhb. split; auto. right. eexists.
      split; [apply Hev; intros; rewrite Hb, Eb, Ea; reflexivity|exact Hl].
    - (* Choice *)
      destruct Hd as [[_ Ha] [_ Hb']]. destruct Hf as [Hfa Hfb]. simpl in Hm. simpl.
      destruct (eval_spec _ _ _ Hb') as [(cb & Eb & Hhb)|(f & Eb & ->)].
      2: { exists (Fail f). split; [left; apply Hev; intros; rewrite Hb, Eb; reflexivity|].
           split; auto. }
      assert (Hns' : Forall2 cn_den (cb :: ns) (b :: ss)).
      { constructor; auto. split; [exists i; rewrite <- Eb; auto|auto]. }
      destruct (IH (ss_size (b :: ss) + its_size its) ltac:(simpl; lia) rem eol _ cs _ its (le_n _) Hns' Hcs) as (r & Hl & Hr).
      exists r. split; auto. right. eexists.
      split; [apply Hev; intros; rewrite Hb, Eb; reflexivity|exact Hl].
    - (* Child *)
      destruct Hd as (_ & _ & Hd). destruct Hf as [_ Hf]. simpl in Hm. simpl.
      destruct (eval_spec _ _ _ Hd) as [(cb & Eb & Hhb)|(f & Eb & ->)].
      2: { exists (Fail f). split; [left; apply Hev; intros; rewrite Hb, Eb; reflexivity|].
           split; auto. }
      assert (Hns' : Forall2 cn_den (cb :: ns) (s' :: ss)).
      { constructor; auto. split; [exists ci; rewrite <- Eb; auto|auto]. }
      destruct (IH (ss_size (s' :: ss) + its_size its) ltac:(simpl; lia) rem eol _ cs _ its (le_n _) Hns' Hcs) as (r & Hl & Hr).
      exists r. split; auto. right. eexists.
      split; [apply Hev; intros; rewrite Hb, Eb; reflexivity|exact Hl].
    - (* Mark *)
      destruct (IH (ss_size ss + its_size its) ltac:(simpl in *; lia) (rem) eol ns cs ss its (le_n _) Hns Hcs) as (r & Hl & Hr).
      exists r. split; auto. right. eexists. split; [apply Hev; exact Hb|exact Hl]. }
  intros rem eol ns cs ss its Hm Hns Hcs.
  destruct Hns as [|n s ns ss Hn Hns].
  - simpl. clear IH.
    induction Hcs as [|j n its cs Hcs IHcs|c j s its cs Hc Ho He Hcs IHcs].
    + exists (Ok true). split; [apply loops_done; ev_now|reflexivity].
    + simpl. apply IHcs. exact Hm.
    + destruct (Hproc rem eol (ck_note c) [] cs s [] its
        (fun (_ : nat) '(r0, e0) => fits_body (r0, e0, [], c :: cs))) as (r & Hr & Hv).
      * reflexivity.
      * simpl in *; lia.
      * destruct Hc as [Hc1 Hc2]. split; [eauto|apply Ho].
      * constructor.
      * exact Hcs.
      * exists r. split; [|exact Hv].
        destruct Hr as [Hr|(st & Hr & Hl)].
        -- destruct r; [apply loops_done|apply loops_fail]; exact Hr.
        -- eapply loops_next; [exact Hr|exact Hl].
  - destruct (Hproc rem eol n ns cs s ss its
      (fun (_ : nat) '(r0, e0) => fits_body (r0, e0, n :: ns, cs))) as (r & Hr & Hv); auto.
    exists r. split; [|exact Hv].
    destruct Hr as [Hr|(st & Hr & Hl)].
    + destruct r; [apply loops_done|apply loops_fail]; exact Hr.
    + eapply loops_next; [exact Hr|exact Hl].
Qed.

(** ** choose *)

Lemma choose_spec p b da db j sa sb its :
  ritems its (bl_chunks b) ->
  lift (m_id (dl_doc da)) = Ok j -> den (Ok j) sa (eval da) ->
  lift (m_id (dl_doc db)) = Ok j -> den (Ok j) sb (eval db) ->
  allf sa -> allf sb ->
  let pick := picks_first (pr_width p) sa (fits_its its look_end) (bl_prefix_len b, bl_at_eol b) in
  exists r, ev (fun n => choose n p b da db) r /\
    match r with
    | Ok c => exists f, head_fails sa = false /\ pick = Some f /\
                cden c j (if f : bool then sa else sb) /\
                head_fails (if f : bool then sa else sb) = false
    | Fail f => P f /\ (head_fails sa = true \/ pick = None \/ (pick = Some false /\ head_fails sb = true))
    end.
Proof.
  intros Hits Hia Hda Hib Hdb Hfa Hfb pick. unfold choose.
  destruct (chunk_new_spec _ _ Hia Hda) as [(c1 & E1 & Hc1 & Hh1)|(f & E1 & ->)].
  2: { exists (Fail f). split; [|split; auto]. rewrite E1. ev_now. }
  assert (Hpick : exists r, ev (fun n => if (bl_prefix_len b <=? pr_width p)%N
        then fits n (pr_width p - bl_prefix_len b)%N (bl_at_eol b) (ck_note c1) (bl_chunks b)
        else Ok false) r /\
      match r with Ok f => pick = Some f | Fail f => P f /\ pick = None end).
  { unfold pick, picks_first. destruct (_ <=? _)%N.
    - assert (Hns' : Forall2 cn_den [ck_note c1] [sa]).
      { constructor; [|constructor]. destruct Hc1 as [_ Hc1]. split; eauto. }
      destruct (fits_loop (pr_width p - bl_prefix_len b)%N (bl_at_eol b) (le_n _) Hns' Hits)
        as (r & Hl & Hr).
      exists r. split; [|exact Hr]. apply loops_ev in Hl. exact Hl.
    - exists (Ok false). split; [ev_now|reflexivity]. }
  destruct Hpick as ([f|f] & Hev & Hp).
  - destruct f.
    + exists (Ok c1). split.
      { rewrite E1. cbn [bind].
        eapply (ev_bind_ok (fun n f => if f : bool then Ok c1 else chunk_new db)); [exact Hev|].
        ev_now. }
      exists true. auto.
    + destruct (chunk_new_spec _ _ Hib Hdb) as [(c2 & E2 & Hc2 & Hh2)|(f & E2 & Hsb)].
      * exists (Ok c2). split.
        { rewrite E1. cbn [bind].
          eapply (ev_bind_ok (fun n f => if f : bool then Ok c1 else chunk_new db)); [exact Hev|].
          simpl. rewrite E2. ev_now. }
        exists false. auto.
      * exists (Fail f). split.
        { rewrite E1. cbn [bind].
          eapply (ev_bind_ok (fun n f => if f : bool then Ok c1 else chunk_new db)); [exact Hev|].
          simpl. rewrite E2. ev_now. }
        subst sb. split; [exact Hfb|]. right; right. auto.
  - exists (Fail f). destruct Hp as [Hp1 Hp2]. split; [|auto].
    rewrite E1. cbn [bind].
    apply (ev_bind_fail (fun n f => if f : bool then Ok c1 else chunk_new db)). exact Hev.
Qed.

(** ** Block::new and push_text *)

Lemma to_option_sum16 {X Y} ws :
  (exists w, sum16 (X := X) ovf ws = Ok w /\ sum16 (X := Y) ovf ws = Ok w) \/
  (sum16 (X := X) ovf ws = Panic POverflow /\ sum16 (X := Y) ovf ws = Panic POverflow /\ ovf = true).
Proof.
  unfold sum16. generalize 0%N. induction ws as [|x ws IH]; intros acc; simpl.
  - left. eauto.
  - unfold add16. destruct (acc + x <? U16)%N; simpl; auto.
    destruct ovf; simpl; auto.
Qed.

Lemma block_new_spec ind cs its :
  ritems its cs ->
  (exists b, block_new ind cs = Ok b /\ rblock b (GBlock (Some ind) [] its) /\ bl_chunks b = cs) \/
  (block_new ind cs = Panic POverflow /\ indent_pos ind = None /\ P (FPanic POverflow)).
Proof.
  intros Hits. unfold block_new, indent_pos, osum16.
  destruct (to_option_sum16 (X := perr Er) (Y := unit) (map seg_width (rev ind)))
    as [(w & E1 & E2)|(E1 & E2 & E3)]; rewrite E1, E2; simpl.
  - left. eexists. split; [reflexivity|]. split; [|reflexivity].
    constructor; simpl; auto; unfold g_segs, g_done; simpl.
    + rewrite app_nil_r. reflexivity.
    + unfold indent_pos, osum16. rewrite E2. reflexivity.
    + reflexivity.
  - right. repeat split; auto.
Qed.

Lemma add16_cases {X Y} a b :
  (exists w, add16 (X := X) ovf a b = Ok w /\ add16 (X := Y) ovf a b = Ok w) \/
  (add16 (X := X) ovf a b = Panic POverflow /\ add16 (X := Y) ovf a b = Panic POverflow /\ ovf = true).
Proof.
  unfold add16. destruct (_ <? _)%N; eauto. destruct ovf; eauto.
Qed.

Lemma no_newline_app a b : no_newline a -> no_newline b -> no_newline (a ++ b).
Proof. unfold no_newline. rewrite forallb_app. intros -> ->. reflexivity. Qed.

Lemma texts_app a b : texts (a ++ b) = texts a ++ texts b.
Proof. apply flat_map_app. Qed.

Lemma g_done_add g es its : g_done (add_ev g es its) = g_done g ++ es.
Proof. unfold g_done, add_ev. simpl. apply app_assoc. Qed.

Lemma g_segs_add g es its : g_segs (add_ev g es its) = g_segs g ++ texts es.
Proof. unfold g_segs, add_ev. simpl. rewrite texts_app. apply app_assoc. Qed.

(** Emitting an event that is neither text, EndOfLine nor newline. *)
Lemma rblock_silent b g e its cs :
  rblock b g -> ritems its cs ->
  pstep (bl_prefix_len b, bl_at_eol b) e = Some (bl_prefix_len b, bl_at_eol b) ->
  texts [e] = [] -> is_newline e = false ->
  rblock (set_chunks b cs) (add_ev g [e] its).
Proof.
  intros [H1 H2 H3 H4] Hi Hp Ht Hn. constructor; simpl; auto.
  - rewrite g_segs_add, Ht, app_nil_r. auto.
  - rewrite g_done_add, prun_app, H2. simpl in *. rewrite Hp. reflexivity.
  - apply no_newline_app; auto. unfold no_newline. simpl. rewrite Hn. reflexivity.
Qed.

Lemma rblock_eol b g its cs :
  rblock b g -> ritems its cs -> rblock (set_eol (set_chunks b cs)) (add_ev g [EEol] its).
Proof.
  intros [H1 H2 H3 H4] Hi. constructor; simpl; auto.
  - rewrite g_segs_add, app_nil_r. auto.
  - rewrite g_done_add, prun_app, H2. reflexivity.
  - apply no_newline_app; auto. reflexivity.
Qed.

Lemma push_text_spec b g t j its cs :
  rblock b g -> ritems its cs ->
  (exists b', push_text (set_chunks b cs) t = Ok b' /\ rblock b' (add_ev g [EText j t] its) /\
     bl_chunks b' = cs) \/
  (exists f, push_text (set_chunks b cs) t = Fail f /\ P f /\ prun pos0 (g_done g ++ [EText j t]) = None).
Proof.
  intros [H1 H2 H3 H4] Hi. unfold push_text. simpl.
  destruct (bl_at_eol b) eqn:Ee.
  - right. eexists. split; [reflexivity|]. split; auto.
    rewrite prun_app, H2. reflexivity.
  - destruct (add16_cases (X := perr Er) (Y := unit) (bl_prefix_len b) (tx_width t))
      as [(w & E1 & E2)|(E1 & E2 & E3)]; rewrite E1; simpl.
    + left. eexists. split; [reflexivity|]. split; [|reflexivity]. constructor; simpl; auto.
      * rewrite g_segs_add, H1. reflexivity.
      * rewrite g_done_add, prun_app, H2. simpl. unfold oadd16. rewrite E2. reflexivity.
      * apply no_newline_app; auto. reflexivity.
    + right. eexists. split; [reflexivity|]. split; auto.
      rewrite prun_app, H2. simpl. unfold oadd16. rewrite E2. reflexivity.
Qed.

Lemma rblock_items b g its cs :
  rblock b g -> ritems its cs -> rblock (set_chunks b cs) (set_items g its).
Proof. intros [H1 H2 H3 H4] Hi. constructor; simpl; auto. Qed.

(** ** Heads of ghost blocks: every block but the first of the document starts
    with a newline. *)
Definition has_head (g : gblock) : Prop := g_head g <> None.

Definition heads_ok (h : option indentation) (gs : list gblock) : Prop :=
  match gs with
  | [] => False
  | g :: gs' => g_head g = h /\ Forall has_head gs'
  end.

Lemma heads_ok_app h a b :
  heads_ok h a -> Forall has_head b -> heads_ok h (a ++ b).
Proof.
  destruct a; simpl; [contradiction|]. intros [H1 H2] H3. split; auto.
  apply Forall_app. auto.
Qed.

(** A block none of which has been laid out. *)
Definition fresh (g : gblock) : Prop := has_head g /\ g_body g = [].

(** The items of some blocks. *)
Definition gitems (gs : list gblock) : list item := flat_map g_items gs.

Lemma gitems_app a b : gitems (a ++ b) = gitems a ++ gitems b.
Proof. apply flat_map_app. Qed.

(** An item of node [j]. *)
Definition tagged (j : Id) (it : item) : Prop := exists s, it = GI j s.

(** ** expand_focusing_first_block *)

Lemma expand_first_loop w : forall m gst stack p b its,
  its_size gst <= m ->
  rstack gst stack -> ritems its (bl_chunks b) ->
  exists r, loops (fun _ => expand_first_body) (stack, p, b) r /\
    match r with
    | Ok (p', b') => exists its' cs' nbs gnb,
        p' = set_next p (nbs ++ pr_next p) /\ b' = set_chunks b cs' /\
        ritems its' cs' /\ Forall2 rblock nbs gnb /\ Forall fresh gnb /\
        (forall done, oapp (vfront w done its' look_end) (vblocks w gnb) =
                      vfront w done (rev gst ++ its) look_end) /\
        its_size its' + gs_size gnb <= its_size gst + its_size its /\
        (forall j0, Forall (tagged j0) gst -> exists X, its' ++ gitems gnb = X ++ its /\ Forall (tagged j0) X)
    | Fail f => P f /\ forall done, vfront w done (rev gst ++ its) look_end = None
    end.
Proof.
  induction m as [m IH] using lt_wf_ind.
  intros gst stack p b its Hm Hst Hits.
  destruct Hst as [|c j s gst stack Hc Ho Hst].
  - exists (Ok (p, b)). split; [apply loops_done; ev_now|].
    exists its, (bl_chunks b), [], []. repeat split; auto.
    + destruct p; reflexivity.
    + destruct b; reflexivity.
    + intros done. simpl. rewrite oapp_nil_r. reflexivity.
    + simpl. lia.
    + intros j0 _. exists []. simpl. rewrite app_nil_r. auto.
  - assert (Hkeep : expanded s ->
      expand_first_body (c :: stack, p, b) = Ok (Next (stack, p, set_chunks b (c :: bl_chunks b))) ->
      exists r, loops (fun _ => expand_first_body) (c :: stack, p, b) r /\
        match r with
        | Ok (p', b') => exists its' cs' nbs gnb,
            p' = set_next p (nbs ++ pr_next p) /\ b' = set_chunks b cs' /\
            ritems its' cs' /\ Forall2 rblock nbs gnb /\ Forall fresh gnb /\
            (forall done, oapp (vfront w done its' look_end) (vblocks w gnb) =
                          vfront w done (rev (GI j s :: gst) ++ its) look_end) /\
            its_size its' + gs_size gnb <= its_size (GI j s :: gst) + its_size its /\
            (forall j0, Forall (tagged j0) (GI j s :: gst) -> exists X, its' ++ gitems gnb = X ++ its /\ Forall (tagged j0) X)
        | Fail f => P f /\ forall done, vfront w done (rev (GI j s :: gst) ++ its) look_end = None
        end).
    { intros He Hb. pose proof (size_pos s). simpl in Hm.
      edestruct (IH (its_size gst)) with (gst := gst) (stack := stack) (p := p)
        (b := set_chunks b (c :: bl_chunks b)) (its := GI j s :: its) as (r & Hl & Hr); auto; try lia.
      { simpl. constructor; auto. }
      exists r. split; [eapply loops_next; [|exact Hl]; rewrite Hb; ev_now|].
      destruct r as [[p' b']|f].
      - destruct Hr as (its' & cs' & nbs & gnb & -> & -> & Hi' & Hn & Hh & Hv & Hz & Hg).
        exists its', cs', nbs, gnb. repeat split; auto.
        + intros done. rewrite Hv. simpl. rewrite <- app_assoc. reflexivity.
        + simpl in *. lia.
        + intros j0 Hj. inversion Hj as [|? ? Hj1 Hj2]; subst. destruct (Hg j0 Hj2) as (X & E & HX).
          exists (X ++ [GI j s]). rewrite E, <- app_assoc. split; [reflexivity|]. apply Forall_app. auto.
      - destruct Hr as [Hp Hr]. split; auto. intros done. simpl. rewrite <- app_assoc. apply Hr. }
    destruct Hc as [Hci Hcd]. destruct Ho as [Hof Hoq].
    destruct s as [f| | |ind|t|a sb|a sb|cn ci s'|]; simpl in Hcd; try contradiction;
      destruct (ck_note c) as [| |ind'|t'|da db|da db|n' d|] eqn:En; try contradiction.
    + (* Empty *)
      simpl in Hm.
      edestruct (IH (its_size gst)) with (gst := gst) (stack := stack) (p := p)
        (b := b) (its := its) as (r & Hl & Hr); auto; try lia.
      exists r. split; [eapply loops_next; [|exact Hl]; unfold expand_first_body; rewrite En; ev_now|].
      destruct r as [[p' b']|f].
      * destruct Hr as (its' & cs' & nbs & gnb & -> & -> & Hi' & Hn & Hh & Hv & Hz & Hg).
        exists its', cs', nbs, gnb. repeat split; auto.
        -- intros done. rewrite Hv. simpl. rewrite <- app_assoc. simpl.
           rewrite vfront_empty_mid. reflexivity.
        -- simpl. lia.
        -- intros j0 Hj. inversion Hj; subst. auto.
      * destruct Hr as [Hp Hr]. split; auto. intros done. simpl. rewrite <- app_assoc. simpl.
        rewrite vfront_empty_mid. apply Hr.
    + apply Hkeep; simpl; auto. rewrite En. reflexivity.
    + (* Newline *)
      subst ind'. simpl in Hm.
      destruct (block_new_spec ind Hits) as [(nb & Enb & Hnb & Hcs)|(Enb & Hip & HP)].
      2: { exists (Fail (FPanic POverflow)). split.
           - apply loops_fail. unfold expand_first_body. rewrite En, Enb. ev_now.
           - split; auto. intros done. simpl. rewrite <- app_assoc. simpl.
             rewrite vfront_newline. unfold vfront at 2. simpl. rewrite Hip.
             apply oapp_none_r. }
      edestruct (IH (its_size gst)) with (gst := gst) (stack := stack) (p := push_next p nb)
        (b := set_chunks b []) (its := @nil item) as (r & Hl & Hr); auto; try lia.
      { simpl. constructor. }
      exists r. split.
      { eapply loops_next; [|exact Hl]. unfold expand_first_body. rewrite En, Enb. ev_now. }
      destruct r as [[p' b']|f].
      * destruct Hr as (its' & cs' & nbs & gnb & -> & -> & Hi' & Hn & Hh & Hv & Hz & Hg).
        exists its', cs', (nbs ++ [nb]), (gnb ++ [GBlock (Some ind) [] its]). repeat split; auto.
        -- unfold set_next, push_next; simpl. rewrite <- app_assoc. reflexivity.
        -- apply Forall2_app; auto.
        -- apply Forall_app. split; auto. constructor; auto. split; [|reflexivity]. unfold has_head. simpl. discriminate.
        -- intros done. rewrite vblocks_app, oapp_assoc, Hv.
           simpl. rewrite <- app_assoc. simpl. rewrite vfront_newline, app_nil_r.
           rewrite oapp_nil_r. reflexivity.
        -- rewrite gs_size_app. simpl in *. lia.
        -- intros j0 Hj. inversion Hj as [|? ? Hj1 Hj2]; subst. destruct (Hg j0 Hj2) as (X & E & HX).
           exists X. rewrite app_nil_r in E. rewrite gitems_app, app_assoc, E. simpl. rewrite app_nil_r. auto.
      * destruct Hr as [Hp Hr]. split; auto. intros done. simpl. rewrite <- app_assoc. simpl.
        rewrite vfront_newline. specialize (Hr done). rewrite app_nil_r in Hr. rewrite Hr. reflexivity.
    + apply Hkeep; simpl; auto. rewrite En. reflexivity.
    + (* Concat *)
      destruct Hcd as [[Hia Hda] [Hib Hdb]]. destruct Hof as [Hfa Hfb].
      destruct (Q_concat Hoq) as [Hqa Hqb]. simpl in Hm.
      destruct (chunk_new_spec _ _ Hia Hda) as [(ca & Ea & Hca & _)|(f & Ea & ->)].
      2: { exists (Fail f). split.
           - apply loops_fail. unfold expand_first_body. rewrite En, Ea. ev_now.
           - split; auto. intros done. simpl. rewrite <- app_assoc. simpl.
             rewrite vfront_concat_mid. apply vfront_fail_mid. }
      destruct (chunk_new_spec _ _ Hib Hdb) as [(cb & Eb & Hcb & _)|(f & Eb & ->)].
      2: { exists (Fail f). split.
           - apply loops_fail. unfold expand_first_body. rewrite En, Ea, Eb. ev_now.
           - split; auto. intros done. simpl. rewrite <- app_assoc. simpl.
             rewrite vfront_concat_mid.
             change (GI j a :: GI j (SFail f) :: its) with ([GI j a] ++ GI j (SFail f) :: its).
             rewrite app_assoc. apply vfront_fail_mid. }
      edestruct (IH (its_size (GI j sb :: GI j a :: gst))) with (gst := GI j sb :: GI j a :: gst)
        (stack := cb :: ca :: stack) (p := p) (b := b) (its := its) as (r & Hl & Hr); auto.
      { simpl; lia. }
      { repeat constructor; auto; try apply Hcb; try apply Hca. }
      exists r. split.
      { eapply loops_next; [|exact Hl]. unfold expand_first_body. rewrite En, Ea, Eb. ev_now. }
      destruct r as [[p' b']|f].
      * destruct Hr as (its' & cs' & nbs & gnb & -> & -> & Hi' & Hn & Hh & Hv & Hz & Hg).
        exists its', cs', nbs, gnb. repeat split; auto.
        -- intros done. rewrite Hv. simpl. rewrite <- !app_assoc. simpl.
           rewrite vfront_concat_mid. reflexivity.
        -- simpl in *. lia.
        -- intros j0 Hj. inversion Hj as [|? ? Hj1 Hj2]; subst. apply Hg.
           destruct Hj1 as [s0 Hj1]. injection Hj1 as -> _. repeat constructor; auto; eexists; reflexivity.
      * destruct Hr as [Hp Hr]. split; auto. intros done. simpl in *. rewrite <- app_assoc. simpl.
        rewrite vfront_concat_mid. specialize (Hr done). rewrite <- !app_assoc in Hr. exact Hr.
    + apply Hkeep; simpl; auto. rewrite En. reflexivity.
    + apply Hkeep; simpl; auto. rewrite En. reflexivity.
    + apply Hkeep; simpl; auto. rewrite En. reflexivity.
Qed.

Lemma expand_first_spec w p b c j s its :
  cden c j s -> okpart j s -> ritems its (bl_chunks b) ->
  exists r, ev (fun n => expand_first n p b c) r /\
    match r with
    | Ok (p', b') => exists its' cs' nbs gnb,
        p' = set_next p (nbs ++ pr_next p) /\ b' = set_chunks b cs' /\
        ritems its' cs' /\ Forall2 rblock nbs gnb /\ Forall fresh gnb /\
        (forall done, oapp (vfront w done its' look_end) (vblocks w gnb) =
                      vfront w done (GI j s :: its) look_end) /\
        its_size its' + gs_size gnb <= size s + its_size its /\
        exists X, its' ++ gitems gnb = X ++ its /\ Forall (tagged j) X
    | Fail f => P f /\ forall done, vfront w done (GI j s :: its) look_end = None
    end.
Proof.
  intros Hc Ho Hi.
  destruct (expand_first_loop w (m := its_size [GI j s]) (gst := [GI j s]) (stack := [c]) p b
    (its := its) (le_n _)) as (r & Hl & Hr); auto.
  { repeat constructor; auto; try apply Hc; try apply Ho. }
  exists r. split; [apply loops_ev in Hl; exact Hl|].
  destruct r as [[p' b']|f]; auto.
  destruct Hr as (its' & cs' & nbs & gnb & H). exists its', cs', nbs, gnb.
  destruct H as (H1 & H2 & H3 & H4 & H5 & H6 & H7 & H8). simpl in H7. rewrite Nat.add_0_r in H7.
  repeat (split; [assumption|]). apply H8. repeat constructor. eexists. reflexivity.
Qed.

(** ** expand_focusing_last_block *)

Lemma ritems_rev its cs : ritems its cs -> ritems (rev its) (rev cs).
Proof.
  induction 1; simpl.
  - constructor.
  - rewrite <- (app_nil_r (rev cs)). apply ritems_app; auto. repeat constructor.
  - apply ritems_app; auto. repeat constructor; auto; try apply H; try apply H0.
Qed.

Lemma its_size_rev its : its_size (rev its) = its_size its.
Proof. induction its; simpl; auto. rewrite its_size_app. simpl. lia. Qed.

Lemma vfront_concat_front w done j a b its pre k :
  vfront w done (rev pre ++ GI j (SConcat a b) :: its) k =
  vfront w done (rev pre ++ GI j a :: GI j b :: its) k.
Proof. apply vfront_concat_mid. Qed.

(** The blocks the layout has been split into by the newlines, most recent
    first, then the current one. *)
Lemma expand_last_loop w : forall m gch chunks gst stack p b g,
  its_size gst <= m ->
  ritems gch chunks -> rstack gst stack -> rblock b g ->
  exists r, loops (fun _ => expand_last_body) (chunks, stack, p, b) r /\
    match r with
    | Ok (chunks', p', b') => exists gch' nbs gnb g',
        p' = set_prev p (nbs ++ pr_prev p) /\ bl_chunks b' = bl_chunks b /\
        ritems gch' chunks' /\ Forall2 rblock nbs gnb /\ rblock b' g' /\
        g_items g' = g_items g /\ heads_ok (g_head g) (rev gnb ++ [g']) /\
        (forall k, oapp (vblocks w (rev gnb)) (vfront w (g_done g') (rev gch') k) =
                   vfront w (g_done g) (rev gch ++ gst) k) /\
        its_size gch' + gs_size gnb <= its_size gch + its_size gst
    | Fail f => P f /\ forall k, vfront w (g_done g) (rev gch ++ gst) k = None
    end.
Proof.
  induction m as [m IH] using lt_wf_ind.
  intros gch chunks gst stack p b g Hm Hch Hst Hb.
  destruct Hst as [|c j s gst stack Hc Ho Hst].
  - exists (Ok (chunks, p, b)). split; [apply loops_done; ev_now|].
    exists gch, [], [], g. repeat split; auto; try (simpl; auto; fail).
    + destruct p; reflexivity.
    + apply Hb. + apply Hb. + apply Hb. + apply Hb.
    + intros k. cbn [rev app vblocks]. rewrite oapp_nil_l, app_nil_r. reflexivity.
  - assert (Hkeep : expanded s ->
      expand_last_body (chunks, c :: stack, p, b) = Ok (Next (c :: chunks, stack, p, b)) ->
      exists r, loops (fun _ => expand_last_body) (chunks, c :: stack, p, b) r /\
        match r with
        | Ok (chunks', p', b') => exists gch' nbs gnb g',
            p' = set_prev p (nbs ++ pr_prev p) /\ bl_chunks b' = bl_chunks b /\
            ritems gch' chunks' /\ Forall2 rblock nbs gnb /\ rblock b' g' /\
            g_items g' = g_items g /\ heads_ok (g_head g) (rev gnb ++ [g']) /\
            (forall k, oapp (vblocks w (rev gnb)) (vfront w (g_done g') (rev gch') k) =
                       vfront w (g_done g) (rev gch ++ GI j s :: gst) k) /\
            its_size gch' + gs_size gnb <= its_size gch + its_size (GI j s :: gst)
        | Fail f => P f /\ forall k, vfront w (g_done g) (rev gch ++ GI j s :: gst) k = None
        end).
    { intros He Hbd. pose proof (size_pos s). simpl in Hm.
      edestruct (IH (its_size gst)) with (gst := gst) (stack := stack) (p := p)
        (b := b) (g := g) (gch := GI j s :: gch) (chunks := c :: chunks)
        as (r & Hl & Hr); auto; try lia.
      { constructor; auto. }
      exists r. split; [eapply loops_next; [|exact Hl]; rewrite Hbd; ev_now|].
      destruct r as [[[chunks' p'] b']|f].
      - destruct Hr as (gch' & nbs & gnb & g' & -> & Hbc & Hi' & Hn & Hb' & Hgi & Hh & Hv & Hz).
        exists gch', nbs, gnb, g'. repeat (split; [solve [auto]|]). split.
        + intros k. rewrite Hv. simpl. rewrite <- app_assoc. reflexivity.
        + simpl in *. lia.
      - destruct Hr as [Hp Hr]. split; auto. intros k. specialize (Hr k). simpl in Hr.
        rewrite <- app_assoc in Hr. exact Hr. }
    destruct Hc as [Hci Hcd]. destruct Ho as [Hof Hoq].
    destruct s as [f| | |ind|t|a sb|a sb|cn ci s'|]; simpl in Hcd; try contradiction;
      destruct (ck_note c) as [| |ind'|t'|da db|da db|n' d|] eqn:En; try contradiction.
    + (* Empty *)
      simpl in Hm.
      edestruct (IH (its_size gst)) with (gst := gst) (stack := stack) (p := p)
        (b := b) (g := g) (gch := gch) (chunks := chunks) as (r & Hl & Hr); auto; try lia.
      exists r. split; [eapply loops_next; [|exact Hl]; unfold expand_last_body; rewrite En; ev_now|].
      destruct r as [[[chunks' p'] b']|f].
      * destruct Hr as (gch' & nbs & gnb & g' & -> & Hbc & Hi' & Hn & Hb' & Hgi & Hh & Hv & Hz).
        exists gch', nbs, gnb, g'. repeat (split; [solve [auto]|]). split.
        -- intros k. rewrite Hv. rewrite vfront_empty_mid. reflexivity.
        -- simpl. lia.
      * destruct Hr as [Hp Hr]. split; auto. intros k. rewrite vfront_empty_mid. apply Hr.
    + apply Hkeep; simpl; auto. rewrite En. reflexivity.
    + (* Newline *)
      subst ind'. simpl in Hm.
      destruct (block_new_spec ind (rb_items Hb)) as [(nb & Enb & Hnb & Hcs)|(Enb & Hip & HP)].
      2: { exists (Fail (FPanic POverflow)). split.
           - apply loops_fail. unfold expand_last_body. rewrite En, Enb. ev_now.
           - split; auto. intros k. rewrite vfront_newline. unfold vfront at 2. simpl. rewrite Hip.
             apply oapp_none_r. }
      set (pb := Block (bl_segments b) (bl_prefix_len b) (bl_at_eol b) (rev chunks)).
      assert (Hpb : rblock pb (set_items g (rev gch))).
      { apply (rblock_items Hb (ritems_rev Hch)). }
      edestruct (IH (its_size gst)) with (gst := gst) (stack := stack) (p := push_prev p pb)
        (b := nb) (g := GBlock (Some ind) [] (g_items g)) (gch := @nil item) (chunks := @nil chunk)
        as (r & Hl & Hr); auto; try lia.
      { constructor. }
      exists r. split.
      { eapply loops_next; [|exact Hl]. unfold expand_last_body. rewrite En, Enb. ev_now. }
      destruct r as [[[chunks' p'] b']|f].
      * destruct Hr as (gch' & nbs & gnb & g' & -> & Hbc & Hi' & Hn & Hb' & Hgi & Hh & Hv & Hz).
        exists gch', (nbs ++ [pb]), (gnb ++ [set_items g (rev gch)]), g'.
        split. { unfold set_prev, push_prev; simpl. rewrite <- app_assoc. reflexivity. }
        split. { congruence. }
        split; [auto|]. split; [apply Forall2_app; auto|]. split; [auto|].
        split; [exact Hgi|]. split.
        { rewrite rev_app_distr. simpl. split; auto.
          simpl in Hh. unfold heads_ok in Hh.
          destruct (rev gnb ++ [g']) as [|g0 gs] eqn:Eg; [contradiction|].
          destruct Hh as [Hh1 Hh2]. constructor; auto. unfold has_head. rewrite Hh1. discriminate. }
        split.
        -- intros k. rewrite rev_app_distr. cbn [rev app vblocks].
           rewrite <- oapp_assoc, Hv. cbn [rev app].
           rewrite vfront_newline. reflexivity.
        -- rewrite gs_size_app. simpl. rewrite its_size_rev. simpl in Hz. lia.
      * destruct Hr as [Hp Hr]. split; auto. intros k. rewrite vfront_newline.
        simpl in Hr. unfold g_done in Hr at 1. simpl in Hr. rewrite Hr. apply oapp_none_r.
    + apply Hkeep; simpl; auto. rewrite En. reflexivity.
    + (* Concat *)
      destruct Hcd as [[Hia Hda] [Hib Hdb]]. destruct Hof as [Hfa Hfb].
      destruct (Q_concat Hoq) as [Hqa Hqb]. simpl in Hm.
      destruct (chunk_new_spec _ _ Hib Hdb) as [(cb & Eb & Hcb & _)|(f & Eb & ->)].
      2: { exists (Fail f). split.
           - apply loops_fail. unfold expand_last_body. rewrite En, Eb. ev_now.
           - split; auto. intros k. rewrite vfront_concat_mid.
             change (GI j a :: GI j (SFail f) :: gst) with ([GI j a] ++ GI j (SFail f) :: gst).
             rewrite app_assoc. apply vfront_fail_mid. }
      destruct (chunk_new_spec _ _ Hia Hda) as [(ca & Ea & Hca & _)|(f & Ea & ->)].
      2: { exists (Fail f). split.
           - apply loops_fail. unfold expand_last_body. rewrite En, Eb, Ea. ev_now.
           - split; auto. intros k. rewrite vfront_concat_mid. apply vfront_fail_mid. }
      edestruct (IH (its_size (GI j a :: GI j sb :: gst))) with (gst := GI j a :: GI j sb :: gst)
        (stack := ca :: cb :: stack) (p := p) (b := b) (g := g) (gch := gch) (chunks := chunks)
        as (r & Hl & Hr); auto.
      { simpl; lia. }
      { repeat constructor; auto; try apply Hcb; try apply Hca. }
      exists r. split.
      { eapply loops_next; [|exact Hl]. unfold expand_last_body. rewrite En, Eb, Ea. ev_now. }
      destruct r as [[[chunks' p'] b']|f].
      * destruct Hr as (gch' & nbs & gnb & g' & -> & Hbc & Hi' & Hn & Hb' & Hgi & Hh & Hv & Hz).
        exists gch', nbs, gnb, g'. repeat (split; [solve [auto]|]). split.
        -- intros k. rewrite Hv. rewrite vfront_concat_mid. reflexivity.
        -- simpl in *. lia.
      * destruct Hr as [Hp Hr]. split; auto. intros k. rewrite vfront_concat_mid. apply Hr.
    + apply Hkeep; simpl; auto. rewrite En. reflexivity.
    + apply Hkeep; simpl; auto. rewrite En. reflexivity.
    + apply Hkeep; simpl; auto. rewrite En. reflexivity.
Qed.

Lemma expand_last_spec w p b g c j s :
  cden c j s -> okpart j s -> rblock b g ->
  exists r, ev (fun n => expand_last n p b c) r /\
    match r with
    | Ok (p', b') => exists front nbs gnb g',
        p' = set_prev p (nbs ++ pr_prev p) /\
        Forall2 rblock nbs gnb /\ rblock b' g' /\
        g_items g' = front ++ g_items g /\ heads_ok (g_head g) (rev gnb ++ [g']) /\
        (exists fc, ritems front fc /\ bl_chunks b' = fc ++ bl_chunks b) /\
        (forall k, oapp (vblocks w (rev gnb)) (vfront w (g_done g') front k) =
                   vfront w (g_done g) [GI j s] k) /\
        its_size front + gs_size gnb <= size s
    | Fail f => P f /\ forall k, vfront w (g_done g) [GI j s] k = None
    end.
Proof.
  intros Hc Ho Hb.
  destruct (expand_last_loop w (m := its_size [GI j s]) (gch := []) (chunks := [])
    (gst := [GI j s]) (stack := [c]) p (b := b) (g := g) (le_n _)) as (r & Hl & Hr); auto.
  { constructor. }
  { repeat constructor; auto; try apply Hc; try apply Ho. }
  apply loops_ev in Hl. cbv beta in Hl.
  destruct r as [[[chunks' p'] b']|f].
  - destruct Hr as (gch' & nbs & gnb & g' & -> & Hbc & Hi' & Hn & Hb' & Hgi & Hh & Hv & Hz).
    exists (Ok (set_prev p (nbs ++ pr_prev p), set_chunks b' (rev chunks' ++ bl_chunks b'))).
    split.
    { unfold expand_last. eapply (ev_bind_ok (fun n x => match x with (chunks, p, b) => _ end));
        [exact Hl|]. ev_now. }
    exists (rev gch'), nbs, gnb, (set_items g' (rev gch' ++ g_items g')).
    pose proof (ritems_rev Hi') as Hrev.
    split; [auto|]. split; [auto|].
    split. { apply rblock_items; auto. apply ritems_app; auto. apply Hb'. }
    split. { simpl. rewrite Hgi. reflexivity. }
    split.
    { unfold heads_ok in *. destruct (rev gnb) as [|g0 gs]; simpl in *.
      - destruct Hh. split; auto.
      - destruct Hh as [Hh1 Hh2]. split; auto. apply Forall_app in Hh2 as [Ha Hb2].
        apply Forall_app. split; auto. inversion Hb2; subst. constructor; auto. }
    split. { exists (rev chunks'). split; auto. simpl. rewrite Hbc. reflexivity. }
    split.
    { intros k. exact (Hv k). }
    rewrite its_size_rev. simpl in Hz. lia.
  - exists (Fail f). split; [|exact Hr].
    unfold expand_last. apply (ev_bind_fail (fun n x => match x with (chunks, p, b) => _ end)). exact Hl.
Qed.

End Refine.
