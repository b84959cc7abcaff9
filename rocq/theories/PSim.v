(** Lockstep simulation between printing two documents of different types that
    behave alike (see SpecSim.v). *)
From Verif Require Export SpecSim.

Set Implicit Arguments.

(** As [behaves_like], but some nodes of the first may be shut: whatever their
    notation should be, it is [Text], and they refuse to be displayed. *)
Record lockstep {pd1 pd2 : PrettyDoc} (T : likeness pd1 pd2) (shut : @D pd1 -> Prop) : Prop := {
  ls_eq : forall i' i j' j, lk_id T i' i -> lk_id T j' j -> id_eqb i' j' = id_eqb i j;
  ls_combine : forall s' s t' t, lk_sty T s' s -> lk_sty T t' t ->
    lk_sty T (style_combine s' t') (style_combine s t);
  ls_id : forall d' d, lk_doc T d' d -> answers_like T (lk_id T) (m_id d') (m_id d);
  ls_notation : forall d' d, lk_doc T d' d ->
    answers_like T (fun n' n => note_like T n' n \/ n' = Text /\ shut d') (m_notation d') (m_notation d);
  ls_condition : forall d' d c' c, lk_doc T d' d -> lk_cnd T c' c ->
    answers_like T eq (m_condition d' c') (m_condition d c);
  ls_lookup : forall d' d l' l, lk_doc T d' d -> lk_lbl T l' l ->
    answers_like T (lk_sty T) (m_lookup_style d' l') (m_lookup_style d l);
  ls_style : forall d' d, lk_doc T d' d -> answers_like T (lk_sty T) (m_node_style d') (m_node_style d);
  ls_num : forall d' d, lk_doc T d' d -> answers_like T eq (m_num_children d') (m_num_children d);
  ls_text : forall d' d, lk_doc T d' d -> answers_like T eq (m_unwrap_text d') (m_unwrap_text d);
  ls_child : forall d' d i, lk_doc T d' d ->
    answers_like T (lk_doc T) (m_unwrap_child d' i) (m_unwrap_child d i);
  ls_last : forall d' d, lk_doc T d' d ->
    answers_like T (lk_doc T) (m_unwrap_last_child d') (m_unwrap_last_child d);
  ls_prev : forall d' d p' p i, lk_doc T d' d -> lk_doc T p' p ->
    answers_like T (lk_doc T) (m_unwrap_prev_sibling d' p' i) (m_unwrap_prev_sibling d p i);
  ls_shut : forall d', shut d' -> exists e, m_num_children d' = MErr e /\ lk_off T e }.

Lemma behaves_lockstep {pd1 pd2 : PrettyDoc} (T : likeness pd1 pd2) :
  behaves_like T -> lockstep T (fun _ => False).
Proof.
  intros HR. split; try (apply HR); [|contradiction].
  intros d' d H. pose proof (bh_notation HR _ _ H) as Hn. unfold answers_like in *. destruct (m_notation d'); auto.
  destruct Hn as (n & E & Hn). eauto.
Qed.

Section Sim.
Context {pd1 pd2 : PrettyDoc} {env : Env}.
Variable T : likeness pd1 pd2.
Variable shut : @D pd1 -> Prop.
Hypothesis HR : lockstep T shut.

Notation RD := (lk_doc T).
Notation RS := (lk_sty T).
Notation RI := (lk_id T).

Definition rr {A B} (Q : A -> B -> Prop) (x' : @pres pd1 A) (x : @pres pd2 B) : Prop :=
  match x' with
  | Ok a' => exists a, x = Ok a /\ Q a' a
  | Fail f' => (exists e, f' = FErr (PrettyDocErr e) /\ lk_off T e) \/ exists f, x = Fail f /\ failure_like T f' f
  end.

Lemma rr_ok {A B} (Q : A -> B -> Prop) a' a : Q a' a -> rr Q (Ok a') (Ok a).
Proof. intros H. exists a. auto. Qed.

Lemma rr_fail {A B} (Q : A -> B -> Prop) f' f : failure_like T f' f -> rr Q (Fail f') (Fail f).
Proof. intros H. right. exists f. auto. Qed.

Ltac rfail := apply rr_fail; simpl; auto.

Lemma rr_bind {A B C E} (Q : A -> B -> Prop) (Q2 : C -> E -> Prop) x' x k' k :
  rr Q x' x -> (forall a' a, Q a' a -> rr Q2 (k' a') (k a)) -> rr Q2 (bind x' k') (bind x k).
Proof.
  unfold rr at 1. destruct x' as [a'|f].
  - intros (a & -> & H) Hk. simpl. auto.
  - intros [H|(g & -> & H)] _; [left; exact H|right; exists g; split; [reflexivity|exact H]].
Qed.

Lemma rr_loop {S S2 U U2} (Q : S -> S2 -> Prop) (QT : U -> U2 -> Prop) body' body n :
  (forall s' s, Q s' s -> rr (fun a b => match a, b with
      | Next x, Next y => Q x y | Done x, Done y => QT x y | _, _ => False end) (body' s') (body s)) ->
  forall s' s, Q s' s -> rr QT (loop n body' s') (loop n body s).
Proof.
  intros Hb. induction n as [|n IH]; intros s' s Hs; [rfail|].
  cbn [loop]. specialize (Hb _ _ Hs). unfold rr in Hb at 1.
  destruct (body' s') as [a'|f].
  - destruct Hb as (a & -> & H). destruct a', a; try contradiction; auto. apply rr_ok. exact H.
  - destruct Hb as [H|(g & -> & H)]; [left; exact H|apply rr_fail; exact H].
Qed.

Lemma rr_mono {A B} (Q Q2 : A -> B -> Prop) x' x : (forall a b, Q a b -> Q2 a b) -> rr Q x' x -> rr Q2 x' x.
Proof.
  intros H. unfold rr. destruct x' as [a|f]; [|auto]. intros (b & E & Hb). eauto.
Qed.

Lemma rr_lift {A B} (Q : A -> B -> Prop) x' x : answers_like T Q x' x -> rr Q (lift x') (lift x).
Proof.
  unfold answers_like. destruct x' as [a'|e'|]; simpl.
  - intros (a & -> & H). simpl. eauto.
  - intros [H|(e & -> & H)]; [left; eauto|right]. simpl. eexists. split; [reflexivity|]. exact H.
  - intros ->. right. eexists. split; [reflexivity|]. reflexivity.
Qed.

Lemma add16_sim a b : rr eq (add16 ovf a b) (add16 ovf a b).
Proof. unfold add16. destruct (_ <? _)%N; [apply rr_ok; auto|]. destruct ovf; [rfail|apply rr_ok; auto]. Qed.

Lemma sum16_sim ws' ws : ws' = ws -> rr eq (sum16 ovf ws') (sum16 ovf ws).
Proof.
  intros ->. unfold sum16. generalize 0%N. induction ws as [|w ws IH]; intros acc; simpl; [apply rr_ok; auto|].
  eapply rr_bind; [apply add16_sim|]. intros ? a ->. apply IH.
Qed.

Arguments rr : simpl never.

(** ** Relations on the data *)
Notation nl := (note_like T).
Notation sl := (seg_like T).

Definition tl (t' : @textual pd1) (t : @textual pd2) : Prop :=
  tx_str t' = tx_str t /\ tx_width t' = tx_width t /\ RS (tx_style t') (tx_style t) /\ tx_from_text t' = tx_from_text t.

Definition rj (a' : option (@joinpos pd1)) (a : option (@joinpos pd2)) : Prop :=
  match a', a with
  | None, None => True
  | Some j', Some j => RD (jp_parent j') (jp_parent j) /\ RD (jp_child j') (jp_child j) /\
      jp_index j' = jp_index j /\ nl (jp_first j') (jp_first j) /\ nl (jp_join j') (jp_join j)
  | _, _ => False
  end.

Record rd (d' : @delayed pd1) (d : @delayed pd2) : Prop := {
  rd_note : nl (dl_note d') (dl_note d) \/ dl_note d' = Text /\ shut (dl_doc d'); rd_doc : RD (dl_doc d') (dl_doc d); rd_flat : dl_flat d' = dl_flat d;
  rd_indent : Forall2 sl (dl_indent d') (dl_indent d); rd_style : RS (dl_style d') (dl_style d);
  rd_join : rj (dl_join d') (dl_join d) }.

Definition rc (c' : @cnote pd1) (c : @cnote pd2) : Prop :=
  match c', c with
  | CEmpty, CEmpty | CEndOfLine, CEndOfLine | CFocusMark, CFocusMark => True
  | CNewline i', CNewline i => Forall2 sl i' i
  | CTextual t', CTextual t => tl t' t
  | CConcat a' b', CConcat a b | CChoice a' b', CChoice a b => rd a' a /\ rd b' b
  | CChild n' d', CChild n d => n' = n /\ rd d' d
  | _, _ => False
  end.

Definition rk (c' : @chunk pd1) (c : @chunk pd2) : Prop := rc (ck_note c') (ck_note c) /\ RI (ck_id c') (ck_id c).
Record rb (b' : @block pd1) (b : @block pd2) : Prop := {
  rb_segs : Forall2 sl (bl_segments b') (bl_segments b); rb_len : bl_prefix_len b' = bl_prefix_len b;
  rb_eol : bl_at_eol b' = bl_at_eol b; rb_chunks : Forall2 rk (bl_chunks b') (bl_chunks b) }.
Record rp (p' : @printer pd1) (p : @printer pd2) : Prop := {
  rp_width : pr_width p' = pr_width p; rp_prev : Forall2 rb (pr_prev p') (pr_prev p);
  rp_next : Forall2 rb (pr_next p') (pr_next p) }.
Definition rpb (s' : @printer pd1 * @block pd1) (s : @printer pd2 * @block pd2) : Prop := rp (fst s') (fst s) /\ rb (snd s') (snd s).

Lemma Forall2_length {A B} (P : A -> B -> Prop) l' l : Forall2 P l' l -> length l' = length l.
Proof. induction 1; simpl; auto. Qed.

Lemma Forall2_rev {A B} (P : A -> B -> Prop) l' l : Forall2 P l' l -> Forall2 P (rev l') (rev l).
Proof. induction 1; simpl; auto. apply Forall2_app; auto. Qed.

Lemma widths_like l' l : Forall2 sl l' l -> map seg_width l' = map seg_width l.
Proof. induction 1 as [|x y ? ? (_ & H & _)]; simpl; congruence. Qed.

(** ** Evaluation *)
Definition rh (h' : @delayed pd1 -> @pres pd1 (@cnote pd1)) (h : @delayed pd2 -> @pres pd2 (@cnote pd2)) : Prop :=
  forall d' d, rd d' d -> rr rc (h' d') (h d).

Lemma left_sim f' f j' j :
  (forall h' h, rh h' h -> rh (f' h') (f h)) -> (forall h' h, rh h' h -> rh (j' h') (j h)) ->
  forall k, rh (left_h f' j' k) (left_h f j k).
Proof.
  intros Hf Hj. induction k as [|k IH]; intros d' d Hd; pose proof (rd_join Hd) as HJ.
  - simpl. unfold rj in HJ. destruct (dl_join d') as [q'|], (dl_join d) as [q|]; try contradiction; [|rfail].
    destruct HJ as (H1 & H2 & H3 & H4 & H5). rewrite H3.
    destruct (jp_index q =? 1); [|rfail]. apply Hf; [intros ? ? _; rfail|].
    destruct Hd; split; simpl; auto.
  - simpl. unfold rj in HJ. destruct (dl_join d') as [q'|], (dl_join d) as [q|]; try contradiction; [|rfail].
    destruct HJ as (H1 & H2 & H3 & H4 & H5). rewrite H3.
    destruct (jp_index q =? 1).
    + apply Hf; [intros ? ? _; rfail|]. destruct Hd; split; simpl; auto.
    + eapply rr_bind; [apply rr_lift; apply (ls_prev HR); eauto|]. intros x' x Hx. apply Hj; [exact IH|].
      destruct Hd; split; simpl; auto.
Qed.

Lemma inspect_sim d' d pos : rd d' d -> rr RD (doc_to_inspect d' pos) (doc_to_inspect d pos).
Proof.
  intros Hd. pose proof (rd_doc Hd) as HD. pose proof (rd_join Hd) as HJ. destruct pos; simpl.
  - apply rr_ok. exact HD.
  - eapply rr_bind; [apply rr_lift; apply (ls_num HR); eauto|]. intros ? [n|] ->; [|rfail].
    destruct (normalize_child_index i n); [|rfail]. apply rr_lift. apply (ls_child HR); auto.
  - unfold rj in HJ. destruct (dl_join d') as [q'|], (dl_join d) as [q|]; try contradiction; [|rfail].
    destruct HJ as (J1 & J2 & J3 & _). rewrite J3. destruct (jp_index q); [rfail|]. apply rr_lift. apply (ls_prev HR); auto.
  - unfold rj in HJ. destruct (dl_join d') as [q'|], (dl_join d) as [q|]; try contradiction; [|rfail].
    apply rr_ok. apply HJ.
Qed.

(** The consolidated child of a node. *)
Lemma child_sim x' x fl' fl ind' ind s' s j' j i' i : RD x' x -> fl' = fl -> Forall2 sl ind' ind -> RS s' s -> rj j' j -> i' = i ->
  rr rc (nt <- lift (m_notation x') ;; t <- lift (m_node_style x') ;;
         Ok (CChild i' (Delayed nt x' fl' ind' (style_combine s' t) j')))
        (nt <- lift (m_notation x) ;; t <- lift (m_node_style x) ;;
         Ok (CChild i (Delayed nt x fl ind (style_combine s t) j))).
Proof.
  intros HX -> HI HS HJ ->. eapply rr_bind; [apply rr_lift; apply (ls_notation HR); eauto|]. intros nt' nt Hn.
  eapply rr_bind; [apply rr_lift; apply (ls_style HR); eauto|]. intros t' t Ht.
  apply rr_ok. simpl. split; auto. split; simpl; auto. apply (ls_combine HR); auto.
Qed.

Lemma eval_n_sim n' : forall n h' h d' d, nl n' n -> rh h' h -> rd d' d -> rr rc (eval_n h' n' d') (eval_n h n d).
Proof.
  induction n'; intros m h' h d' d Hm Hh Hd; destruct m; simpl in Hm; try contradiction;
    pose proof Hd as [D1 D2 D3 D4 D5 D6]; cbn [eval_n].
  - apply rr_ok. exact I.
  - apply rr_ok. exact D4.
  - apply rr_ok. exact I.
  - subst. apply rr_ok. simpl. repeat split; auto.
  - eapply rr_bind; [apply rr_lift; apply (ls_num HR); eauto|]. intros ? [q|] ->; [rfail|].
    eapply rr_bind; [apply rr_lift; apply (ls_text HR); eauto|]. intros ? t ->. apply rr_ok. repeat split; auto.
  - apply IHn'; auto. split; simpl; auto.
  - destruct Hm as (-> & Hm & Hl). apply rr_bind with (Q := RS).
    { destruct label as [l'|], label0 as [l|]; try contradiction; [|apply rr_ok; auto].
      eapply rr_bind; [apply rr_lift; apply (ls_lookup HR); eauto|]. intros ? ? Hs. apply rr_ok. apply (ls_combine HR); auto. }
    intros s' s Hs. apply IHn'; auto. split; simpl; auto. constructor; auto. repeat split; auto.
  - destruct Hm. apply rr_ok. simpl. split; split; simpl; auto.
  - destruct Hm. rewrite D3. destruct (dl_flat d) eqn:Ef; [apply IHn'1; auto|]. apply rr_ok. split; split; simpl; auto; congruence.
  - destruct Hm as (Hc & -> & Ha & Hb). eapply rr_bind; [apply inspect_sim; auto|]. intros x' x Hx.
    eapply rr_bind; [apply rr_lift; apply (ls_condition HR); eauto|].
    intros ? [] ->; [apply IHn'1; auto|apply IHn'2; auto].
  - subst. eapply rr_bind; [apply rr_lift; apply (ls_num HR); eauto|]. intros ? [len|] ->; [|rfail].
    destruct (normalize_child_index i0 len); [|rfail].
    eapply rr_bind; [apply rr_lift; apply (ls_child HR); eauto|]. intros x' x Hx. apply child_sim; auto.
  - destruct Hm as [Hl Hm]. eapply rr_bind; [apply rr_lift; apply (ls_lookup HR); eauto|]. intros ls' ls Hs. apply IHn'; auto.
    split; simpl; auto. apply (ls_combine HR); auto.
  - apply rr_ok. exact I.
  - destruct Hm as (Ha & Hb & Hc). eapply rr_bind; [apply rr_lift; apply (ls_num HR); eauto|].
    intros ? [[|[|q]]|] ->; [apply IHn'1|apply IHn'2|apply IHn'3|rfail]; auto.
  - destruct Hm as (Ha & Hb). eapply rr_bind; [apply rr_lift; apply (ls_num HR); eauto|].
    intros ? [[|[|q]]|] ->; [apply rr_ok; exact I|apply IHn'1; auto| |rfail].
    eapply rr_bind; [apply rr_lift; apply (ls_last HR); eauto|]. intros x' x Hx. apply IHn'2; auto.
    + apply left_sim; intros ? ? ? ? ? ?; [apply IHn'1|apply IHn'2]; auto.
    + split; simpl; auto.
  - unfold rj in D6. destruct (dl_join d') eqn:E1, (dl_join d) eqn:E2; try contradiction; [|rfail]. apply Hh. exact Hd.
  - unfold rj in D6. destruct (dl_join d') as [q'|], (dl_join d) as [q|]; try contradiction; [|rfail].
    destruct D6 as (J1 & J2 & J3 & _). apply child_sim; auto.
Qed.

Lemma eval_sim d' d : rd d' d -> rr rc (eval d') (eval d).
Proof.
  intros Hd. unfold eval. destruct (rd_note Hd) as [Hn|[Hn Hs]].
  2: { rewrite Hn. cbn [eval_n]. destruct (ls_shut HR _ Hs) as (e & -> & He). left. exists e. auto. }
  apply eval_n_sim; auto.
  pose proof (rd_join Hd) as HJ. unfold left_of, rj in *. destruct (dl_join d') as [q'|], (dl_join d) as [q|]; try contradiction.
  - destruct HJ as (J1 & J2 & -> & J4 & J5). apply left_sim; intros ? ? ? ? ? ?; apply eval_n_sim; auto.
  - intros ? ? _. rfail.
Qed.

Lemma chunk_sim d' d : rd d' d -> rr rk (chunk_new d') (chunk_new d).
Proof.
  intros Hd. unfold chunk_new. eapply rr_bind; [apply rr_lift; apply (ls_id HR); apply (rd_doc Hd)|]. intros i' i Hi.
  eapply rr_bind; [apply eval_sim; auto|]. intros c' c Hc. apply rr_ok. split; auto.
Qed.

(** ** The printer *)
Lemma block_new_sim ind' ind cs' cs : Forall2 sl ind' ind -> Forall2 rk cs' cs -> rr rb (block_new ind' cs') (block_new ind cs).
Proof.
  intros Hi H. unfold block_new. eapply rr_bind; [apply sum16_sim; apply widths_like; apply Forall2_rev; auto|].
  intros ? w ->. apply rr_ok. split; auto. apply Forall2_rev; auto.
Qed.

Lemma push_text_sim b' b t' t : rb b' b -> tl t' t -> rr rb (push_text b' t') (push_text b t).
Proof.
  intros [B1 B2 B3 B4] (T1 & T2 & T3 & T4). unfold push_text. rewrite B3. destruct (bl_at_eol b); [rfail|]. rewrite B2, T2.
  eapply rr_bind; [apply add16_sim|]. intros ? w ->. apply rr_ok. split; simpl; auto.
  apply Forall2_app; auto. constructor; auto. repeat split; auto.
Qed.

Lemma set_chunks_sim b' b cs' cs : rb b' b -> Forall2 rk cs' cs -> rb (set_chunks b' cs') (set_chunks b cs).
Proof. intros [B1 B2 B3 B4] H. split; auto. Qed.
Lemma set_eol_sim b' b : rb b' b -> rb (set_eol b') (set_eol b).
Proof. intros [B1 B2 B3 B4]. split; auto. Qed.
Lemma push_next_sim p' p b' b : rp p' p -> rb b' b -> rp (push_next p' b') (push_next p b).
Proof. intros [P1 P2 P3] H. split; simpl; auto. Qed.
Lemma push_prev_sim p' p b' b : rp p' p -> rb b' b -> rp (push_prev p' b') (push_prev p b).
Proof. intros [P1 P2 P3] H. split; simpl; auto. Qed.

Definition rfs (s' : N * bool * list (@cnote pd1) * list (@chunk pd1)) (s : N * bool * list (@cnote pd2) * list (@chunk pd2)) : Prop :=
  fst (fst (fst s')) = fst (fst (fst s)) /\ snd (fst (fst s')) = snd (fst (fst s)) /\
  Forall2 rc (snd (fst s')) (snd (fst s)) /\ Forall2 rk (snd s') (snd s).

Definition steps {S S2 U U2} (Q : S -> S2 -> Prop) (QT : U -> U2 -> Prop) (a : step S U) (b : step S2 U2) : Prop :=
  match a, b with Next x, Next y => Q x y | Done x, Done y => QT x y | _, _ => False end.

Lemma fits_body_sim s' s : rfs s' s -> rr (steps rfs eq) (fits_body s') (fits_body s).
Proof.
    destruct s' as [[[r' e'] ns'] ks'], s as [[[r e] ns] ks]. intros (E1 & E2 & Hn & Hk). simpl in *. subst r' e'.
    assert (Hp : forall c' c ns' ns ks' ks, rc c' c -> Forall2 rc ns' ns -> Forall2 rk ks' ks ->
      rr (fun a b => match a, b with
      | Next x, Next y => fst (fst (fst x)) = fst (fst (fst y)) /\ snd (fst (fst x)) = snd (fst (fst y)) /\
    Forall2 rc (snd (fst x)) (snd (fst y)) /\ Forall2 rk (snd x) (snd y) | Done x, Done y => x = y | _, _ => False end)
      (match c' with
    | CEmpty | CFocusMark => Ok (Next (r, e, ns', ks'))
    | CTextual t =>
        if e then Ok (Done false)
        else if (tx_width t <=? r)%N
        then Ok (Next ((r - tx_width t)%N, e, ns', ks'))
        else Ok (Done false)
    | CEndOfLine => Ok (Next (r, true, ns', ks'))
    | CNewline _ => Ok (Done true)
    | CChild _ d => c <- eval d ;; Ok (Next (r, e, c :: ns', ks'))
    | CConcat d1 d2 =>
        c2 <- eval d2 ;;
        c1 <- eval d1 ;;
        Ok (Next (r, e, c1 :: c2 :: ns', ks'))
    | CChoice _ d2 => c <- eval d2 ;; Ok (Next (r, e, c :: ns', ks'))
    end)
      (match c with
    | CEmpty | CFocusMark => Ok (Next (r, e, ns, ks))
    | CTextual t =>
        if e then Ok (Done false)
        else if (tx_width t <=? r)%N
        then Ok (Next ((r - tx_width t)%N, e, ns, ks))
        else Ok (Done false)
    | CEndOfLine => Ok (Next (r, true, ns, ks))
    | CNewline _ => Ok (Done true)
    | CChild _ d => c <- eval d ;; Ok (Next (r, e, c :: ns, ks))
    | CConcat d1 d2 =>
        c2 <- eval d2 ;;
        c1 <- eval d1 ;;
        Ok (Next (r, e, c1 :: c2 :: ns, ks))
    | CChoice _ d2 => c <- eval d2 ;; Ok (Next (r, e, c :: ns, ks))
    end)).
    { clear - HR. intros c' c ns' ns ks' ks Hc Hn Hk.
      destruct c', c; simpl in Hc; try contradiction; subst.
      - apply rr_ok; simpl; auto 12.
      - apply rr_ok; simpl; auto 12.
      - apply rr_ok; simpl; auto 12.
      - destruct e; [apply rr_ok; auto|]. destruct Hc as (_ & -> & _). destruct (tx_width t0 <=? r)%N; apply rr_ok; simpl; auto 12.
      - destruct Hc as [Ha Hb]. eapply rr_bind; [apply eval_sim; exact Hb|]. intros c2' c2 H2.
        eapply rr_bind; [apply eval_sim; exact Ha|]. intros c1' c1 H1. apply rr_ok; simpl; auto 12.
      - destruct Hc as [Ha Hb]. eapply rr_bind; [apply eval_sim; exact Hb|]. intros c2' c2 H2. apply rr_ok; simpl; auto 12.
      - destruct Hc as [Ha Hb]. eapply rr_bind; [apply eval_sim; exact Hb|]. intros c2' c2 H2. apply rr_ok; simpl; auto 12.
      - apply rr_ok; simpl; auto. }
    inversion Hn; subst; cbn [fits_body].
    + inversion Hk; subst; [apply rr_ok; reflexivity|]. apply Hp; auto. apply H.
    + apply Hp; auto.
Qed.

Lemma fits_sim n w eol c' c cs' cs : rc c' c -> Forall2 rk cs' cs ->
  rr eq (fits n w eol c' cs') (fits n w eol c cs).
Proof.
  intros Hc Hcs. unfold fits. apply rr_loop with (Q := rfs); [intros; apply fits_body_sim; auto|].
  unfold rfs. simpl. auto.
Qed.

Lemma choose_sim n p' p b' b d1' d1 d2' d2 : rp p' p -> rb b' b -> rd d1' d1 -> rd d2' d2 ->
  rr rk (choose n p' b' d1' d2') (choose n p b d1 d2).
Proof.
  intros Hp Hb H1 H2. unfold choose. eapply rr_bind; [apply chunk_sim; exact H1|]. intros c' c Hc.
  eapply rr_bind with (Q := eq).
  - rewrite (rp_width Hp), (rb_len Hb), (rb_eol Hb). destruct (_ <=? _)%N; [|apply rr_ok; auto].
    apply fits_sim; [apply Hc|apply Hb].
  - intros ? [] ->; [apply rr_ok; auto|apply chunk_sim; auto].
Qed.

Definition ref (s' : list (@chunk pd1) * @printer pd1 * @block pd1) (s : list (@chunk pd2) * @printer pd2 * @block pd2) : Prop :=
  Forall2 rk (fst (fst s')) (fst (fst s)) /\ rp (snd (fst s')) (snd (fst s)) /\ rb (snd s') (snd s).

Lemma expand_first_body_sim s' s : ref s' s -> rr (steps ref rpb) (expand_first_body s') (expand_first_body s).
Proof.
  unfold ref. destruct s' as [[st' p'] b'], s as [[st p] b]. intros (Hs & Hp & Hb). simpl in Hs, Hp, Hb.
  inversion Hs as [|x' x l' l Hx Hl]; subst; cbn [expand_first_body].
  - apply rr_ok. split; auto.
  - destruct Hx as [Hx Hi].
    destruct (ck_note x') eqn:E1, (ck_note x) eqn:E2; simpl in Hx; try contradiction.
    + apply rr_ok; simpl; auto 12.
    + apply rr_ok; simpl; split; auto; split; auto; apply set_chunks_sim; auto; constructor; [split; [rewrite E1, E2; auto|auto]|apply Hb].
    + eapply rr_bind; [apply block_new_sim; [eassumption|apply Hb]|]. intros nb' nb Hnb. apply rr_ok; simpl. split; auto. split; [apply push_next_sim; auto|apply set_chunks_sim; auto].
    + apply rr_ok; simpl; split; auto; split; auto; apply set_chunks_sim; auto; constructor; [split; [rewrite E1, E2; auto|auto]|apply Hb].
    + destruct Hx as [Ha Hb2]. eapply rr_bind; [apply chunk_sim; exact Ha|]. intros k1' k1 Hk1.
      eapply rr_bind; [apply chunk_sim; exact Hb2|]. intros k2' k2 Hk2. apply rr_ok; simpl; auto 12.
    + apply rr_ok; simpl; split; auto; split; auto; apply set_chunks_sim; auto; constructor; [split; [rewrite E1, E2; auto|auto]|apply Hb].
    + apply rr_ok; simpl; split; auto; split; auto; apply set_chunks_sim; auto; constructor; [split; [rewrite E1, E2; auto|auto]|apply Hb].
    + apply rr_ok; simpl; split; auto; split; auto; apply set_chunks_sim; auto; constructor; [split; [rewrite E1, E2; auto|auto]|apply Hb].
Qed.

Lemma expand_first_sim n p' p b' b c' c : rp p' p -> rb b' b -> rk c' c ->
  rr rpb (expand_first n p' b' c') (expand_first n p b c).
Proof.
  intros Hp Hb Hc. unfold expand_first. apply rr_loop with (Q := ref); [intros; apply expand_first_body_sim; auto|].
  unfold ref. simpl. auto.
Qed.

Definition rel (s' : list (@chunk pd1) * list (@chunk pd1) * @printer pd1 * @block pd1)
    (s : list (@chunk pd2) * list (@chunk pd2) * @printer pd2 * @block pd2) : Prop :=
  Forall2 rk (fst (fst (fst s'))) (fst (fst (fst s))) /\ Forall2 rk (snd (fst (fst s'))) (snd (fst (fst s))) /\
  rp (snd (fst s')) (snd (fst s)) /\ rb (snd s') (snd s).

Lemma expand_last_body_sim s' s : rel s' s -> rr (steps rel ref) (expand_last_body s') (expand_last_body s).
Proof.
  unfold rel. destruct s' as [[[cs' st'] p'] b'], s as [[[cs st] p] b]. intros (Hcs & Hs & Hp & Hb). simpl in Hcs, Hs, Hp, Hb.
  inversion Hs as [|x' x l' l Hx Hl]; subst; cbn [expand_last_body].
  - apply rr_ok. split; auto.
  - pose proof Hx as [Hx2 Hi].
    destruct (ck_note x') eqn:E1, (ck_note x) eqn:E2; simpl in Hx2; try contradiction.
    + apply rr_ok; simpl; auto 12.
    + apply rr_ok; simpl; auto 12.
    + eapply rr_bind; [apply block_new_sim; [eassumption|apply Hb]|]. intros nb' nb Hnb. apply rr_ok; simpl. split; auto. split; auto. split; auto.
      apply push_prev_sim; auto. destruct Hb. split; simpl; auto. apply Forall2_rev; auto.
    + apply rr_ok; simpl; auto 12.
    + destruct Hx2 as [Ha Hb2]. eapply rr_bind; [apply chunk_sim; exact Hb2|]. intros k1' k1 Hk1.
      eapply rr_bind; [apply chunk_sim; exact Ha|]. intros k2' k2 Hk2. apply rr_ok; simpl; auto 10.
    + apply rr_ok; simpl; auto 12.
    + apply rr_ok; simpl; auto 12.
    + apply rr_ok; simpl; auto 12.
Qed.

Lemma expand_last_sim n p' p b' b c' c : rp p' p -> rb b' b -> rk c' c ->
  rr rpb (expand_last n p' b' c') (expand_last n p b c).
Proof.
  intros Hp Hb Hc. unfold expand_last.
  apply rr_bind with (Q := ref).
  2: { intros [[st' q'] e'] [[st q] e] (Hs & Hq & He). simpl in *. apply rr_ok. split; auto. simpl.
       apply set_chunks_sim; auto. apply Forall2_app; [apply Forall2_rev; auto|apply He]. }
  apply rr_loop with (Q := rel); [intros; apply expand_last_body_sim; auto|]. unfold rel. simpl. auto.
Qed.

(** All the loops over the chunks of a block have the same shape. *)
Ltac chunk_case Hb :=
  let Hk := fresh "Hk" in pose proof (rb_chunks Hb) as Hk;
  let x' := fresh "x'" in let x := fresh "x" in let Hx := fresh "Hx" in let Hl := fresh "Hl" in
  let E1 := fresh "E" in let E2 := fresh "E" in
  inversion Hk as [E1 E2|x' x ? ? Hx Hl E1 E2]; subst.

Lemma print_next_sim n s' s : rpb s' s ->
  rr (steps rpb rpb) (print_next_body n s') (print_next_body n s).
Proof.
  destruct s' as [p' b'], s as [p b]. intros [Hp Hb]. simpl in *. unfold print_next_body.
  chunk_case Hb; [apply rr_ok; split; auto|].
  pose proof Hx as [Hx2 Hi]. pose proof (set_chunks_sim Hb Hl) as Hb2.
  destruct (ck_note x') eqn:E1, (ck_note x) eqn:E2; simpl in Hx2; try contradiction; try rfail.
  - apply rr_ok; split; auto. apply set_eol_sim; auto.
  - eapply rr_bind; [apply push_text_sim; eauto|]. intros; apply rr_ok; split; auto.
  - destruct Hx2. eapply rr_bind; [apply choose_sim; eauto|]. intros. eapply rr_bind; [apply expand_first_sim; eauto|]. intros; apply rr_ok; auto.
  - destruct Hx2. eapply rr_bind; [apply chunk_sim; eauto|]. intros. eapply rr_bind; [apply expand_first_sim; eauto|]. intros; apply rr_ok; auto.
  - apply rr_ok; split; auto.
Qed.

Lemma print_prev_sim n s' s : rpb s' s ->
  rr (steps rpb rpb) (print_prev_body n s') (print_prev_body n s).
Proof.
  destruct s' as [p' b'], s as [p b]. intros [Hp Hb]. simpl in *. unfold print_prev_body.
  chunk_case Hb; [apply rr_ok; split; auto|].
  pose proof Hx as [Hx2 Hi]. pose proof (set_chunks_sim Hb Hl) as Hb2.
  destruct (ck_note x') eqn:E1, (ck_note x) eqn:E2; simpl in Hx2; try contradiction; try rfail.
  - apply rr_ok; split; auto. apply set_eol_sim; auto.
  - eapply rr_bind; [apply push_text_sim; eauto|]. intros; apply rr_ok; split; auto.
  - destruct Hx2. eapply rr_bind; [apply choose_sim; eauto|]. intros. eapply rr_bind; [apply expand_last_sim; eauto|]. intros; apply rr_ok; auto.
  - destruct Hx2. eapply rr_bind; [apply chunk_sim; eauto|]. intros. eapply rr_bind; [apply expand_last_sim; eauto|]. intros; apply rr_ok; auto.
  - apply rr_ok; split; auto.
Qed.

Lemma seek_end_sim_body n k s' s : rpb s' s ->
  rr (steps rpb rpb) (seek_end_body n k s') (seek_end_body n k s).
Proof.
  destruct s' as [p' b'], s as [p b]. intros [Hp Hb]. simpl in *. unfold seek_end_body.
  rewrite (Forall2_length (rb_chunks Hb)). destruct (_ <=? _); [apply rr_ok; split; auto|].
  chunk_case Hb; [rfail|].
  pose proof Hx as [Hx2 Hi]. pose proof (set_chunks_sim Hb Hl) as Hb2.
  destruct (ck_note x') eqn:E1, (ck_note x) eqn:E2; simpl in Hx2; try contradiction; try rfail.
  - apply rr_ok; split; auto. apply set_eol_sim; auto.
  - eapply rr_bind; [apply push_text_sim; eauto|]. intros; apply rr_ok; split; auto.
  - destruct Hx2. eapply rr_bind; [apply choose_sim; eauto|]. intros. eapply rr_bind; [apply expand_last_sim; eauto|]. intros; apply rr_ok; auto.
  - destruct Hx2. eapply rr_bind; [apply chunk_sim; eauto|]. intros. eapply rr_bind; [apply expand_last_sim; eauto|]. intros; apply rr_ok; auto.
  - apply rr_ok; split; auto.
Qed.

Definition rsum (a' : @printer pd1 + @printer pd1 * @block pd1) (a : @printer pd2 + @printer pd2 * @block pd2) : Prop :=
  match a', a with inl x, inl y => rp x y | inr x, inr y => rpb x y | _, _ => False end.

Lemma seek_mark_sim_body n id' id s' s : RI id' id -> rpb s' s ->
  rr (steps rpb rsum) (seek_mark_body n id' s') (seek_mark_body n id s).
Proof.
  intros HI.
  destruct s' as [p' b'], s as [p b]. intros [Hp Hb]. simpl in *. unfold seek_mark_body.
  chunk_case Hb; [apply rr_ok; split; auto|].
  pose proof Hx as [Hx2 Hi]. pose proof (set_chunks_sim Hb Hl) as Hb2.
  destruct (ck_note x') eqn:E1, (ck_note x) eqn:E2; simpl in Hx2; try contradiction; try rfail.
  - apply rr_ok; split; auto. apply set_eol_sim; auto.
  - eapply rr_bind; [apply push_text_sim; eauto|]. intros; apply rr_ok; split; auto.
  - destruct Hx2. eapply rr_bind; [apply choose_sim; eauto|]. intros. eapply rr_bind; [apply expand_first_sim; eauto|]. intros; apply rr_ok; auto.
  - destruct Hx2. eapply rr_bind; [apply chunk_sim; eauto|]. intros. eapply rr_bind; [apply expand_first_sim; eauto|]. intros; apply rr_ok; auto.
  - rewrite (ls_eq HR _ _ _ _ Hi HI). destruct (id_eqb (ck_id x) id); apply rr_ok; [apply push_next_sim; auto|split; auto].
Qed.

Lemma seek_text_sim_body n k s' s : rpb s' s ->
  rr (steps rpb rsum) (seek_text_body n k s') (seek_text_body n k s).
Proof.
  destruct s' as [p' b'], s as [p b]. intros [Hp Hb]. simpl in *. unfold seek_text_body.
  chunk_case Hb; [apply rr_ok; split; auto|].
  pose proof Hx as [Hx2 Hi]. pose proof (set_chunks_sim Hb Hl) as Hb2.
  destruct (ck_note x') eqn:E1, (ck_note x) eqn:E2; simpl in Hx2; try contradiction; try rfail.
  - apply rr_ok; split; auto. apply set_eol_sim; auto.
  - pose proof Hx2 as (S1 & S2 & S3 & S4). rewrite S4. destruct (tx_from_text t0) eqn:E3.
    + unfold split_at. rewrite S1. eapply rr_bind; [apply push_text_sim; [exact Hb2|]; repeat split; auto|]. intros e' e He. apply rr_ok. apply push_next_sim; auto.
      apply set_chunks_sim; auto. constructor; [|apply He]. split; simpl; auto. repeat split; auto.
    + eapply rr_bind; [apply push_text_sim; eauto|]. intros; apply rr_ok; split; auto.
  - destruct Hx2. eapply rr_bind; [apply choose_sim; eauto|]. intros. eapply rr_bind; [apply expand_first_sim; eauto|]. intros; apply rr_ok; auto.
  - destruct Hx2. eapply rr_bind; [apply chunk_sim; eauto|]. intros. eapply rr_bind; [apply expand_first_sim; eauto|]. intros; apply rr_ok; auto.
  - apply rr_ok; split; auto.
Qed.

Definition rse (a' : @seek_child_end pd1) (a : @seek_child_end pd2) : Prop :=
  match a', a with
  | ScFound p' d', ScFound p d => rp p' p /\ rd d' d
  | ScBreak p', ScBreak p | ScExhausted p', ScExhausted p => rp p' p
  | _, _ => False
  end.

Lemma seek_child_sim_body n id' id k s' s : RI id' id -> rpb s' s ->
  rr (steps rpb rse) (seek_child_body n id' k s') (seek_child_body n id k s).
Proof.
  intros HI.
  destruct s' as [p' b'], s as [p b]. intros [Hp Hb]. simpl in *. unfold seek_child_body.
  chunk_case Hb; [apply rr_ok; auto|].
  pose proof Hx as [Hx2 Hi]. pose proof (set_chunks_sim Hb Hl) as Hb2.
  destruct (ck_note x') eqn:E1, (ck_note x) eqn:E2; simpl in Hx2; try contradiction; try rfail.
  - apply rr_ok; split; auto. apply set_eol_sim; auto.
  - eapply rr_bind; [apply push_text_sim; eauto|]. intros; apply rr_ok; split; auto.
  - destruct Hx2. eapply rr_bind; [apply choose_sim; eauto|]. intros. eapply rr_bind; [apply expand_first_sim; eauto|].
    intros [q' e'] [q e] [Hq He]. apply rr_ok. apply push_next_sim; auto.
  - destruct Hx2 as [-> Hd]. rewrite (ls_eq HR _ _ _ _ Hi HI). destruct (id_eqb (ck_id x) id && Nat.eqb i0 k).
    + apply rr_ok. split; auto. apply push_next_sim; auto.
    + eapply rr_bind; [apply chunk_sim; eauto|]. intros. eapply rr_bind; [apply expand_first_sim; eauto|].
      intros [q' e'] [q e] [Hq He]. apply rr_ok. apply push_next_sim; auto.
  - apply rr_ok; split; auto.
Qed.

Lemma set_next_sim p' p bs' bs : rp p' p -> Forall2 rb bs' bs -> rp (set_next p' bs') (set_next p bs).
Proof. intros [P1 P2 P3] H. split; simpl; auto. Qed.
Lemma set_prev_sim p' p bs' bs : rp p' p -> Forall2 rb bs' bs -> rp (set_prev p' bs') (set_prev p bs).
Proof. intros [P1 P2 P3] H. split; simpl; auto. Qed.

Lemma loop_steps {S S2 U U2} (Q : S -> S2 -> Prop) (QT : U -> U2 -> Prop) body' body n :
  (forall s' s, Q s' s -> rr (steps Q QT) (body' s') (body s)) ->
  forall s' s, Q s' s -> rr QT (loop n body' s') (loop n body s).
Proof. intros H. apply rr_loop. exact H. Qed.

Definition rol (a' : option (@line pd1)) (a : option (@line pd2)) : Prop :=
  match a', a with None, None => True | Some l', Some l => Forall2 sl l' l | _, _ => False end.
Definition rpl (a' : @printer pd1 * option (@line pd1)) (a : @printer pd2 * option (@line pd2)) : Prop :=
  rp (fst a') (fst a) /\ rol (snd a') (snd a).

Lemma block_print_sim b' b : rb b' b -> rr (Forall2 sl) (block_print b') (block_print b).
Proof.
  intros Hb. unfold block_print. chunk_case Hb; [|rfail]. apply rr_ok. apply Hb.
Qed.

Lemma print_next_line_sim n p' p : rp p' p -> rr rpl (print_next_line n p') (print_next_line n p).
Proof.
  intros Hp. unfold print_next_line. pose proof (rp_next Hp) as Hn. inversion Hn as [E1 E2|b' b bs' bs Hb Hbs E1 E2]; [apply rr_ok; split; simpl; auto|].
  eapply rr_bind with (Q := rpb).
  - apply loop_steps with (Q := rpb); [intros; apply print_next_sim; auto|]. split; auto. apply set_next_sim; auto.
  - intros [q' e'] [q e] [Hq He]. simpl in *. eapply rr_bind; [apply block_print_sim; eauto|]. intros l' l Hl. apply rr_ok; split; auto.
Qed.

Lemma print_prev_line_sim n p' p : rp p' p -> rr rpl (print_prev_line n p') (print_prev_line n p).
Proof.
  intros Hp. unfold print_prev_line. pose proof (rp_prev Hp) as Hn. inversion Hn as [E1 E2|b' b bs' bs Hb Hbs E1 E2]; [apply rr_ok; split; simpl; auto|].
  eapply rr_bind with (Q := rpb).
  - apply loop_steps with (Q := rpb); [intros; apply print_prev_sim; auto|]. split; auto. apply set_prev_sim; auto.
  - intros [q' e'] [q e] [Hq He]. simpl in *. eapply rr_bind; [apply block_print_sim; eauto|]. intros l' l Hl. apply rr_ok; split; auto.
Qed.

Lemma relevant_sim id' id k c' c : RI id' id -> rk c' c -> relevant_chunk id' k c' = relevant_chunk id k c.
Proof.
  intros HI [H1 H2]. unfold relevant_chunk. rewrite (ls_eq HR _ _ _ _ H2 HI).
  destruct (ck_note c'), (ck_note c); simpl in H1; try contradiction; auto. destruct H1 as [-> _]. reflexivity.
Qed.

Lemma relevant_block_sim id' id k b' b : RI id' id -> rb b' b ->
  contains_relevant_chunk id' k b' = contains_relevant_chunk id k b.
Proof.
  intros HI Hb. unfold contains_relevant_chunk. induction (rb_chunks Hb) as [|c' c cs' cs Hc _ IHc]; simpl; auto.
  rewrite (@relevant_sim id' id k _ _ HI Hc), IHc. reflexivity.
Qed.

Lemma walk_sim id' id k n' n : RI id' id -> Forall2 rb n' n -> forall p' p, Forall2 rb p' p ->
  Forall2 rb (fst (walk id' k p' n')) (fst (walk id k p n)) /\ Forall2 rb (snd (walk id' k p' n')) (snd (walk id k p n)).
Proof.
  intros HI. induction 1 as [|b' b l' l Hb Hl IH]; intros p' p Hp; simpl; auto.
  rewrite (@relevant_block_sim id' id k _ _ HI Hb). destruct (contains_relevant_chunk id k b); simpl; auto.
Qed.

Definition rpc (a' : @printer pd1 * @chunk pd1) (a : @printer pd2 * @chunk pd2) : Prop := rp (fst a') (fst a) /\ rk (snd a') (snd a).

Lemma seek_child_outer_sim n id' id i p' p : RI id' id -> rp p' p ->
  rr (steps rp rpc) (seek_child_outer n id' i p') (seek_child_outer n id i p).
Proof.
  intros HI Hp. unfold seek_child_outer.
  destruct (@walk_sim id' id i _ _ HI (rp_next Hp) _ _ (rp_prev Hp)) as [W1 W2].
  destruct (walk id' i (pr_prev p') (pr_next p')) as [pv' nx'], (walk id i (pr_prev p) (pr_next p)) as [pv nx]. simpl in W1, W2.
  inversion W2 as [|b' b bs' bs Hb Hbs]; subst; [rfail|].
  eapply rr_bind with (Q := rse).
  - apply loop_steps with (Q := rpb); [intros; apply seek_child_sim_body; auto|]. split; auto. split; simpl; auto. apply Hp.
  - intros [q' d'|q'|q'] [q d|q|q] H; simpl in H; try contradiction.
    + destruct H as [H1 H2]. eapply rr_bind; [apply chunk_sim; eauto|]. intros x' x Hx. apply rr_ok. split; auto.
    + apply rr_ok. exact H.
    + apply rr_ok. exact H.
Qed.

Lemma seek_child_sim n p' p c' c i : rp p' p -> rk c' c -> rr rpc (seek_child n p' c' i) (seek_child n p c i).
Proof.
  intros Hp Hc. unfold seek_child. pose proof (rp_next Hp) as Hn. inversion Hn as [E1 E2|b' b bs' bs Hb Hbs E1 E2]; [rfail|].
  eapply rr_bind; [apply expand_first_sim; eauto; apply set_next_sim; auto|]. intros [q' e'] [q e] [Hq He]. simpl in Hq, He.
  apply loop_steps with (Q := rp); [|apply push_next_sim; auto].
  intros; apply seek_child_outer_sim; auto. apply Hc.
Qed.

Lemma seek_path_sim n path : forall p' p c' c, rp p' p -> rk c' c -> rr rpc (seek_path n p' c' path) (seek_path n p c path).
Proof.
  induction path as [|i path IH]; intros p' p c' c Hp Hc; simpl; [apply rr_ok; split; auto|].
  eapply rr_bind; [apply seek_child_sim; eauto|]. intros [q' e'] [q e] [Hq He]. apply IH; auto.
Qed.

Lemma style_sim d' d st' st : RD d' d -> root_style_like T st' st ->
  rr rd (with_optional_style d' st') (with_optional_style d st).
Proof.
  intros Hd Hst. unfold with_optional_style.
  eapply rr_bind; [apply rr_lift; apply (ls_notation HR); eauto|]. intros nt' nt Hnt.
  eapply rr_bind; [apply rr_lift; apply (ls_style HR); eauto|]. intros s' s Hs.
  apply rr_ok. split; simpl; auto.
  apply (Hst _ _ Hs).
Qed.

Lemma seek_mark_outer_sim n id' id p' p : RI id' id -> rp p' p ->
  rr (steps rp rp) (seek_mark_outer n id' p') (seek_mark_outer n id p).
Proof.
  intros HI Hp. unfold seek_mark_outer.
  pose proof (rp_next Hp) as Hn. inversion Hn as [E1 E2|b' b bs' bs Hb Hbs E1 E2]; [rfail|].
  eapply rr_bind with (Q := rsum).
  + apply loop_steps with (Q := rpb); [intros; apply seek_mark_sim_body; auto|]. split; auto. apply set_next_sim; auto.
  + intros [a'|[a' e']] [a|[a e]] Ha; simpl in Ha; try contradiction; apply rr_ok; auto. apply push_prev_sim; apply Ha.
Qed.

Lemma seek_text_outer_sim n k p' p : rp p' p ->
  rr (steps rp rp) (seek_text_outer n k p') (seek_text_outer n k p).
Proof.
  intros Hp. unfold seek_text_outer.
  pose proof (rp_next Hp) as Hn. inversion Hn as [E1 E2|b' b bs' bs Hb Hbs E1 E2]; [rfail|].
  eapply rr_bind with (Q := rsum).
  + apply loop_steps with (Q := rpb); [intros; apply seek_text_sim_body; auto|]. split; auto. apply set_next_sim; auto.
  + intros [a'|[a' e']] [a|[a e]] Ha; simpl in Ha; try contradiction; apply rr_ok; auto. apply push_prev_sim; apply Ha.
Qed.

Lemma seek_sim n p' p d' d path ft st' st : rp p' p -> RD d' d -> root_style_like T st' st ->
  rr rp (seek n p' d' path ft st') (seek n p d path ft st).
Proof.
  intros Hp Hd Hst. unfold seek.
  eapply rr_bind; [apply style_sim; eauto|].
  intros e' e He. eapply rr_bind; [apply chunk_sim; eauto|]. intros c' c Hc.
  eapply rr_bind; [apply seek_path_sim; eauto|]. clear - HR. intros [p' c'] [p c] [Hp Hc]. simpl in Hp, Hc.
  pose proof (rp_next Hp) as Hn. destruct ft; [unfold seek_start|unfold seek_end|unfold seek_mark|unfold seek_text];
    inversion Hn as [E1 E2|b' b bs' bs Hb Hbs E1 E2]; try (rfail; fail).
  - eapply rr_bind; [apply expand_first_sim; eauto; apply set_next_sim; auto|]. intros [q' e'] [q e] [Hq He]. apply rr_ok. apply push_next_sim; auto.
  - rewrite (Forall2_length (rb_chunks Hb)).
    eapply rr_bind; [apply expand_last_sim; eauto; apply set_next_sim; auto|]. intros q' q Hq.
    eapply rr_bind with (Q := rpb).
    + apply loop_steps with (Q := rpb); [intros; apply seek_end_sim_body; auto|auto].
    + intros [a' e'] [a e] [Ha He]. apply rr_ok. apply push_next_sim; auto.
  - eapply rr_bind; [apply expand_first_sim; eauto; apply set_next_sim; auto|]. intros [q' e'] [q e] [Hq He].
    apply loop_steps with (Q := rp); [|apply push_next_sim; auto]. intros; apply seek_mark_outer_sim; auto. apply Hc.
  - eapply rr_bind; [apply expand_first_sim; eauto; apply set_next_sim; auto|]. intros [q' e'] [q e] [Hq He].
    apply loop_steps with (Q := rp); [|apply push_next_sim; auto]. intros; apply seek_text_outer_sim; auto.
Qed.

Definition rres (a' : @printer pd1 * @focused_line pd1 * @printer pd1) (a : @printer pd2 * @focused_line pd2 * @printer pd2) : Prop :=
  rp (fst (fst a')) (fst (fst a)) /\ focused_like T (snd (fst a')) (snd (fst a)) /\ rp (snd a') (snd a).

Lemma Forall2_firstn {A B} (P : A -> B -> Prop) k : forall l' l, Forall2 P l' l -> Forall2 P (firstn k l') (firstn k l).
Proof. induction k; intros l' l H; inversion H; subst; simpl; auto. Qed.
Lemma Forall2_skipn {A B} (P : A -> B -> Prop) k : forall l' l, Forall2 P l' l -> Forall2 P (skipn k l') (skipn k l).
Proof. induction k; intros l' l H; inversion H; subst; simpl; auto. Qed.

Lemma printer_new_sim w : rr rp (printer_new w) (printer_new w).
Proof.
  unfold printer_new. eapply rr_bind; [apply block_new_sim; constructor|]. intros b' b Hb. apply rr_ok. split; simpl; auto.
Qed.

Lemma pretty_print_sim n d' d w path ft st' st : RD d' d -> root_style_like T st' st ->
  rr rres (pretty_print n d' w path ft st') (pretty_print n d w path ft st).
Proof.
  intros Hd Hst. unfold pretty_print. eapply rr_bind; [apply printer_new_sim|].
  intros p0' p0 Hp0. eapply rr_bind; [apply seek_sim; eauto|]. intros p' p Hp.
  pose proof (rp_next Hp) as Hn. inversion Hn as [E1 E2|b' b bs' bs Hb Hbs E1 E2]; [rfail|].
  eapply rr_bind; [apply print_next_line_sim; eauto|]. intros [q' ol'] [q ol] [Hq E]. simpl in Hq, E.
  destruct ol' as [l'|], ol as [l|]; try contradiction; [|rfail]. simpl in E.
  rewrite (Forall2_length (rb_segs Hb)), (Forall2_length E). destruct (_ <=? _); [|rfail].
  apply rr_ok. split; [split; simpl; auto; apply Hq|]. split; [split; [apply Forall2_firstn|apply Forall2_skipn]; auto|]. split; simpl; auto. apply Hq.
Qed.

Lemma take_up_sim n k : forall p' p, rp p' p -> rr (Forall2 (line_like T)) (take_lines (up_next n) k p') (take_lines (up_next n) k p).
Proof.
  induction k as [|k IH]; intros p' p Hp; simpl; [apply rr_ok; auto|].
  eapply rr_bind; [apply print_prev_line_sim; eauto|]. intros [q' ol'] [q ol] [Hq E]. simpl in Hq, E.
  destruct ol', ol; try contradiction; [|apply rr_ok; auto]. eapply rr_bind; [apply IH; auto|]. intros ls' ls Hls. apply rr_ok. auto.
Qed.

Lemma take_down_sim n k : forall p' p, rp p' p -> rr (Forall2 (line_like T)) (take_lines (down_next n) k p') (take_lines (down_next n) k p).
Proof.
  induction k as [|k IH]; intros p' p Hp; simpl; [apply rr_ok; auto|].
  eapply rr_bind; [apply print_next_line_sim; eauto|]. intros [q' ol'] [q ol] [Hq E]. simpl in Hq, E.
  destruct ol', ol; try contradiction; [|apply rr_ok; auto]. eapply rr_bind; [apply IH; auto|]. intros ls' ls Hls. apply rr_ok. auto.
Qed.

Lemma window_sim n d' d w path ft st' st ku kd : RD d' d -> root_style_like T st' st ->
  rr (window_like T) (window n d' w path ft st' ku kd) (window n d w path ft st ku kd).
Proof.
  intros Hd Hst. unfold window. eapply rr_bind; [apply pretty_print_sim; eauto|].
  intros [[up' fl'] down'] [[up fl] down] (H1 & H2 & H3). simpl in H1, H2, H3.
  eapply rr_bind; [apply take_up_sim; eauto|]. intros ups' ups Hu.
  eapply rr_bind; [apply take_down_sim; eauto|]. intros downs' downs Hw. apply rr_ok. split; [|split]; auto.
Qed.

Lemma text_like l' l : Forall2 sl l' l -> segs_to_string l' = segs_to_string l.
Proof. unfold segs_to_string. intros H. f_equal. induction H as [|x y ? ? (H & _)]; simpl; congruence. Qed.

Lemma to_string_body_sim n s' s : rp (fst s') (fst s) /\ snd s' = snd s ->
  rr (steps (fun (s' : @printer pd1 * str) (s : @printer pd2 * str) => rp (fst s') (fst s) /\ snd s' = snd s) eq)
    (to_string_body n s') (to_string_body n s).
Proof.
  destruct s' as [p' x'], s as [p x]. simpl. intros [Hp ->]. unfold to_string_body.
  eapply rr_bind; [apply print_next_line_sim; eauto|]. intros [q' ol'] [q ol] [Hq E]. simpl in Hq, E.
  destruct ol', ol; try contradiction; apply rr_ok; simpl; auto. split; auto. rewrite (text_like E). reflexivity.
Qed.

Lemma to_string_sim n d' d w : RD d' d ->
  rr eq (pretty_print_to_string n d' w) (pretty_print_to_string n d w).
Proof.
  intros Hd. unfold pretty_print_to_string. eapply rr_bind; [apply pretty_print_sim; [eauto|intros s1 s2 Hs12; exact Hs12]|].
  intros [[up' fl'] down'] [[up fl] down] (H1 & [H2 H2'] & H3). simpl in H1, H2, H2', H3.
  apply loop_steps with (Q := fun (s' : @printer pd1 * str) (s : @printer pd2 * str) => rp (fst s') (fst s) /\ snd s' = snd s).
  - intros; apply to_string_body_sim; auto.
  - split; auto. simpl. unfold focused_to_string. apply text_like. apply Forall2_app; auto.
Qed.

Lemma rr_same {A B} (Q : A -> B -> Prop) x' x : rr Q x' x -> same_result T Q x' x.
Proof.
  unfold rr, same_result, refused. destruct x' as [a|f']; auto.
  intros [(e & -> & H)|H]; eauto.
Qed.

End Sim.
