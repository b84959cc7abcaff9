(** Lockstep simulation between printing two documents that behave alike
    except that methods of the first may return errors. *)
From Verif Require Export SpecMask.

Set Implicit Arguments.

Section Mask.
Context {pd : PrettyDoc} {env : Env}.
Variable R : D -> D -> Prop.
Hypothesis HR : masks R.

(** Results: the same, or a document error on the left. *)
Definition rr {A B} (Q : A -> B -> Prop) (x' : pres A) (x : pres B) : Prop :=
  match x' with
  | Ok a' => exists a, x = Ok a /\ Q a' a
  | Fail (FErr (PrettyDocErr _)) => True
  | Fail f => x = Fail f
  end.

Lemma rr_ok {A B} (Q : A -> B -> Prop) a' a : Q a' a -> rr Q (Ok a') (Ok a).
Proof. simpl. eauto. Qed.

Lemma rr_fail {A B} (Q : A -> B -> Prop) f : rr Q (Fail f) (Fail f).
Proof. destruct f as [[]| |]; simpl; auto. Qed.

Lemma rr_bind {A B C E} (Q : A -> B -> Prop) (Q2 : C -> E -> Prop) x' x k' k :
  rr Q x' x -> (forall a' a, Q a' a -> rr Q2 (k' a') (k a)) -> rr Q2 (bind x' k') (bind x k).
Proof.
  unfold rr at 1. destruct x' as [a'|f].
  - intros (a & -> & H) Hk. simpl. auto.
  - intros H _. destruct f as [[]| |]; try (rewrite H; apply rr_fail). exact I.
Qed.

Lemma rr_loop {S S2 T T2} (Q : S -> S2 -> Prop) (QT : T -> T2 -> Prop) body' body n :
  (forall s' s, Q s' s -> rr (fun a b => match a, b with
      | Next x, Next y => Q x y | Done x, Done y => QT x y | _, _ => False end) (body' s') (body s)) ->
  forall s' s, Q s' s -> rr QT (loop n body' s') (loop n body s).
Proof.
  intros Hb. induction n as [|n IH]; intros s' s Hs; [reflexivity|].
  cbn [loop]. specialize (Hb _ _ Hs). unfold rr in Hb at 1.
  destruct (body' s') as [a'|f].
  - destruct Hb as (a & -> & H). destruct a', a; try contradiction; auto. apply rr_ok. exact H.
  - destruct f as [[]| |]; try (rewrite Hb; apply rr_fail). exact I.
Qed.

Lemma rr_mono {A B} (Q Q2 : A -> B -> Prop) x' x : (forall a b, Q a b -> Q2 a b) -> rr Q x' x -> rr Q2 x' x.
Proof.
  intros H. unfold rr. destruct x' as [a|f]; [|auto]. intros (b & E & Hb). eauto.
Qed.

Lemma rr_refl {A} (Q : A -> A -> Prop) x : (forall a, Q a a) -> rr Q x x.
Proof. intros H. destruct x; [apply rr_ok; auto|apply rr_fail]. Qed.

Lemma rr_lift {A} (x' x : mres Er A) : answers x' x -> rr eq (lift x') (lift x).
Proof. intros [->|[e ->]]; [apply rr_refl; auto|exact I]. Qed.

Lemma rr_lift_node (x' x : mres Er D) : answers_node R x' x -> rr R (lift x') (lift x).
Proof.
  intros [[e ->]|[[-> ->]|(y' & y & -> & -> & H)]]; [exact I|apply rr_fail|apply rr_ok; auto].
Qed.

Arguments rr : simpl never.

(** ** Relations on the data *)
Definition rj (a' a : option joinpos) : Prop :=
  match a', a with
  | None, None => True
  | Some j', Some j => R (jp_parent j') (jp_parent j) /\ R (jp_child j') (jp_child j) /\
      jp_index j' = jp_index j /\ jp_first j' = jp_first j /\ jp_join j' = jp_join j
  | _, _ => False
  end.

Record rd (d' d : delayed) : Prop := {
  rd_note : dl_note d' = dl_note d; rd_doc : R (dl_doc d') (dl_doc d); rd_flat : dl_flat d' = dl_flat d;
  rd_indent : dl_indent d' = dl_indent d; rd_style : dl_style d' = dl_style d; rd_join : rj (dl_join d') (dl_join d) }.

Definition rc (c' c : cnote) : Prop :=
  match c', c with
  | CEmpty, CEmpty | CEndOfLine, CEndOfLine | CFocusMark, CFocusMark => True
  | CNewline i', CNewline i => i' = i
  | CTextual t', CTextual t => t' = t
  | CConcat a' b', CConcat a b | CChoice a' b', CChoice a b => rd a' a /\ rd b' b
  | CChild n' d', CChild n d => n' = n /\ rd d' d
  | _, _ => False
  end.

Definition rk (c' c : chunk) : Prop := rc (ck_note c') (ck_note c) /\ ck_id c' = ck_id c.
Record rb (b' b : block) : Prop := {
  rb_segs : bl_segments b' = bl_segments b; rb_len : bl_prefix_len b' = bl_prefix_len b;
  rb_eol : bl_at_eol b' = bl_at_eol b; rb_chunks : Forall2 rk (bl_chunks b') (bl_chunks b) }.
Record rp (p' p : printer) : Prop := {
  rp_width : pr_width p' = pr_width p; rp_prev : Forall2 rb (pr_prev p') (pr_prev p);
  rp_next : Forall2 rb (pr_next p') (pr_next p) }.
Definition rpb (s' s : printer * block) : Prop := rp (fst s') (fst s) /\ rb (snd s') (snd s).

(** ** Evaluation *)
Definition rh (h' h : delayed -> pres cnote) : Prop := forall d' d, rd d' d -> rr rc (h' d') (h d).

Lemma left_mask f' f j' j :
  (forall h' h, rh h' h -> rh (f' h') (f h)) -> (forall h' h, rh h' h -> rh (j' h') (j h)) ->
  forall k, rh (left_h f' j' k) (left_h f j k).
Proof.
  intros Hf Hj. induction k as [|k IH]; intros d' d Hd; pose proof (rd_join Hd) as HJ.
  - simpl. unfold rj in HJ. destruct (dl_join d') as [q'|], (dl_join d) as [q|]; try contradiction; [|apply rr_fail].
    destruct HJ as (H1 & H2 & H3 & H4 & H5). rewrite H3.
    destruct (jp_index q =? 1); [|apply rr_fail]. apply Hf; [intros ? ? _; apply rr_fail|].
    destruct Hd; split; simpl; auto.
  - simpl. unfold rj in HJ. destruct (dl_join d') as [q'|], (dl_join d) as [q|]; try contradiction; [|apply rr_fail].
    destruct HJ as (H1 & H2 & H3 & H4 & H5). rewrite H3.
    destruct (jp_index q =? 1).
    + apply Hf; [intros ? ? _; apply rr_fail|]. destruct Hd; split; simpl; auto.
    + eapply rr_bind; [apply rr_lift_node; apply (HR H2); auto|]. intros x' x Hx. apply Hj; [exact IH|].
      destruct Hd; split; simpl; auto.
Qed.

Lemma inspect_mask d' d pos : rd d' d -> rr R (doc_to_inspect d' pos) (doc_to_inspect d pos).
Proof.
  intros Hd. destruct (HR (rd_doc Hd)) as (H1 & H2 & H3 & H4 & H5 & H6 & H7 & H8 & H9 & H10).
  pose proof (rd_join Hd) as HJ. destruct pos; simpl.
  - apply rr_ok. apply Hd.
  - eapply rr_bind; [apply rr_lift; exact H6|]. intros ? [n|] ->; [|apply rr_fail].
    destruct (normalize_child_index i n); [|apply rr_fail]. apply rr_lift_node. auto.
  - unfold rj in HJ. destruct (dl_join d') as [q'|], (dl_join d) as [q|]; try contradiction; [|apply rr_fail].
    destruct HJ as (J1 & J2 & J3 & _). rewrite J3. destruct (jp_index q); [apply rr_fail|]. apply rr_lift_node. apply (HR J2); auto.
  - unfold rj in HJ. destruct (dl_join d') as [q'|], (dl_join d) as [q|]; try contradiction; [|apply rr_fail].
    apply rr_ok. apply HJ.
Qed.

Lemma eval_n_mask n : forall h' h, rh h' h -> rh (eval_n h' n) (eval_n h n).
Proof.
  induction n; intros h' h Hh d' d Hd; pose proof Hd as [D1 D2 D3 D4 D5 D6];
    destruct (HR D2) as (H1 & H2 & H3 & H4 & H5 & H6 & H7 & H8 & H9 & H10); simpl.
  - apply rr_ok. exact I.
  - apply rr_ok. exact D4.
  - apply rr_ok. exact I.
  - apply rr_ok. simpl. rewrite D5. reflexivity.
  - eapply rr_bind; [apply rr_lift; exact H6|]. intros ? [m|] ->; [apply rr_fail|].
    eapply rr_bind; [apply rr_lift; exact H7|]. intros ? t ->. apply rr_ok. simpl. rewrite D5. reflexivity.
  - apply IHn; auto. split; simpl; auto.
  - apply rr_bind with (Q := eq).
    { destruct label; [|apply rr_ok; auto]. eapply rr_bind; [apply rr_lift; apply H4|]. intros ? ? ->. apply rr_ok. congruence. }
    intros ? s ->. apply IHn; auto. split; simpl; auto. congruence.
  - apply rr_ok. simpl. split; split; simpl; auto.
  - rewrite D3. destruct (dl_flat d) eqn:Ef; [apply IHn1; auto|]. apply rr_ok. split; split; simpl; auto; congruence.
  - eapply rr_bind; [apply inspect_mask; auto|]. intros x' x Hx. eapply rr_bind; [apply rr_lift; apply (HR Hx)|].
    intros ? [] ->; [apply IHn1; auto|apply IHn2; auto].
  - eapply rr_bind; [apply rr_lift; exact H6|]. intros ? [len|] ->; [|apply rr_fail].
    destruct (normalize_child_index i len); [|apply rr_fail].
    eapply rr_bind; [apply rr_lift_node; apply H8|]. intros x' x Hx. destruct (HR Hx) as (X1 & X2 & X3 & X4 & X5 & _).
    eapply rr_bind; [apply rr_lift; apply X2|]. intros ? nt ->. eapply rr_bind; [apply rr_lift; apply X5|]. intros ? s ->.
    apply rr_ok. simpl. split; auto. split; simpl; auto. congruence.
  - eapply rr_bind; [apply rr_lift; apply H4|]. intros ? ls ->. apply IHn; auto. split; simpl; auto. congruence.
  - apply rr_ok. exact I.
  - eapply rr_bind; [apply rr_lift; exact H6|]. intros ? [[|[|m]]|] ->; [apply IHn1|apply IHn2|apply IHn3|apply rr_fail]; auto.
  - eapply rr_bind; [apply rr_lift; exact H6|]. intros ? [[|[|m]]|] ->; [apply rr_ok; exact I|apply IHn1; auto| |apply rr_fail].
    eapply rr_bind; [apply rr_lift_node; exact H9|]. intros x' x Hx. apply IHn2.
    + apply left_mask; auto.
    + split; simpl; auto.
  - unfold rj in D6. destruct (dl_join d'), (dl_join d); try contradiction; [|apply rr_fail]. apply Hh. exact Hd.
  - unfold rj in D6. destruct (dl_join d') as [q'|], (dl_join d) as [q|]; try contradiction; [|apply rr_fail].
    destruct D6 as (J1 & J2 & J3 & _). destruct (HR J2) as (X1 & X2 & X3 & X4 & X5 & _).
    eapply rr_bind; [apply rr_lift; apply X2|]. intros ? nt ->. eapply rr_bind; [apply rr_lift; apply X5|]. intros ? s ->.
    apply rr_ok. simpl. split; auto. split; simpl; auto. congruence.
Qed.

Lemma eval_mask d' d : rd d' d -> rr rc (eval d') (eval d).
Proof.
  intros Hd. unfold eval. rewrite (rd_note Hd). apply eval_n_mask; auto.
  pose proof (rd_join Hd) as HJ. unfold left_of, rj in *. destruct (dl_join d') as [q'|], (dl_join d) as [q|]; try contradiction.
  - destruct HJ as (J1 & J2 & -> & -> & ->). apply left_mask; apply eval_n_mask.
  - intros ? ? _. apply rr_fail.
Qed.

Lemma chunk_mask d' d : rd d' d -> rr rk (chunk_new d') (chunk_new d).
Proof.
  intros Hd. unfold chunk_new. eapply rr_bind; [apply rr_lift; apply (HR (rd_doc Hd))|]. intros ? i ->.
  eapply rr_bind; [apply eval_mask; auto|]. intros c' c Hc. apply rr_ok. split; auto.
Qed.

(** ** The printer *)
Lemma block_new_mask ind cs' cs : Forall2 rk cs' cs -> rr rb (block_new ind cs') (block_new ind cs).
Proof.
  intros H. unfold block_new. eapply rr_bind; [apply (@rr_refl _ eq); auto|]. intros ? w ->. apply rr_ok. split; auto.
Qed.

Lemma push_text_mask b' b t : rb b' b -> rr rb (push_text b' t) (push_text b t).
Proof.
  intros [B1 B2 B3 B4]. unfold push_text. rewrite B3. destruct (bl_at_eol b); [apply rr_fail|]. rewrite B2.
  eapply rr_bind; [apply (@rr_refl _ eq); auto|]. intros ? w ->. apply rr_ok. split; simpl; auto. rewrite B1. reflexivity.
Qed.

Lemma set_chunks_mask b' b cs' cs : rb b' b -> Forall2 rk cs' cs -> rb (set_chunks b' cs') (set_chunks b cs).
Proof. intros [B1 B2 B3 B4] H. split; auto. Qed.
Lemma set_eol_mask b' b : rb b' b -> rb (set_eol b') (set_eol b).
Proof. intros [B1 B2 B3 B4]. split; auto. Qed.
Lemma push_next_mask p' p b' b : rp p' p -> rb b' b -> rp (push_next p' b') (push_next p b).
Proof. intros [P1 P2 P3] H. split; simpl; auto. Qed.
Lemma push_prev_mask p' p b' b : rp p' p -> rb b' b -> rp (push_prev p' b') (push_prev p b).
Proof. intros [P1 P2 P3] H. split; simpl; auto. Qed.

Definition rns (a' a : list cnote) : Prop := Forall2 rc a' a.

Lemma fits_mask n w eol c' c cs' cs : rc c' c -> Forall2 rk cs' cs ->
  rr eq (fits n w eol c' cs') (fits n w eol c cs).
Proof.
  intros Hc Hcs. unfold fits.
  apply rr_loop with (Q := fun (s' s : N * bool * list cnote * list chunk) =>
    fst (fst (fst s')) = fst (fst (fst s)) /\ snd (fst (fst s')) = snd (fst (fst s)) /\
    Forall2 rc (snd (fst s')) (snd (fst s)) /\ Forall2 rk (snd s') (snd s)).
  - clear - HR. intros [[[r' e'] ns'] ks'] [[[r e] ns] ks] (E1 & E2 & Hn & Hk). simpl in *. subst r' e'.
    assert (Hp : forall c' c ns' ns ks' ks, rc c' c -> Forall2 rc ns' ns -> Forall2 rk ks' ks ->
      rr (fun a b => match a, b with
      | Next x, Next y => fst (fst (fst x)) = fst (fst (fst y)) /\ snd (fst (fst x)) = snd (fst (fst y)) /\
    Forall2 rc (snd (fst x)) (snd (fst y)) /\ Forall2 rk (snd x) (snd y) | Done x, Done y => x = y | _, _ => False end)
      (match c' with
    | CEmpty | CFocusMark => Ok (Next (r, e, ns', ks'))
    | CTextual t =>
        if e then Ok (Done false)
        else if (tx_width t <=? r)%N
        then Ok (Next ((r - tx_width t)%N, e, ns', ks'))
        else Ok (Done false)
    | CEndOfLine => Ok (Next (r, true, ns', ks'))
    | CNewline _ => Ok (Done true)
    | CChild _ d => c <- eval d ;; Ok (Next (r, e, c :: ns', ks'))
    | CConcat d1 d2 =>
        c2 <- eval d2 ;;
        c1 <- eval d1 ;;
        Ok (Next (r, e, c1 :: c2 :: ns', ks'))
    | CChoice _ d2 => c <- eval d2 ;; Ok (Next (r, e, c :: ns', ks'))
    end)
      (match c with
    | CEmpty | CFocusMark => Ok (Next (r, e, ns, ks))
    | CTextual t =>
        if e then Ok (Done false)
        else if (tx_width t <=? r)%N
        then Ok (Next ((r - tx_width t)%N, e, ns, ks))
        else Ok (Done false)
    | CEndOfLine => Ok (Next (r, true, ns, ks))
    | CNewline _ => Ok (Done true)
    | CChild _ d => c <- eval d ;; Ok (Next (r, e, c :: ns, ks))
    | CConcat d1 d2 =>
        c2 <- eval d2 ;;
        c1 <- eval d1 ;;
        Ok (Next (r, e, c1 :: c2 :: ns, ks))
    | CChoice _ d2 => c <- eval d2 ;; Ok (Next (r, e, c :: ns, ks))
    end)).
    { clear - HR. intros c' c ns' ns ks' ks Hc Hn Hk.
      destruct c', c; simpl in Hc; try contradiction; subst.
      - apply rr_ok; simpl; auto 12.
      - apply rr_ok; simpl; auto 12.
      - apply rr_ok; simpl; auto 12.
      - destruct e; [apply rr_ok; auto|]. destruct (tx_width t0 <=? r)%N; apply rr_ok; simpl; auto 12.
      - destruct Hc as [Ha Hb]. eapply rr_bind; [apply eval_mask; exact Hb|]. intros c2' c2 H2.
        eapply rr_bind; [apply eval_mask; exact Ha|]. intros c1' c1 H1. apply rr_ok; simpl; auto 12.
      - destruct Hc as [Ha Hb]. eapply rr_bind; [apply eval_mask; exact Hb|]. intros c2' c2 H2. apply rr_ok; simpl; auto 12.
      - destruct Hc as [Ha Hb]. eapply rr_bind; [apply eval_mask; exact Hb|]. intros c2' c2 H2. apply rr_ok; simpl; auto 12.
      - apply rr_ok; simpl; auto. }
    inversion Hn; subst; cbn [fits_body].
    + inversion Hk; subst; [apply rr_ok; reflexivity|]. apply Hp; auto. apply H.
    + apply Hp; auto.
  - simpl. auto.
Qed.

Lemma choose_mask n p' p b' b d1' d1 d2' d2 : rp p' p -> rb b' b -> rd d1' d1 -> rd d2' d2 ->
  rr rk (choose n p' b' d1' d2') (choose n p b d1 d2).
Proof.
  intros Hp Hb H1 H2. unfold choose. eapply rr_bind; [apply chunk_mask; exact H1|]. intros c' c Hc.
  eapply rr_bind with (Q := eq).
  - rewrite (rp_width Hp), (rb_len Hb), (rb_eol Hb). destruct (_ <=? _)%N; [|apply rr_ok; auto].
    apply fits_mask; [apply Hc|apply Hb].
  - intros ? [] ->; [apply rr_ok; auto|apply chunk_mask; auto].
Qed.

Definition steps {S T} (Q : S -> S -> Prop) (QT : T -> T -> Prop) (a b : step S T) : Prop :=
  match a, b with Next x, Next y => Q x y | Done x, Done y => QT x y | _, _ => False end.

Lemma expand_first_mask n p' p b' b c' c : rp p' p -> rb b' b -> rk c' c ->
  rr rpb (expand_first n p' b' c') (expand_first n p b c).
Proof.
  intros Hp Hb Hc. unfold expand_first.
  apply rr_loop with (Q := fun (s' s : list chunk * printer * block) =>
    Forall2 rk (fst (fst s')) (fst (fst s)) /\ rp (snd (fst s')) (snd (fst s)) /\ rb (snd s') (snd s)); [|simpl; auto].
  clear - HR. intros [[st' p'] b'] [[st p] b] (Hs & Hp & Hb). simpl in *.
  inversion Hs as [|x' x l' l Hx Hl]; subst; cbn [expand_first_body].
  - apply rr_ok. split; auto.
  - destruct Hx as [Hx Hi].
    destruct (ck_note x') eqn:E1, (ck_note x) eqn:E2; simpl in Hx; try contradiction.
    + apply rr_ok; simpl; auto 12.
    + apply rr_ok; simpl; split; auto; split; auto; apply set_chunks_mask; auto; constructor; [split; [rewrite E1, E2; auto|auto]|apply Hb].
    + subst. eapply rr_bind; [apply block_new_mask; apply Hb|]. intros nb' nb Hnb. apply rr_ok; simpl. split; auto. split; [apply push_next_mask; auto|apply set_chunks_mask; auto].
    + apply rr_ok; simpl; split; auto; split; auto; apply set_chunks_mask; auto; constructor; [split; [rewrite E1, E2; auto|auto]|apply Hb].
    + destruct Hx as [Ha Hb2]. eapply rr_bind; [apply chunk_mask; exact Ha|]. intros k1' k1 Hk1.
      eapply rr_bind; [apply chunk_mask; exact Hb2|]. intros k2' k2 Hk2. apply rr_ok; simpl; auto 12.
    + apply rr_ok; simpl; split; auto; split; auto; apply set_chunks_mask; auto; constructor; [split; [rewrite E1, E2; auto|auto]|apply Hb].
    + apply rr_ok; simpl; split; auto; split; auto; apply set_chunks_mask; auto; constructor; [split; [rewrite E1, E2; auto|auto]|apply Hb].
    + apply rr_ok; simpl; split; auto; split; auto; apply set_chunks_mask; auto; constructor; [split; [rewrite E1, E2; auto|auto]|apply Hb].
Qed.

Lemma Forall2_length {A B} (P : A -> B -> Prop) l' l : Forall2 P l' l -> length l' = length l.
Proof. induction 1; simpl; auto. Qed.

Lemma Forall2_rev {A B} (P : A -> B -> Prop) l' l : Forall2 P l' l -> Forall2 P (rev l') (rev l).
Proof. induction 1; simpl; auto. apply Forall2_app; auto. Qed.

Lemma expand_last_mask n p' p b' b c' c : rp p' p -> rb b' b -> rk c' c ->
  rr rpb (expand_last n p' b' c') (expand_last n p b c).
Proof.
  intros Hp Hb Hc. unfold expand_last.
  apply rr_bind with (Q := fun (s' s : list chunk * printer * block) =>
    Forall2 rk (fst (fst s')) (fst (fst s)) /\ rp (snd (fst s')) (snd (fst s)) /\ rb (snd s') (snd s)).
  2: { intros [[st' q'] e'] [[st q] e] (Hs & Hq & He). simpl in *. apply rr_ok. split; auto. simpl.
       apply set_chunks_mask; auto. apply Forall2_app; [apply Forall2_rev; auto|apply He]. }
  apply rr_loop with (Q := fun (s' s : list chunk * list chunk * printer * block) =>
    Forall2 rk (fst (fst (fst s'))) (fst (fst (fst s))) /\ Forall2 rk (snd (fst (fst s'))) (snd (fst (fst s))) /\
    rp (snd (fst s')) (snd (fst s)) /\ rb (snd s') (snd s)); [|simpl; auto].
  clear - HR. intros [[[cs' st'] p'] b'] [[[cs st] p] b] (Hcs & Hs & Hp & Hb). simpl in *.
  inversion Hs as [|x' x l' l Hx Hl]; subst; cbn [expand_last_body].
  - apply rr_ok. split; auto.
  - pose proof Hx as [Hx2 Hi].
    destruct (ck_note x') eqn:E1, (ck_note x) eqn:E2; simpl in Hx2; try contradiction.
    + apply rr_ok; simpl; auto 12.
    + apply rr_ok; simpl; auto 12.
    + subst. eapply rr_bind; [apply block_new_mask; apply Hb|]. intros nb' nb Hnb. apply rr_ok; simpl. split; auto. split; auto. split; auto.
      apply push_prev_mask; auto. destruct Hb. split; simpl; auto. apply Forall2_rev; auto.
    + apply rr_ok; simpl; auto 12.
    + destruct Hx2 as [Ha Hb2]. eapply rr_bind; [apply chunk_mask; exact Hb2|]. intros k1' k1 Hk1.
      eapply rr_bind; [apply chunk_mask; exact Ha|]. intros k2' k2 Hk2. apply rr_ok; simpl; auto 10.
    + apply rr_ok; simpl; auto 12.
    + apply rr_ok; simpl; auto 12.
    + apply rr_ok; simpl; auto 12.
Qed.

(** All the loops over the chunks of a block have the same shape. *)
Ltac chunk_case Hb :=
  let Hk := fresh "Hk" in pose proof (rb_chunks Hb) as Hk;
  let x' := fresh "x'" in let x := fresh "x" in let Hx := fresh "Hx" in let Hl := fresh "Hl" in
  let E1 := fresh "E" in let E2 := fresh "E" in
  inversion Hk as [E1 E2|x' x ? ? Hx Hl E1 E2]; subst.

Lemma print_next_mask n s' s : rpb s' s ->
  rr (steps rpb rpb) (print_next_body n s') (print_next_body n s).
Proof.
  destruct s' as [p' b'], s as [p b]. intros [Hp Hb]. simpl in *. unfold print_next_body.
  chunk_case Hb; [apply rr_ok; split; auto|].
  pose proof Hx as [Hx2 Hi]. pose proof (set_chunks_mask Hb Hl) as Hb2.
  destruct (ck_note x') eqn:E1, (ck_note x) eqn:E2; simpl in Hx2; try contradiction; try apply rr_fail.
  - apply rr_ok; split; auto. apply set_eol_mask; auto.
  - subst. eapply rr_bind; [apply push_text_mask; eauto|]. intros; apply rr_ok; split; auto.
  - destruct Hx2. eapply rr_bind; [apply choose_mask; eauto|]. intros. eapply rr_bind; [apply expand_first_mask; eauto|]. intros; apply rr_ok; auto.
  - destruct Hx2. eapply rr_bind; [apply chunk_mask; eauto|]. intros. eapply rr_bind; [apply expand_first_mask; eauto|]. intros; apply rr_ok; auto.
  - apply rr_ok; split; auto.
Qed.

Lemma print_prev_mask n s' s : rpb s' s ->
  rr (steps rpb rpb) (print_prev_body n s') (print_prev_body n s).
Proof.
  destruct s' as [p' b'], s as [p b]. intros [Hp Hb]. simpl in *. unfold print_prev_body.
  chunk_case Hb; [apply rr_ok; split; auto|].
  pose proof Hx as [Hx2 Hi]. pose proof (set_chunks_mask Hb Hl) as Hb2.
  destruct (ck_note x') eqn:E1, (ck_note x) eqn:E2; simpl in Hx2; try contradiction; try apply rr_fail.
  - apply rr_ok; split; auto. apply set_eol_mask; auto.
  - subst. eapply rr_bind; [apply push_text_mask; eauto|]. intros; apply rr_ok; split; auto.
  - destruct Hx2. eapply rr_bind; [apply choose_mask; eauto|]. intros. eapply rr_bind; [apply expand_last_mask; eauto|]. intros; apply rr_ok; auto.
  - destruct Hx2. eapply rr_bind; [apply chunk_mask; eauto|]. intros. eapply rr_bind; [apply expand_last_mask; eauto|]. intros; apply rr_ok; auto.
  - apply rr_ok; split; auto.
Qed.

Lemma seek_end_mask_body n k s' s : rpb s' s ->
  rr (steps rpb rpb) (seek_end_body n k s') (seek_end_body n k s).
Proof.
  destruct s' as [p' b'], s as [p b]. intros [Hp Hb]. simpl in *. unfold seek_end_body.
  rewrite (Forall2_length (rb_chunks Hb)). destruct (_ <=? _); [apply rr_ok; split; auto|].
  chunk_case Hb; [apply rr_fail|].
  pose proof Hx as [Hx2 Hi]. pose proof (set_chunks_mask Hb Hl) as Hb2.
  destruct (ck_note x') eqn:E1, (ck_note x) eqn:E2; simpl in Hx2; try contradiction; try apply rr_fail.
  - apply rr_ok; split; auto. apply set_eol_mask; auto.
  - subst. eapply rr_bind; [apply push_text_mask; eauto|]. intros; apply rr_ok; split; auto.
  - destruct Hx2. eapply rr_bind; [apply choose_mask; eauto|]. intros. eapply rr_bind; [apply expand_last_mask; eauto|]. intros; apply rr_ok; auto.
  - destruct Hx2. eapply rr_bind; [apply chunk_mask; eauto|]. intros. eapply rr_bind; [apply expand_last_mask; eauto|]. intros; apply rr_ok; auto.
  - apply rr_ok; split; auto.
Qed.

Definition rsum (a' a : printer + printer * block) : Prop :=
  match a', a with inl x, inl y => rp x y | inr x, inr y => rpb x y | _, _ => False end.

Lemma seek_mark_mask_body n id s' s : rpb s' s ->
  rr (steps rpb rsum) (seek_mark_body n id s') (seek_mark_body n id s).
Proof.
  destruct s' as [p' b'], s as [p b]. intros [Hp Hb]. simpl in *. unfold seek_mark_body.
  chunk_case Hb; [apply rr_ok; split; auto|].
  pose proof Hx as [Hx2 Hi]. pose proof (set_chunks_mask Hb Hl) as Hb2.
  destruct (ck_note x') eqn:E1, (ck_note x) eqn:E2; simpl in Hx2; try contradiction; try apply rr_fail.
  - apply rr_ok; split; auto. apply set_eol_mask; auto.
  - subst. eapply rr_bind; [apply push_text_mask; eauto|]. intros; apply rr_ok; split; auto.
  - destruct Hx2. eapply rr_bind; [apply choose_mask; eauto|]. intros. eapply rr_bind; [apply expand_first_mask; eauto|]. intros; apply rr_ok; auto.
  - destruct Hx2. eapply rr_bind; [apply chunk_mask; eauto|]. intros. eapply rr_bind; [apply expand_first_mask; eauto|]. intros; apply rr_ok; auto.
  - rewrite Hi. destruct (id_eqb (ck_id x) id); apply rr_ok; [apply push_next_mask; auto|split; auto].
Qed.

Lemma seek_text_mask_body n k s' s : rpb s' s ->
  rr (steps rpb rsum) (seek_text_body n k s') (seek_text_body n k s).
Proof.
  destruct s' as [p' b'], s as [p b]. intros [Hp Hb]. simpl in *. unfold seek_text_body.
  chunk_case Hb; [apply rr_ok; split; auto|].
  pose proof Hx as [Hx2 Hi]. pose proof (set_chunks_mask Hb Hl) as Hb2.
  destruct (ck_note x') eqn:E1, (ck_note x) eqn:E2; simpl in Hx2; try contradiction; try apply rr_fail.
  - apply rr_ok; split; auto. apply set_eol_mask; auto.
  - subst. destruct (tx_from_text t0).
    + destruct (split_at t0 k) as [tl tr]. eapply rr_bind; [apply push_text_mask; eauto|]. intros e' e He. apply rr_ok. apply push_next_mask; auto.
      apply set_chunks_mask; auto. constructor; [|apply He]. split; simpl; auto.
    + eapply rr_bind; [apply push_text_mask; eauto|]. intros; apply rr_ok; split; auto.
  - destruct Hx2. eapply rr_bind; [apply choose_mask; eauto|]. intros. eapply rr_bind; [apply expand_first_mask; eauto|]. intros; apply rr_ok; auto.
  - destruct Hx2. eapply rr_bind; [apply chunk_mask; eauto|]. intros. eapply rr_bind; [apply expand_first_mask; eauto|]. intros; apply rr_ok; auto.
  - apply rr_ok; split; auto.
Qed.

Definition rse (a' a : seek_child_end) : Prop :=
  match a', a with
  | ScFound p' d', ScFound p d => rp p' p /\ rd d' d
  | ScBreak p', ScBreak p | ScExhausted p', ScExhausted p => rp p' p
  | _, _ => False
  end.

Lemma seek_child_mask_body n id k s' s : rpb s' s ->
  rr (steps rpb rse) (seek_child_body n id k s') (seek_child_body n id k s).
Proof.
  destruct s' as [p' b'], s as [p b]. intros [Hp Hb]. simpl in *. unfold seek_child_body.
  chunk_case Hb; [apply rr_ok; auto|].
  pose proof Hx as [Hx2 Hi]. pose proof (set_chunks_mask Hb Hl) as Hb2.
  destruct (ck_note x') eqn:E1, (ck_note x) eqn:E2; simpl in Hx2; try contradiction; try apply rr_fail.
  - apply rr_ok; split; auto. apply set_eol_mask; auto.
  - subst. eapply rr_bind; [apply push_text_mask; eauto|]. intros; apply rr_ok; split; auto.
  - destruct Hx2. eapply rr_bind; [apply choose_mask; eauto|]. intros. eapply rr_bind; [apply expand_first_mask; eauto|].
    intros [q' e'] [q e] [Hq He]. apply rr_ok. apply push_next_mask; auto.
  - destruct Hx2 as [-> Hd]. rewrite Hi. destruct (id_eqb (ck_id x) id && Nat.eqb i0 k).
    + apply rr_ok. split; auto. apply push_next_mask; auto.
    + eapply rr_bind; [apply chunk_mask; eauto|]. intros. eapply rr_bind; [apply expand_first_mask; eauto|].
      intros [q' e'] [q e] [Hq He]. apply rr_ok. apply push_next_mask; auto.
  - apply rr_ok; split; auto.
Qed.

Lemma set_next_mask p' p bs' bs : rp p' p -> Forall2 rb bs' bs -> rp (set_next p' bs') (set_next p bs).
Proof. intros [P1 P2 P3] H. split; simpl; auto. Qed.
Lemma set_prev_mask p' p bs' bs : rp p' p -> Forall2 rb bs' bs -> rp (set_prev p' bs') (set_prev p bs).
Proof. intros [P1 P2 P3] H. split; simpl; auto. Qed.

Lemma loop_steps {S T} (Q : S -> S -> Prop) (QT : T -> T -> Prop) body' body n :
  (forall s' s, Q s' s -> rr (steps Q QT) (body' s') (body s)) ->
  forall s' s, Q s' s -> rr QT (loop n body' s') (loop n body s).
Proof. intros H. apply rr_loop. exact H. Qed.

Definition rpl (a' a : printer * option line) : Prop := rp (fst a') (fst a) /\ snd a' = snd a.

Lemma block_print_mask b' b : rb b' b -> rr eq (block_print b') (block_print b).
Proof.
  intros Hb. unfold block_print. chunk_case Hb; [|apply rr_fail]. apply rr_ok. apply Hb.
Qed.

Lemma print_next_line_mask n p' p : rp p' p -> rr rpl (print_next_line n p') (print_next_line n p).
Proof.
  intros Hp. unfold print_next_line. pose proof (rp_next Hp) as Hn. inversion Hn as [E1 E2|b' b bs' bs Hb Hbs E1 E2]; [apply rr_ok; split; auto|].
  eapply rr_bind with (Q := rpb).
  - apply loop_steps with (Q := rpb); [intros; apply print_next_mask; auto|]. split; auto. apply set_next_mask; auto.
  - intros [q' e'] [q e] [Hq He]. simpl in *. eapply rr_bind; [apply block_print_mask; eauto|]. intros ? l ->. apply rr_ok; split; auto.
Qed.

Lemma print_prev_line_mask n p' p : rp p' p -> rr rpl (print_prev_line n p') (print_prev_line n p).
Proof.
  intros Hp. unfold print_prev_line. pose proof (rp_prev Hp) as Hn. inversion Hn as [E1 E2|b' b bs' bs Hb Hbs E1 E2]; [apply rr_ok; split; auto|].
  eapply rr_bind with (Q := rpb).
  - apply loop_steps with (Q := rpb); [intros; apply print_prev_mask; auto|]. split; auto. apply set_prev_mask; auto.
  - intros [q' e'] [q e] [Hq He]. simpl in *. eapply rr_bind; [apply block_print_mask; eauto|]. intros ? l ->. apply rr_ok; split; auto.
Qed.

Lemma relevant_mask id k c' c : rk c' c -> relevant_chunk id k c' = relevant_chunk id k c.
Proof.
  intros [H1 H2]. unfold relevant_chunk. rewrite H2.
  destruct (ck_note c'), (ck_note c); simpl in H1; try contradiction; auto. destruct H1 as [-> _]. reflexivity.
Qed.

Lemma walk_mask id k n' n : Forall2 rb n' n -> forall p' p, Forall2 rb p' p ->
  Forall2 rb (fst (walk id k p' n')) (fst (walk id k p n)) /\ Forall2 rb (snd (walk id k p' n')) (snd (walk id k p n)).
Proof.
  induction 1 as [|b' b l' l Hb Hl IH]; intros p' p Hp; simpl; auto.
  assert (E : contains_relevant_chunk id k b' = contains_relevant_chunk id k b).
  { unfold contains_relevant_chunk. induction (rb_chunks Hb) as [|c' c cs' cs Hc _ IHc]; simpl; auto.
    rewrite (relevant_mask _ _ Hc), IHc. reflexivity. }
  rewrite E. destruct (contains_relevant_chunk id k b); simpl; auto.
Qed.

Definition rpc (a' a : printer * chunk) : Prop := rp (fst a') (fst a) /\ rk (snd a') (snd a).

Lemma seek_child_mask n p' p c' c i : rp p' p -> rk c' c -> rr rpc (seek_child n p' c' i) (seek_child n p c i).
Proof.
  intros Hp Hc. unfold seek_child. pose proof (rp_next Hp) as Hn. inversion Hn as [E1 E2|b' b bs' bs Hb Hbs E1 E2]; [apply rr_fail|].
  eapply rr_bind; [apply expand_first_mask; eauto; apply set_next_mask; auto|]. intros [q' e'] [q e] [Hq He]. simpl in Hq, He.
  rewrite (proj2 Hc). apply loop_steps with (Q := rp); [|apply push_next_mask; auto].
  clear - HR. intros p' p Hp. unfold seek_child_outer.
  destruct (walk_mask (ck_id c) i (rp_next Hp) (rp_prev Hp)) as [W1 W2].
  destruct (walk (ck_id c) i (pr_prev p') (pr_next p')) as [pv' nx'], (walk (ck_id c) i (pr_prev p) (pr_next p)) as [pv nx]. simpl in W1, W2.
  inversion W2 as [|b' b bs' bs Hb Hbs]; subst; [apply rr_fail|].
  eapply rr_bind with (Q := rse).
  - apply loop_steps with (Q := rpb); [intros; apply seek_child_mask_body; auto|]. split; auto. split; simpl; auto. apply Hp.
  - intros [q' d'|q'|q'] [q d|q|q] H; simpl in H; try contradiction.
    + destruct H as [H1 H2]. eapply rr_bind; [apply chunk_mask; eauto|]. intros x' x Hx. apply rr_ok. split; auto.
    + apply rr_ok. exact H.
    + apply rr_ok. exact H.
Qed.

Lemma seek_path_mask n path : forall p' p c' c, rp p' p -> rk c' c -> rr rpc (seek_path n p' c' path) (seek_path n p c path).
Proof.
  induction path as [|i path IH]; intros p' p c' c Hp Hc; simpl; [apply rr_ok; split; auto|].
  eapply rr_bind; [apply seek_child_mask; eauto|]. intros [q' e'] [q e] [Hq He]. apply IH; auto.
Qed.

Lemma seek_mask n p' p d' d path ft st : rp p' p -> R d' d ->
  rr rp (seek n p' d' path ft st) (seek n p d path ft st).
Proof.
  intros Hp Hd. destruct (HR Hd) as (H1 & H2 & H3 & H4 & H5 & _).
  unfold seek, with_optional_style.
  eapply rr_bind with (Q := rd).
  { eapply rr_bind; [apply rr_lift; exact H2|]. intros ? nt ->. eapply rr_bind; [apply rr_lift; exact H5|]. intros ? s ->.
    apply rr_ok. split; simpl; auto. }
  intros e' e He. eapply rr_bind; [apply chunk_mask; eauto|]. intros c' c Hc.
  eapply rr_bind; [apply seek_path_mask; eauto|]. clear - HR. intros [p' c'] [p c] [Hp Hc]. simpl in Hp, Hc.
  pose proof (rp_next Hp) as Hn. destruct ft; [unfold seek_start|unfold seek_end|unfold seek_mark|unfold seek_text];
    inversion Hn as [E1 E2|b' b bs' bs Hb Hbs E1 E2]; try apply rr_fail.
  - eapply rr_bind; [apply expand_first_mask; eauto; apply set_next_mask; auto|]. intros [q' e'] [q e] [Hq He]. apply rr_ok. apply push_next_mask; auto.
  - rewrite (Forall2_length (rb_chunks Hb)).
    eapply rr_bind; [apply expand_last_mask; eauto; apply set_next_mask; auto|]. intros q' q Hq.
    eapply rr_bind with (Q := rpb).
    + apply loop_steps with (Q := rpb); [intros; apply seek_end_mask_body; auto|auto].
    + intros [a' e'] [a e] [Ha He]. apply rr_ok. apply push_next_mask; auto.
  - eapply rr_bind; [apply expand_first_mask; eauto; apply set_next_mask; auto|]. intros [q' e'] [q e] [Hq He].
    rewrite (proj2 Hc). apply loop_steps with (Q := rp); [|apply push_next_mask; auto].
    clear - HR. intros p' p Hp. unfold seek_mark_outer.
    pose proof (rp_next Hp) as Hn. inversion Hn as [E1 E2|b' b bs' bs Hb Hbs E1 E2]; try apply rr_fail.
    eapply rr_bind with (Q := rsum).
    + apply loop_steps with (Q := rpb); [intros; apply seek_mark_mask_body; auto|]. split; auto. apply set_next_mask; auto.
    + intros [a'|[a' e']] [a|[a e]] Ha; simpl in Ha; try contradiction; apply rr_ok; auto. apply push_prev_mask; apply Ha.
  - eapply rr_bind; [apply expand_first_mask; eauto; apply set_next_mask; auto|]. intros [q' e'] [q e] [Hq He].
    apply loop_steps with (Q := rp); [|apply push_next_mask; auto].
    clear - HR. intros p' p Hp. unfold seek_text_outer.
    pose proof (rp_next Hp) as Hn. inversion Hn as [E1 E2|b' b bs' bs Hb Hbs E1 E2]; try apply rr_fail.
    eapply rr_bind with (Q := rsum).
    + apply loop_steps with (Q := rpb); [intros; apply seek_text_mask_body; auto|]. split; auto. apply set_next_mask; auto.
    + intros [a'|[a' e']] [a|[a e]] Ha; simpl in Ha; try contradiction; apply rr_ok; auto. apply push_prev_mask; apply Ha.
Qed.

Definition rres (a' a : printer * focused_line * printer) : Prop :=
  rp (fst (fst a')) (fst (fst a)) /\ snd (fst a') = snd (fst a) /\ rp (snd a') (snd a).

Lemma pretty_print_mask n d' d w path ft st : R d' d ->
  rr rres (pretty_print n d' w path ft st) (pretty_print n d w path ft st).
Proof.
  intros Hd. unfold pretty_print. eapply rr_bind with (Q := rp).
  { unfold printer_new. eapply rr_bind; [apply block_new_mask; constructor|]. intros b' b Hb. apply rr_ok. split; simpl; auto. }
  intros p0' p0 Hp0. eapply rr_bind; [apply seek_mask; eauto|]. intros p' p Hp.
  pose proof (rp_next Hp) as Hn. inversion Hn as [E1 E2|b' b bs' bs Hb Hbs E1 E2]; [apply rr_fail|].
  eapply rr_bind; [apply print_next_line_mask; eauto|]. intros [q' ol'] [q ol] [Hq E]. simpl in Hq, E. subst ol'.
  destruct ol as [l|]; [|apply rr_fail]. rewrite (rb_segs Hb). destruct (_ <=? _); [|apply rr_fail].
  apply rr_ok. split; [split; simpl; auto; apply Hq|]. split; [reflexivity|]. split; simpl; auto. apply Hq.
Qed.

Lemma take_up_mask n k : forall p' p, rp p' p -> rr eq (take_lines (up_next n) k p') (take_lines (up_next n) k p).
Proof.
  induction k as [|k IH]; intros p' p Hp; simpl; [apply rr_ok; auto|].
  eapply rr_bind; [apply print_prev_line_mask; eauto|]. intros [q' ol'] [q ol] [Hq E]. simpl in Hq, E. subst ol'.
  destruct ol; [|apply rr_ok; auto]. eapply rr_bind; [apply IH; auto|]. intros ? ls ->. apply rr_ok. auto.
Qed.

Lemma take_down_mask n k : forall p' p, rp p' p -> rr eq (take_lines (down_next n) k p') (take_lines (down_next n) k p).
Proof.
  induction k as [|k IH]; intros p' p Hp; simpl; [apply rr_ok; auto|].
  eapply rr_bind; [apply print_next_line_mask; eauto|]. intros [q' ol'] [q ol] [Hq E]. simpl in Hq, E. subst ol'.
  destruct ol; [|apply rr_ok; auto]. eapply rr_bind; [apply IH; auto|]. intros ? ls ->. apply rr_ok. auto.
Qed.

Lemma window_mask n d' d w path ft st ku kd : R d' d ->
  rr eq (window n d' w path ft st ku kd) (window n d w path ft st ku kd).
Proof.
  intros Hd. unfold window. eapply rr_bind; [apply pretty_print_mask; eauto|].
  intros [[up' fl'] down'] [[up fl] down] (H1 & H2 & H3). simpl in H1, H2, H3. subst fl'.
  eapply rr_bind; [apply take_up_mask; eauto|]. intros ? ups ->.
  eapply rr_bind; [apply take_down_mask; eauto|]. intros ? downs ->. apply rr_ok. reflexivity.
Qed.

(** Collecting everything. *)
Lemma collect_up_mask n p' p : rp p' p -> rr eq (collect n (up_next n) p') (collect n (up_next n) p).
Proof.
  intros Hp. unfold collect. apply rr_loop with (Q := fun (a' a : printer * list line) => rp (fst a') (fst a) /\ snd a' = snd a); [|simpl; auto].
  clear - HR. intros [p' acc'] [p acc] [Hp E]. simpl in Hp, E. subst acc'. unfold collect_body.
  eapply rr_bind; [apply print_prev_line_mask; eauto|]. intros [q' ol'] [q ol] [Hq E]. simpl in Hq, E. subst ol'.
  destruct ol; apply rr_ok; simpl; auto 12.
Qed.

Lemma collect_down_mask n p' p : rp p' p -> rr eq (collect n (down_next n) p') (collect n (down_next n) p).
Proof.
  intros Hp. unfold collect. apply rr_loop with (Q := fun (a' a : printer * list line) => rp (fst a') (fst a) /\ snd a' = snd a); [|simpl; auto].
  clear - HR. intros [p' acc'] [p acc] [Hp E]. simpl in Hp, E. subst acc'. unfold collect_body.
  eapply rr_bind; [apply print_next_line_mask; eauto|]. intros [q' ol'] [q ol] [Hq E]. simpl in Hq, E. subst ol'.
  destruct ol; apply rr_ok; simpl; auto 12.
Qed.

Lemma rr_eq_result {A} (x' x : pres A) : rr eq x' x -> is_doc_error x' \/ x' = x.
Proof.
  unfold rr, is_doc_error. destruct x' as [a|[[]| |]]; intros H; eauto.
  destruct H as (? & -> & ->). auto.
Qed.

End Mask.
