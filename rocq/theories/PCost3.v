(** Amortized bounds: the loops over the chunks of a block. *)
From Verif Require Export PCost2.

Set Implicit Arguments.

Section Bounds.
Context {pd : PrettyDoc} {env : Env}.
Variables K T : nat.
Hypothesis HK : 4 * T + 20 <= K.
Notation pot := (pot K T).
Notation expander := (expander K T).

Lemma first_expander n : expander (expand_first n) (expand_first_cost n).
Proof. intros p b c m x z a. apply expand_first_paid; auto. Qed.
Lemma last_expander n : expander (expand_last n) (expand_last_cost n).
Proof. intros p b c m x z a. apply expand_last_paid; auto. Qed.

Lemma chunk_cost_pos n cost s : 1 <= chunk_cost n cost s.
Proof. clear HK. destruct s. simpl. lia. Qed.

(** Handling of a chunk, in all the loops: the next state, with weight for one more step. *)
Lemma chunk_cost_flat n cost p b c cs : bl_chunks b = c :: cs ->
  match ck_note c with CChild _ _ | CChoice _ _ => False | _ => True end -> chunk_cost n cost (p, b) = 1.
Proof. intros E. unfold chunk_cost. rewrite E. destruct (ck_note c); try contradiction; auto. Qed.

Ltac flat_case E := rewrite (chunk_cost_flat _ _ _ _ E) by (match goal with H : ck_note _ = _ |- _ => rewrite H; exact I end).

Lemma pot_next {A} (Z : nat -> A -> Prop) m m' e phi c (a : A) : K * m + e <= phi -> m <= T -> S m' <= m -> Z m' a -> c <= K ->
  exists phi', pot Z e a phi' /\ c + phi' <= phi.
Proof.
  intros H1 H2 H3 H4 H5. pose proof (pay K H3). exists (K * m' + e). split; [|lia]. exists m'. split; auto. lia.
Qed.

Lemma print_next_paid n s phi : pot stz 1 s phi ->
  paid (chunk_cost n (expand_first_cost n) s) (print_next_body n s)
    (fun x p => match x with Next s' => pot stz 1 s' p | Done r => pot stz 0 r p end) phi.
Proof.
  destruct s as [p b]. intros (m & Hs & HT & Hphi). unfold print_next_body.
  destruct (bl_chunks b) as [|c cs] eqn:E.
  - exists (K * m). split; [exists m; split; auto; lia|]. unfold chunk_cost. rewrite E. lia.
  - destruct (drop_paid Hs E) as (m' & Hm & H1 & H2 & H3). pose proof (pay K Hm).
    destruct (ck_note c) as [| |ind|t|l r|o1 o2|i d|] eqn:En.
    1,3,5: flat_case E; simpl; lia.
    + flat_case E. eapply pot_next; eauto; lia.
    + flat_case E. destruct (push_text (set_chunks b cs) t) as [b'|] eqn:Et; cbn [bind paid]; [|lia]. apply pot_next with (m := m) (m' := m'); auto; [apply (H3 _ _ Et)|lia].
    + eapply choice_paid; eauto; [apply first_expander|]. intros s phi' (m2 & S1 & S2 & S3). exists phi'. split; [|lia]. exists m2. split; auto. lia.
    + eapply child_paid; eauto; [apply first_expander|]. intros s phi' (m2 & S1 & S2 & S3). exists phi'. split; [|lia]. exists m2. split; auto. lia.
    + flat_case E. eapply pot_next; eauto; lia.
Qed.

Lemma print_prev_paid n s phi : pot stz 1 s phi ->
  paid (chunk_cost n (expand_last_cost n) s) (print_prev_body n s)
    (fun x p => match x with Next s' => pot stz 1 s' p | Done r => pot stz 0 r p end) phi.
Proof.
  destruct s as [p b]. intros (m & Hs & HT & Hphi). unfold print_prev_body.
  destruct (bl_chunks b) as [|c cs] eqn:E.
  - exists (K * m). split; [exists m; split; auto; lia|]. unfold chunk_cost. rewrite E. lia.
  - destruct (drop_paid Hs E) as (m' & Hm & H1 & H2 & H3). pose proof (pay K Hm).
    destruct (ck_note c) as [| |ind|t|l r|o1 o2|i d|] eqn:En.
    1,3,5: flat_case E; simpl; lia.
    + flat_case E. eapply pot_next; eauto; lia.
    + flat_case E. destruct (push_text (set_chunks b cs) t) as [b'|] eqn:Et; cbn [bind paid]; [|lia]. apply pot_next with (m := m) (m' := m'); auto; [apply (H3 _ _ Et)|lia].
    + eapply choice_paid; eauto; [apply last_expander|]. intros s phi' (m2 & S1 & S2 & S3). exists phi'. split; [|lia]. exists m2. split; auto. lia.
    + eapply child_paid; eauto; [apply last_expander|]. intros s phi' (m2 & S1 & S2 & S3). exists phi'. split; [|lia]. exists m2. split; auto. lia.
    + flat_case E. eapply pot_next; eauto; lia.
Qed.

Lemma seek_end_body_paid n k s phi : pot stz 1 s phi ->
  paid (if Nat.leb (length (bl_chunks (snd s))) k then 1 else chunk_cost n (expand_last_cost n) s) (seek_end_body n k s)
    (fun x p => match x with Next s' => pot stz 1 s' p | Done r => pot stz 0 r p end) phi.
Proof.
  destruct s as [p b]. intros (m & Hs & HT & Hphi). unfold seek_end_body. cbn [snd].
  destruct (length (bl_chunks b) <=? k).
  { exists (K * m). split; [exists m; split; auto; lia|]. lia. }
  destruct (bl_chunks b) as [|c cs] eqn:E.
  - unfold chunk_cost. rewrite E. simpl. lia.
  - destruct (drop_paid Hs E) as (m' & Hm & H1 & H2 & H3). pose proof (pay K Hm).
    destruct (ck_note c) as [| |ind|t|l r|o1 o2|i d|] eqn:En.
    1,3,5: flat_case E; simpl; lia.
    + flat_case E. eapply pot_next; eauto; lia.
    + flat_case E. destruct (push_text (set_chunks b cs) t) as [b'|] eqn:Et; cbn [bind paid]; [|lia]. apply pot_next with (m := m) (m' := m'); auto; [apply (H3 _ _ Et)|lia].
    + eapply choice_paid; eauto; [apply last_expander|]. intros s phi' (m2 & S1 & S2 & S3). exists phi'. split; [|lia]. exists m2. split; auto. lia.
    + eapply child_paid; eauto; [apply last_expander|]. intros s phi' (m2 & S1 & S2 & S3). exists phi'. split; [|lia]. exists m2. split; auto. lia.
    + flat_case E. eapply pot_next; eauto; lia.
Qed.

Lemma stz_push m p b : stz m (p, b) -> pz (2 + m) (push_next p b).
Proof. clear HK.
  intros (x & z & Hp & Hz & Hle). eapply pz_mono; [eapply pz_push_next; eauto|]. simpl in *. lia.
Qed.
Lemma stz_push_prev m p b : stz m (p, b) -> pz (1 + m) (push_prev p b).
Proof. clear HK.
  intros (x & z & Hp & Hz & Hle). eapply pz_mono; [eapply pz_push_prev; eauto|]. simpl in *. lia.
Qed.

(** Outside of the loops over a block, the block itself counts too. *)
Notation ppot := (PCost2.pot K (T + 2) pz).

(** The results of the inner loops of [seek_mark] and [seek_text]: returned
    (the block is back among the next blocks), or at the end of the block. *)
Definition mark_pot (x : printer + printer * block) (phi : nat) : Prop :=
  match x with
  | inl p => ppot 0 p phi
  | inr (p, b) => ppot K (push_prev p b) phi
  end.

(** The block's own weight of two is set aside. *)
Notation rpot := (pot stz (2 * K + 1)).

Lemma rpot_done p b phi : rpot (p, b) phi -> exists phi', mark_pot (inr (p, b)) phi' /\ 1 + phi' <= phi.
Proof.
  intros (m & Hs & HT & Hphi). exists (K * (1 + m) + K). split; [|nia].
  exists (1 + m). split; [apply stz_push_prev; auto|]. lia.
Qed.

Lemma rpot_back p b phi : pot stz (2 * K) (p, b) phi -> ppot 0 (push_next p b) phi.
Proof.
  intros (m & Hs & HT & Hphi). exists (2 + m). split; [apply stz_push; auto|]. split; [lia|nia].
Qed.

Lemma seek_mark_paid n id s phi : rpot s phi ->
  paid (chunk_cost n (expand_first_cost n) s) (seek_mark_body n id s)
    (fun x p => match x with Next s' => rpot s' p | Done r => mark_pot r p end) phi.
Proof.
  destruct s as [p b]. intros Hpot. pose proof Hpot as (m & Hs & HT & Hphi). unfold seek_mark_body.
  destruct (bl_chunks b) as [|c cs] eqn:E.
  - unfold chunk_cost. rewrite E. apply rpot_done; auto.
  - destruct (drop_paid Hs E) as (m' & Hm & H1 & H2 & H3). pose proof (pay K Hm).
    destruct (ck_note c) as [| |ind|t|l r|o1 o2|i d|] eqn:En.
    1,3,5: flat_case E; simpl; lia.
    + flat_case E. eapply pot_next; eauto; lia.
    + flat_case E. destruct (push_text (set_chunks b cs) t) as [b'|] eqn:Et; cbn [bind paid]; [|lia]. apply pot_next with (m := m) (m' := m'); auto; [apply (H3 _ _ Et)|lia].
    + eapply choice_paid; eauto; [apply first_expander|]. intros s phi' (m2 & S1 & S2 & S3). exists phi'. split; [|lia]. exists m2. split; auto. lia.
    + eapply child_paid; eauto; [apply first_expander|]. intros s phi' (m2 & S1 & S2 & S3). exists phi'. split; [|lia]. exists m2. split; auto. lia.
    + flat_case E. destruct (id_eqb (ck_id c) id).
      * exists (K * m' + 2 * K). split; [|lia]. apply rpot_back. exists m'. split; auto. lia.
      * eapply pot_next; eauto; lia.
Qed.

Lemma seek_text_paid n k s phi : rpot s phi ->
  paid (chunk_cost n (expand_first_cost n) s) (seek_text_body n k s)
    (fun x p => match x with Next s' => rpot s' p | Done r => mark_pot r p end) phi.
Proof.
  destruct s as [p b]. intros Hpot. pose proof Hpot as (m & Hs & HT & Hphi). unfold seek_text_body.
  destruct (bl_chunks b) as [|c cs] eqn:E.
  - unfold chunk_cost. rewrite E. apply rpot_done; auto.
  - destruct (drop_paid Hs E) as (m' & Hm & H1 & H2 & H3). pose proof (pay K Hm).
    destruct (ck_note c) as [| |ind|t|l r|o1 o2|i d|] eqn:En.
    1,3,5: flat_case E; simpl; lia.
    + flat_case E. eapply pot_next; eauto; lia.
    + flat_case E. destruct (tx_from_text t).
      * destruct (split_at t k) as [tl tr]. destruct (push_text (set_chunks b cs) tl) as [b'|] eqn:Et; simpl; [|lia].
        destruct (H3 _ _ Et) as [_ Ec].
        exists (K * m + 2 * K). split; [|lia]. apply rpot_back. exists m. split; auto.
        destruct Hs as (x & z & Hx & Hz & Hle). exists x, z. split; auto. split; auto. simpl in *. rewrite Ec.
        rewrite E in Hz. inversion Hz as [|? a m0 ? ? Hw Ha Hcs Hle0]; subst. econstructor; eauto.
        cbn [ck_note]. rewrite En in Hw. inversion Hw; subst. apply wt_leaf; auto.
      * destruct (push_text (set_chunks b cs) t) as [b'|] eqn:Et; cbn [bind paid]; [|lia]. apply pot_next with (m := m) (m' := m'); auto; [apply (H3 _ _ Et)|lia].
    + eapply choice_paid; eauto; [apply first_expander|]. intros s phi' (m2 & S1 & S2 & S3). exists phi'. split; [|lia]. exists m2. split; auto. lia.
    + eapply child_paid; eauto; [apply first_expander|]. intros s phi' (m2 & S1 & S2 & S3). exists phi'. split; [|lia]. exists m2. split; auto. lia.
    + flat_case E. eapply pot_next; eauto; lia.
Qed.

(** The results of the inner loop of [seek_child]. *)
Definition sc_pot (x : seek_child_end) (phi : nat) : Prop :=
  match x with
  | ScFound p d => exists m a, pz m p /\ (forall c, eval d = Ok c -> wt a c) /\ m + a <= T + 2 /\ K * (m + a) + (K - 1) <= phi
  | ScBreak p | ScExhausted p => ppot (T + 5) p phi
  end.

Lemma seek_child_body_paid n id k s phi : rpot s phi ->
  paid (seek_child_body_cost n id k s) (seek_child_body n id k s)
    (fun x p => match x with Next s' => rpot s' p | Done r => sc_pot r p end) phi.
Proof.
  destruct s as [p b]. intros Hpot. pose proof Hpot as (m & Hs & HT & Hphi). unfold seek_child_body, seek_child_body_cost. cbn [snd].
  destruct (bl_chunks b) as [|c cs] eqn:E.
  - exists (K * m + (T + 5)). split; [|lia]. exists m. destruct Hs as (x & z & Hx & Hz & Hle). split; [eapply pz_mono; eauto; simpl in *; lia|]. lia.
  - destruct (drop_paid Hs E) as (m' & Hm & H1 & H2 & H3). pose proof (pay K Hm).
    destruct (ck_note c) as [| |ind|t|l r|o1 o2|i d|] eqn:En.
    1,3,5: flat_case E; simpl; lia.
    + flat_case E. eapply pot_next; eauto; lia.
    + flat_case E. destruct (push_text (set_chunks b cs) t) as [b'|] eqn:Et; cbn [bind paid]; [|lia]. apply pot_next with (m := m) (m' := m'); auto; [apply (H3 _ _ Et)|lia].
    + eapply choice_paid; eauto; [apply first_expander|]. intros [q e] phi' (m2 & S1 & S2 & S3). exists phi'. split; [|lia].
      exists (2 + m2). split; [apply stz_push; auto|]. split; [lia|nia].
    + destruct (id_eqb (ck_id c) id && Nat.eqb i k).
      * destruct Hs as (x & z & Hx & Hz & Hle). simpl in Hx, Hz. rewrite E in Hz.
        inversion Hz as [|? a m0 ? ? Hw Ha Hcs Hle0]; subst. rewrite En in Hw. inversion Hw; subst; try contradiction.
        assert (Hd : S (x + m0 + m'0) <= m) by lia. pose proof (pay K Hd).
        exists (K * (2 + (m0 + x) + m'0) + (K - 1)). split; [|nia].
        exists (2 + (m0 + x)), m'0. split; [apply pz_push_next; auto|]. split; [assumption|lia].
      * eapply child_paid; eauto; [apply first_expander|]. intros [q e] phi' (m2 & S1 & S2 & S3). exists phi'. split; [|lia].
        exists (2 + m2). split; [apply stz_push; auto|]. split; [lia|nia].
    + flat_case E. eapply pot_next; eauto; lia.
Qed.
End Bounds.
