(** Amortized bounds: expanding, choosing, printing lines. *)
From Verif Require Export PCost1.

Set Implicit Arguments.

Section Bounds.
Context {pd : PrettyDoc} {env : Env}.
Variables K T : nat.
Hypothesis HK : 4 * T + 20 <= K.

(** Blocks below weigh two, blocks above one. *)
Definition pz (m : nat) (p : printer) : Prop :=
  exists x y, bsz 1 x (pr_prev p) /\ bsz 2 y (pr_next p) /\ x + y <= m.
Definition stz (m : nat) (s : printer * block) : Prop :=
  exists x z, pz x (fst s) /\ csz z (bl_chunks (snd s)) /\ x + z <= m.

(** A potential: [K] for every unit of weight. *)
Definition pot {A} (Z : nat -> A -> Prop) (e : nat) (a : A) (phi : nat) : Prop :=
  exists m, Z m a /\ m <= T /\ K * m + e <= phi.

Lemma pz_mono m m' p : pz m p -> m <= m' -> pz m' p.
Proof. clear HK. intros (x & y & H1 & H2 & H3) H. exists x, y. repeat split; auto. lia. Qed.

Lemma pay m m' : S m' <= m -> K * m' + K <= K * m.
Proof. clear HK. intros. nia. Qed.

Lemma chunk_new_wt a d x : (forall c, eval d = Ok c -> wt a c) -> chunk_new d = Ok x -> wt a (ck_note x).
Proof.
  intros H. unfold chunk_new. destruct (lift (m_id (dl_doc d))) as [i|]; simpl; [|discriminate].
  destruct (eval d) as [c|] eqn:E; simpl; [|discriminate]. intros [= <-]. simpl. auto.
Qed.

Lemma wt_ge a c : wt a c -> match c with CConcat _ _ => False | _ => True end -> 2 <= a.
Proof. clear HK. intros H. destruct H; intros; try contradiction; lia. Qed.

Lemma paid_chunk_new {B} a d c2 (k : chunk -> pres B) J phi : (forall c, eval d = Ok c -> wt a c) ->
  (forall x, wt a (ck_note x) -> paid (c2 x) (k x) J phi) ->
  paid (after (chunk_new d) c2) (bind (chunk_new d) k) J phi.
Proof. clear HK.
  intros Hd H. destruct (chunk_new d) as [x|f] eqn:E; simpl; [|lia]. apply H. eapply chunk_new_wt; eauto.
Qed.

Lemma pz_push_next p b m z : pz m p -> csz z (bl_chunks b) -> pz (2 + (z + m)) (push_next p b).
Proof. clear HK.
  intros (x & y & H1 & H2 & H3) Hz. exists x, (2 + (z + y)). simpl. repeat split; auto; [econstructor; eauto|lia].
Qed.
Lemma pz_push_prev p b m z : pz m p -> csz z (bl_chunks b) -> pz (1 + (z + m)) (push_prev p b).
Proof. clear HK.
  intros (x & y & H1 & H2 & H3) Hz. exists (1 + (z + x)), y. simpl. repeat split; auto; [econstructor; eauto|lia].
Qed.
Lemma pz_next m p b bs : pz m p -> pr_next p = b :: bs ->
  exists x z, pz x (set_next p bs) /\ csz z (bl_chunks b) /\ 2 + (x + z) <= m.
Proof. clear HK.
  intros (x & y & H1 & H2 & H3) E. rewrite E in H2. inversion H2; subst.
  exists (x + m0), a. repeat split; auto; [|lia]. exists x, m0. simpl. auto.
Qed.
Lemma pz_prev m p b bs : pz m p -> pr_prev p = b :: bs ->
  exists x z, pz x (set_prev p bs) /\ csz z (bl_chunks b) /\ 1 + (x + z) <= m.
Proof. clear HK.
  intros (x & y & H1 & H2 & H3) E. rewrite E in H1. inversion H1; subst.
  exists (m0 + y), a. repeat split; auto; [|lia]. exists m0, y. simpl. auto.
Qed.

Lemma block_new_chunks ind cs b : block_new ind cs = Ok b -> bl_chunks b = cs.
Proof.
  unfold block_new. destruct (sum16 _ _); simpl; [|discriminate]. intros [= <-]. reflexivity.
Qed.

(** ** Expanding *)
Lemma expand_first_paid n p b c m x z a : pz x p -> csz z (bl_chunks b) -> wt a (ck_note c) -> x + z + a <= m -> m <= T ->
  paid (expand_first_cost n p b c) (expand_first n p b c) (pot stz 0) (K * m + 1).
Proof.
  intros Hp Hb Hc Hle HT. unfold expand_first_cost, expand_first.
  apply paid_loop with (I := pot (fun m (s : list chunk * printer * block) =>
    exists x z a, pz x (snd (fst s)) /\ csz z (bl_chunks (snd s)) /\ ssz a (fst (fst s)) /\ x + z + a <= m) 1).
  2: { exists m. split; [|split; [auto|lia]]. exists x, z, a. simpl. repeat split; auto. econstructor; [eauto|apply (ssz_nil 0)|lia]. }
  clear - HK. intros [[stack p] b] phi (m & (x & z & a & Hp & Hb & Hs & Hle) & HT & Hphi). simpl in Hp, Hb, Hs.
  destruct Hs as [a|a a0 s0 c stack Hc Hs Hle0]; cbn [expand_first_body].
  { exists (K * m). split; [|lia]. exists m. split; [|lia]. exists x, z. simpl. repeat split; auto. lia. }
  assert (Hgo : forall stack' p' b' x' z' a' m', pz x' p' -> csz z' (bl_chunks b') -> ssz a' stack' -> x' + z' + a' <= m' -> S m' <= m ->
    exists phi', pot (fun m (s : list chunk * printer * block) =>
      exists x z a, pz x (snd (fst s)) /\ csz z (bl_chunks (snd s)) /\ ssz a (fst (fst s)) /\ x + z + a <= m) 1 (stack', p', b') phi' /\ 1 + phi' <= phi).
  { clear - HK HT Hphi. intros stack' p' b' x' z' a' m' H1 H2 H3 H4 H5. pose proof (pay H5).
    exists (K * m' + 1). split; [|lia]. exists m'. split; [|lia]. exists x', z', a'. auto. }
  assert (Hpush : match ck_note c with CConcat _ _ => False | _ => True end ->
    exists phi', pot (fun m (s : list chunk * printer * block) =>
      exists x z a, pz x (snd (fst s)) /\ csz z (bl_chunks (snd s)) /\ ssz a (fst (fst s)) /\ x + z + a <= m) 1
       (stack, p, set_chunks b (c :: bl_chunks b)) phi' /\ 1 + phi' <= phi).
  { intros Hn. pose proof (wt_ge Hc Hn) as Hge. destruct a0 as [|[|a0]]; [lia|lia|].
    eapply Hgo with (x' := x) (z' := S a0 + z) (a' := s0) (m' := x + (S a0 + z) + s0); eauto; [|lia].
    econstructor; eauto. lia. }
  destruct (ck_note c) as [| |ind|t|l r|o1 o2|i d|] eqn:En; try (apply Hpush; exact I).
  all: inversion Hc; subst; try contradiction.
  - eapply Hgo with (x' := x) (z' := z) (a' := s0); eauto. lia.
  - destruct (block_new _ (bl_chunks b)) as [nb|] eqn:E; simpl; [|pose proof (@pay m 0 ltac:(lia)); lia].
    apply block_new_chunks in E.
    eapply Hgo with (x' := 2 + (z + x)) (z' := 0) (a' := s0); eauto; [apply pz_push_next; auto; rewrite E; auto|constructor|lia].
  - destruct (chunk_new l) as [cl|] eqn:E1; simpl; [|pose proof (@pay m 0 ltac:(lia)); lia].
    destruct (chunk_new r) as [cr|] eqn:E2; simpl; [|pose proof (@pay m 0 ltac:(lia)); lia].
    eapply Hgo with (x' := x) (z' := z) (a' := mb + (ma + s0)); eauto; [|lia].
    econstructor; [eapply chunk_new_wt; [|exact E2]; eassumption| |apply Nat.le_refl].
    econstructor; [eapply chunk_new_wt; [|exact E1]; eassumption|eauto|apply Nat.le_refl].
Qed.

Lemma expand_last_paid n p b c m x z a : pz x p -> csz z (bl_chunks b) -> wt a (ck_note c) -> x + z + a <= m -> m <= T ->
  paid (expand_last_cost n p b c) (expand_last n p b c) (pot stz 0) (K * m + 1).
Proof.
  intros Hp Hb Hc Hle HT. unfold expand_last_cost, expand_last.
  set (I := fun m (s : list chunk * list chunk * printer * block) =>
    exists x z u a, pz x (snd (fst s)) /\ csz z (bl_chunks (snd s)) /\ csz u (fst (fst (fst s))) /\
      ssz a (snd (fst (fst s))) /\ x + z + u + a <= m).
  set (J := fun m (s : list chunk * printer * block) =>
    exists x z u, pz x (snd (fst s)) /\ csz z (bl_chunks (snd s)) /\ csz u (fst (fst s)) /\ x + z + u <= m).
  assert (H : paid (loop_cost (fun _ => 1) n expand_last_body ([], [c], p, b)) (loop n expand_last_body ([], [c], p, b)) (pot J 0) (K * m + 1)).
  { apply paid_loop with (I := pot I 1).
    2: { exists m. split; [|split; [auto|lia]]. exists x, z, 0, a. simpl. repeat split; auto; [constructor|econstructor; [eauto|apply (ssz_nil 0)|lia]|lia]. }
    clear - HK. intros [[[chunks stack] p] b] phi (m & (x & z & u & a & Hp & Hb & Hu & Hs & Hle) & HT & Hphi). simpl in Hp, Hb, Hu, Hs.
    destruct Hs as [a|a a0 s0 c stack Hc Hs Hle0]; cbn [expand_last_body].
    { exists (K * m). split; [|lia]. exists m. split; [|lia]. exists x, z, u. simpl. repeat split; auto. lia. }
    assert (Hgo : forall chunks' stack' p' b' x' z' u' a' m', pz x' p' -> csz z' (bl_chunks b') -> csz u' chunks' -> ssz a' stack' -> x' + z' + u' + a' <= m' -> S m' <= m ->
      exists phi', pot I 1 (chunks', stack', p', b') phi' /\ 1 + phi' <= phi).
    { clear - HK HT Hphi. intros chunks' stack' p' b' x' z' u' a' m' H1 H2 H3 H4 H5 H6. pose proof (pay H6).
      exists (K * m' + 1). split; [|lia]. exists m'. split; [|lia]. exists x', z', u', a'. auto. }
    assert (Hpush : match ck_note c with CConcat _ _ => False | _ => True end ->
      exists phi', pot I 1 (c :: chunks, stack, p, b) phi' /\ 1 + phi' <= phi).
    { intros Hn. pose proof (wt_ge Hc Hn) as Hge. destruct a0 as [|[|a0]]; [lia|lia|].
      eapply Hgo with (x' := x) (z' := z) (u' := S a0 + u) (a' := s0) (m' := x + z + (S a0 + u) + s0); eauto; [|lia].
      econstructor; eauto. lia. }
    destruct (ck_note c) as [| |ind|t|l r|o1 o2|i d|] eqn:En; try (apply Hpush; exact Logic.I).
    all: inversion Hc; subst; try contradiction.
    - eapply Hgo with (x' := x) (z' := z) (u' := u) (a' := s0); eauto. lia.
    - destruct (block_new _ (bl_chunks b)) as [nb|] eqn:E; simpl; [|pose proof (@pay m 0 ltac:(lia)); lia].
      apply block_new_chunks in E.
      eapply Hgo with (x' := 1 + (u + x)) (z' := z) (u' := 0) (a' := s0); eauto;
        [apply pz_push_prev; auto; apply csz_rev; auto|rewrite E; auto|constructor|lia].
    - destruct (chunk_new r) as [cr|] eqn:E2; simpl; [|pose proof (@pay m 0 ltac:(lia)); lia].
      destruct (chunk_new l) as [cl|] eqn:E1; simpl; [|pose proof (@pay m 0 ltac:(lia)); lia].
      eapply Hgo with (x' := x) (z' := z) (u' := u) (a' := ma + (mb + s0)); eauto; [|lia].
      econstructor; [eapply chunk_new_wt; [|exact E1]; eassumption| |apply Nat.le_refl].
      econstructor; [eapply chunk_new_wt; [|exact E2]; eassumption|eauto|apply Nat.le_refl]. }
  unfold paid in *. destruct (loop n expand_last_body ([], [c], p, b)) as [[[ch q] e]|f]; simpl; auto.
  destruct H as (phi' & (m' & (x' & z' & u' & H1 & H2 & H3 & H4) & H5 & H6) & H7). exists phi'. split; auto.
  exists m'. split; auto. exists x', (u' + z'). simpl in *. repeat split; auto; [|lia]. apply csz_app; auto. apply csz_rev; auto.
Qed.

(** ** Choosing *)
Lemma choose_paid n p b d1 d2 ma mb z : (forall c, eval d1 = Ok c -> wt ma c) -> (forall c, eval d2 = Ok c -> wt mb c) ->
  csz z (bl_chunks b) -> choose_cost n p b d1 d2 <= S (ma + 2 * z) /\
  forall x, choose n p b d1 d2 = Ok x -> wt (Nat.max ma mb) (ck_note x).
Proof. clear HK.
  intros H1 H2 Hz. unfold choose_cost, choose. destruct (chunk_new d1) as [c1|] eqn:E1; simpl; [|split; [lia|discriminate]].
  pose proof (@chunk_new_wt ma d1 c1 H1 E1) as Hc1. split.
  - destruct (_ <=? _)%N; [|lia]. apply fits_paid; auto.
  - intros x. destruct (if (_ <=? _)%N then _ else _) as [f|]; simpl; [|discriminate].
    destruct f; [intros [= <-]; eapply wt_mono; eauto; lia|]. intros E. eapply wt_mono; [eapply chunk_new_wt; eauto|lia].
Qed.

(** ** Taking the next chunk off a block *)
Definition expander (ex : printer -> block -> chunk -> pres (printer * block)) (cost : printer -> block -> chunk -> nat) : Prop :=
  forall p b c m x z a, pz x p -> csz z (bl_chunks b) -> wt a (ck_note c) -> x + z + a <= m -> m <= T ->
  paid (cost p b c) (ex p b c) (pot stz 0) (K * m + 1).

Section Chunks.
Variable ex : printer -> block -> chunk -> pres (printer * block).
Variable cost : printer -> block -> chunk -> nat.
Hypothesis Hex : expander ex cost.
Variable n : nat.

Lemma child_paid {B} (k : printer * block -> pres B) J p b0 c cs i d m phi e : stz m (p, b0) -> bl_chunks b0 = c :: cs -> ck_note c = CChild i d ->
  m <= T -> K * m + e <= phi ->
  (forall s phi', pot stz (T + 10 + e) s phi' -> paid 0 (k s) J phi') ->
  paid (chunk_cost n cost (p, b0)) (x <- chunk_new d ;; s <- ex p (set_chunks b0 cs) x ;; k s) J phi.
Proof.
  intros (x & z & Hp & Hz & Hle) E En HT Hphi Hk. unfold chunk_cost. rewrite E, En. simpl in Hp, Hz. rewrite E in Hz.
  inversion Hz as [|? a m0 ? ? Hw Ha Hcs Hle0]; subst. rewrite En in Hw. inversion Hw; subst; try contradiction.
  apply paid_more with (c := after (chunk_new d) (cost p (set_chunks b0 cs))) (phi := phi - 1) (J := J); auto.
  2: { pose proof (@pay m 0 ltac:(lia)). lia. }
  destruct (chunk_new d) as [y|] eqn:Ey; [|simpl; lia]. cbn [after bind].
  pose proof (@chunk_new_wt _ d y ltac:(eassumption) Ey) as Hy.
  pose proof (@Hex p (set_chunks b0 cs) y (x + m0 + m') x m0 m' Hp Hcs Hy ltac:(lia) ltac:(lia)) as He.
  replace (cost p (set_chunks b0 cs) y) with (cost p (set_chunks b0 cs) y + after (ex p (set_chunks b0 cs) y) (fun _ => 0)) by (destruct (ex _ _ _); simpl; lia).
  apply paid_bind with (J := pot stz (T + 10 + e)); [|auto].
  pose proof (@pay m (x + m0 + m') ltac:(lia)).
  unfold paid in *. destruct (ex p (set_chunks b0 cs) y) as [s|f]; [|lia].
  destruct He as (phi' & (m2 & H4 & H5 & H6) & H7). exists (phi' + (T + 10 + e)). split; [|lia].
  exists m2. split; auto. split; auto. lia.
Qed.

Lemma choice_paid {B} (k : printer * block -> pres B) J p b0 c cs d1 d2 m phi e : stz m (p, b0) -> bl_chunks b0 = c :: cs -> ck_note c = CChoice d1 d2 ->
  m <= T -> K * m + e <= phi ->
  (forall s phi', pot stz (T + 10 + e) s phi' -> paid 0 (k s) J phi') ->
  paid (chunk_cost n cost (p, b0)) (x <- choose n p (set_chunks b0 cs) d1 d2 ;; s <- ex p (set_chunks b0 cs) x ;; k s) J phi.
Proof.
  intros (x & z & Hp & Hz & Hle) E En HT Hphi Hk. unfold chunk_cost. rewrite E, En. simpl in Hp, Hz. rewrite E in Hz.
  inversion Hz as [|? a m0 ? ? Hw Ha Hcs Hle0]; subst. rewrite En in Hw. inversion Hw; subst; try contradiction.
  destruct (@choose_paid n p (set_chunks b0 cs) d1 d2 ma mb m0) as [Hf Hch]; auto.
  set (F := choose_cost n p (set_chunks b0 cs) d1 d2) in *.
  apply paid_more with (c := after (choose n p (set_chunks b0 cs) d1 d2) (cost p (set_chunks b0 cs))) (phi := phi - 1 - F) (J := J); auto.
  2: { pose proof (@pay m 0 ltac:(lia)). lia. }
  destruct (choose n p (set_chunks b0 cs) d1 d2) as [y|] eqn:Ey; [|simpl; lia]. cbn [after bind].
  pose proof (Hch _ eq_refl) as Hy.
  pose proof (@Hex p (set_chunks b0 cs) y (x + m0 + Nat.max ma mb) x m0 (Nat.max ma mb) Hp Hcs Hy ltac:(lia) ltac:(lia)) as He.
  replace (cost p (set_chunks b0 cs) y) with (cost p (set_chunks b0 cs) y + after (ex p (set_chunks b0 cs) y) (fun _ => 0)) by (destruct (ex _ _ _); simpl; lia).
  apply paid_bind with (J := pot stz (T + 10 + e)); [|auto].
  pose proof (@pay m (x + m0 + Nat.max ma mb) ltac:(lia)).
  unfold paid in *. destruct (ex p (set_chunks b0 cs) y) as [s|f]; [|lia].
  destruct He as (phi' & (m2 & H8 & H9 & H10) & H11). exists (phi' + (T + 10 + e)). split; [|lia].
  exists m2. split; auto. split; auto. lia.
Qed.

(** Another chunk: it is dropped, or text is printed. *)
Lemma drop_paid m p b0 c cs : stz m (p, b0) -> bl_chunks b0 = c :: cs ->
  exists m', S m' <= m /\ stz m' (p, set_chunks b0 cs) /\ stz m' (p, set_eol (set_chunks b0 cs)) /\
    forall t b, push_text (set_chunks b0 cs) t = Ok b -> stz m' (p, b) /\ bl_chunks b = cs.
Proof. clear Hex HK.
  intros (x & z & Hp & Hz & Hle) E. simpl in Hp, Hz. rewrite E in Hz. inversion Hz as [|? a m0 ? ? Hw Ha Hcs Hle0]; subst.
  assert (H : forall b, bl_chunks b = cs -> stz (x + m0) (p, b)) by (intros b Hb; exists x, m0; simpl; rewrite Hb; auto).
  exists (x + m0). split; [lia|]. split; [apply H; reflexivity|]. split; [apply H; reflexivity|].
  intros t b. unfold push_text. destruct (bl_at_eol _); [discriminate|]. destruct (add16 _ _ _); simpl; [|discriminate].
  intros [= <-]. split; [apply H|]; reflexivity.
Qed.

End Chunks.
End Bounds.
