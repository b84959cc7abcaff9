(** Bounds on the work of printing, by an amortized analysis. *)
From Verif Require Export Cost.

Set Implicit Arguments.

(** A call whose cost, and what is left for later, was paid in advance. *)
Definition paid {X A} (c : nat) (r : res X A) (J : A -> nat -> Prop) (phi : nat) : Prop :=
  match r with
  | Ok a => exists phi', J a phi' /\ c + phi' <= phi
  | Fail _ => c <= phi
  end.

Lemma paid_ok {X A} c (a : A) (J : A -> nat -> Prop) phi phi' : J a phi' -> c + phi' <= phi -> paid (X := X) c (Ok a) J phi.
Proof. simpl. eauto. Qed.

Lemma paid_fail {X A} c f (J : A -> nat -> Prop) phi : c <= phi -> paid (X := X) c (Fail f) J phi.
Proof. auto. Qed.

Lemma paid_bind {X A B} c (x : res X A) c2 (k : A -> res X B) (J : A -> nat -> Prop) (J2 : B -> nat -> Prop) phi :
  paid c x J phi -> (forall a phi', J a phi' -> paid (c2 a) (k a) J2 phi') ->
  paid (c + after x c2) (bind x k) J2 phi.
Proof.
  destruct x as [a|f]; simpl; intros H Hk; [|lia].
  destruct H as (phi' & Ha & Hle). specialize (Hk _ _ Ha). unfold paid in *.
  destruct (k a) as [b|f]; [|lia]. destruct Hk as (phi2 & Hb & H2). exists phi2. split; auto. lia.
Qed.

Lemma paid_bind0 {X A B} (x : res X A) c2 (k : A -> res X B) (J : A -> nat -> Prop) (J2 : B -> nat -> Prop) phi :
  paid 0 x J phi -> (forall a phi', J a phi' -> paid (c2 a) (k a) J2 phi') ->
  paid (after x c2) (bind x k) J2 phi.
Proof. apply (@paid_bind X A B 0). Qed.

Lemma paid_more {X A} c c' (x : res X A) (J J' : A -> nat -> Prop) phi phi' :
  paid c x J phi -> c' + phi <= c + phi' -> (forall a p, J a p -> J' a p) -> paid c' x J' phi'.
Proof.
  unfold paid. destruct x as [a|f]; [|lia]. intros (p & Ha & H) H1 H2. exists p. split; auto. lia.
Qed.

Lemma paid_loop {X S R} bc (body : S -> res X (step S R)) (I : S -> nat -> Prop) (J : R -> nat -> Prop) :
  (forall s phi, I s phi -> paid (bc s) (body s) (fun x p => match x with Next s' => I s' p | Done r => J r p end) phi) ->
  forall n s phi, I s phi -> paid (loop_cost bc n body s) (loop n body s) J phi.
Proof.
  intros Hb. induction n as [|n IH]; intros s phi Hs; simpl; [lia|].
  specialize (Hb _ _ Hs). unfold paid in Hb. destruct (body s) as [[s'|r]|f].
  - destruct Hb as (p & Hp & Hle). specialize (IH _ _ Hp). unfold paid in *.
    destruct (loop n body s') as [r|f]; [|lia]. destruct IH as (p' & Hr & H'). exists p'. split; auto. lia.
  - destruct Hb as (p & Hp & Hle). exists p. split; auto. lia.
  - simpl. lia.
Qed.

Section Weights.
Context {pd : PrettyDoc} {env : Env}.

(** [wt m c]: the notation [c] weighs at most [m]: at most three for each of its
    parts, in the worst case of all ways to take its choices. *)
Inductive wt : nat -> cnote -> Prop :=
| wt_leaf m c : 3 <= m -> match c with CConcat _ _ | CChoice _ _ | CChild _ _ => False | _ => True end -> wt m c
| wt_concat m ma mb da db : 1 + ma + mb <= m ->
    (forall c, eval da = Ok c -> wt ma c) -> (forall c, eval db = Ok c -> wt mb c) -> wt m (CConcat da db)
| wt_choice m ma mb da db : 2 + ma <= m -> 2 + mb <= m ->
    (forall c, eval da = Ok c -> wt ma c) -> (forall c, eval db = Ok c -> wt mb c) -> wt m (CChoice da db)
| wt_child m m' n d : 2 + m' <= m -> (forall c, eval d = Ok c -> wt m' c) -> wt m (CChild n d).

Lemma wt_mono m m' c : wt m c -> m <= m' -> wt m' c.
Proof.
  intros H Hle. destruct H.
  - apply wt_leaf; auto; lia.
  - eapply wt_concat; eauto; lia.
  - eapply wt_choice with (ma := ma) (mb := mb); eauto; lia.
  - eapply wt_child; eauto; lia.
Qed.

(** A chunk waiting to be expanded. *)
Inductive ssz : nat -> list chunk -> Prop :=
| ssz_nil m : ssz m []
| ssz_cons k a m c cs : wt a (ck_note c) -> ssz m cs -> a + m <= k -> ssz k (c :: cs).

(** A chunk in a block, one step of which has been paid. *)
Inductive csz : nat -> list chunk -> Prop :=
| csz_nil m : csz m []
| csz_cons k a m c cs : wt (S a) (ck_note c) -> 1 <= a -> csz m cs -> a + m <= k -> csz k (c :: cs).

Inductive nsz : nat -> list cnote -> Prop :=
| nsz_nil m : nsz m []
| nsz_cons k a m c cs : wt a c -> nsz m cs -> a + m <= k -> nsz k (c :: cs).

(** A block also weighs [q] itself. *)
Inductive bsz (q : nat) : nat -> list block -> Prop :=
| bsz_nil m : bsz q m []
| bsz_cons k a m b bs : csz a (bl_chunks b) -> bsz q m bs -> q + (a + m) <= k -> bsz q k (b :: bs).

Lemma csz_mono m m' cs : csz m cs -> m <= m' -> csz m' cs.
Proof. intros H. destruct H; intros; econstructor; eauto; lia. Qed.
Lemma bsz_mono q m m' cs : bsz q m cs -> m <= m' -> bsz q m' cs.
Proof. intros H. destruct H; intros; econstructor; eauto; lia. Qed.
Lemma ssz_mono m m' cs : ssz m cs -> m <= m' -> ssz m' cs.
Proof. intros H. destruct H; intros; econstructor; eauto; lia. Qed.

Lemma csz_length m cs : csz m cs -> length cs <= m.
Proof. induction 1; simpl; lia. Qed.

Lemma csz_app a b l1 l2 : csz a l1 -> csz b l2 -> csz (a + b) (l1 ++ l2).
Proof.
  intros H H2. induction H; simpl.
  - eapply csz_mono; eauto. lia.
  - econstructor; eauto. lia.
Qed.

Lemma csz_app_inv k l1 l2 : csz k (l1 ++ l2) -> exists a b, csz a l1 /\ csz b l2 /\ a + b <= k.
Proof.
  revert k. induction l1 as [|c l1 IH]; simpl; intros k H.
  - exists 0, k. repeat split; auto; constructor.
  - inversion H; subst. destruct (IH _ H5) as (x & y & Hx & Hy & Hle).
    exists (a + x), y. repeat split; auto; [econstructor; eauto|lia].
Qed.

Lemma csz_rev m cs : csz m cs -> csz m (rev cs).
Proof.
  induction 1; simpl; [constructor|]. eapply csz_mono; [apply csz_app; [exact IHcsz|]|].
  - econstructor; [eauto|eauto|apply (csz_nil 0)|]. apply Nat.le_refl.
  - lia.
Qed.

(** ** fits *)
Lemma fits_paid n w eol c cs a m : wt a c -> csz m cs ->
  fits_cost n w eol c cs <= S (a + 2 * m).
Proof.
  intros Ha Hm. unfold fits_cost.
  set (I := fun (s : N * bool * list cnote * list chunk) (phi : nat) =>
    exists x y, nsz x (snd (fst s)) /\ csz y (snd s) /\ S (x + 2 * y) <= phi).
  assert (H : paid (loop_cost (fun _ => 1) n fits_body (w, eol, [c], cs)) (loop n fits_body (w, eol, [c], cs)) (fun _ _ => True) (S (a + 2 * m))).
  { apply paid_loop with (I := I).
    2: { exists a, m. simpl. repeat split; auto. econstructor; [eauto|apply (nsz_nil 0)|lia]. }
    clear. intros [[[rem e] ns] ks] phi (x & y & Hx & Hy & Hphi). simpl in Hx, Hy.
    assert (Hp : forall c a ns x ks y, wt a c -> nsz x ns -> csz y ks -> S (a + x + 2 * y) <= phi ->
      paid 1 (match c with
        | CEmpty | CFocusMark => Ok (Next (rem, e, ns, ks))
        | CTextual t =>
            if e then Ok (Done false)
            else if (tx_width t <=? rem)%N
            then Ok (Next ((rem - tx_width t)%N, e, ns, ks))
            else Ok (Done false)
        | CEndOfLine => Ok (Next (rem, true, ns, ks))
        | CNewline _ => Ok (Done true)
        | CChild _ d => c <- eval d ;; Ok (Next (rem, e, c :: ns, ks))
        | CConcat d1 d2 =>
            c2 <- eval d2 ;;
            c1 <- eval d1 ;;
            Ok (Next (rem, e, c1 :: c2 :: ns, ks))
        | CChoice _ d2 => c <- eval d2 ;; Ok (Next (rem, e, c :: ns, ks))
        end) (fun x p => match x with Next s' => I s' p | Done r => True end) phi).
    { clear. intros c a ns x ks y Hc Hx Hy Hle.
      assert (Hi : forall rem e ns x ks y phi, nsz x ns -> csz y ks -> S (S (x + 2 * y)) <= phi ->
        exists p, I (rem, e, ns, ks) p /\ 1 + p <= phi).
      { clear. intros rem e ns x ks y phi Hx Hy H. exists (S (x + 2 * y)). split; [exists x, y; auto|lia]. }
      inversion Hc; subst.
      - destruct c; try contradiction; simpl; try (eapply Hi; eauto; lia).
        + exists 0. split; auto. lia.
        + destruct e; [exists 0; split; auto; lia|]. destruct (_ <=? _)%N; simpl; [eapply Hi; eauto; lia|exists 0; split; auto; lia].
      - destruct (eval db) as [c2|] eqn:E2; simpl; [|lia]. destruct (eval da) as [c1|] eqn:E1; simpl; [|lia].
        eapply Hi with (x := ma + (mb + x)); eauto; [|lia]. econstructor; [eauto| |apply Nat.le_refl]. econstructor; eauto.
      - destruct (eval db) as [c2|] eqn:E2; simpl; [|lia].
        eapply Hi with (x := mb + x); eauto; [|lia]. econstructor; eauto.
      - destruct (eval d) as [c2|] eqn:E2; simpl; [|lia].
        eapply Hi with (x := m' + x); eauto; [|lia]. econstructor; eauto. }
    destruct Hx as [x|x a1 m1 c1 ns Hw1 Hn Hle1]; cbn [fits_body].
    - destruct Hy as [y|y a0 m0 c0 ks Hw H1 Hk Hle].
      + exists 0. split; auto. lia.
      + eapply Hp with (x := 0) (a := S a0) (y := m0); eauto; [constructor|lia].
    - eapply Hp with (x := m1) (a := a1) (y := y); eauto. lia. }
  unfold paid in H. destruct (loop n fits_body (w, eol, [c], cs)); [destruct H as (? & _ & H)|]; lia.
Qed.

End Weights.
