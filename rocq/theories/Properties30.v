(** C63: the exhaustive test generator is exhaustive.  Vocabulary: SpecGenerative.
    [ev f x]: [f fuel = x] for every sufficiently large fuel. *)
From Coq Require Import Sorted.
From Verif Require Export PFuel PGenerative.

Set Implicit Arguments.

(** Every generator: the iterator returns one value for each possible sequence of
    picks, in the order of the dictionary, and then ends. *)
Theorem C63_all_values {A} (g : gen A) : sound g ->
  exists all : list (list nat * A),
    (forall picks a, In (picks, a) all <-> chooses g picks a) /\
    StronglySorted (fun x y => before (fst x) (fst y)) all /\ NoDup (map fst all) /\
    ev (fun fuel => gen_collect fuel g gen_all_new) (Ok (map snd all)).
Proof.
  intros Hs. exists (leaves_of g). split; [apply leaves_chooses|]. split; [|split].
  - pose proof (leaves_increasing g) as H. induction (leaves_of g) as [|x l IH]; [constructor|]. destruct H as [H1 H2].
    constructor; auto. apply Forall_forall. auto.
  - apply increasing_nodup. apply leaves_increasing.
  - exists (S (length (leaves_of g))). intros fuel Hf. apply collect_leaves; [exact Hs|lia].
Qed.

(** Once it has ended, it stays so. *)
Theorem C63_stays_ended {A} (g : gen A) s s' : gen_next g s = Ok (s', None) -> gen_next g s' = Ok (s', None).
Proof.
  unfold gen_next. destruct (ga_done s) eqn:E.
  - intros [= <-]. rewrite E. reflexivity.
  - destruct (generate g s) as [[a s1]|]; discriminate.
Qed.

(** What random generation returns, whatever the random numbers, is one of these
    values, *)
Theorem C63_random_value {A} (g : gen A) rng i : (forall j max, 0 < max -> rng j max < max) -> sound g ->
  exists a picks, gen_random rng i g = Ok a /\ chooses g picks a.
Proof.
  intros Hr Hs. revert i. induction Hs as [a|max go_on Hm Hs IH]; intros i.
  - exists a, []. split; [reflexivity|constructor].
  - destruct (IH (rng i max) (Hr i max Hm) (S i)) as (a & picks & E & H). exists a, (rng i max :: picks). split.
    + cbn [gen_random]. rewrite (proj2 (Nat.eqb_neq max 0)) by lia. exact E.
    + constructor; auto.
Qed.

(** ... and each of them can come up. *)
Theorem C63_random_any {A} (g : gen A) picks a : chooses g picks a ->
  forall i, exists rng, gen_random rng i g = Ok a /\
    forall j max, 0 < max -> rng j max < max.
Proof.
  intros H i.
  exists (fun j max => if nth (j - i) picks 0 <? max then nth (j - i) picks 0 else 0). split.
  2:{ intros j max Hm. destruct (Nat.ltb_spec (nth (j - i) picks 0) max); lia. }
  assert (G : forall rng, (forall j max, i <= j -> nth (j - i) picks 0 < max -> rng j max = nth (j - i) picks 0) -> gen_random rng i g = Ok a).
  { revert i. induction H as [a|max go_on k picks a Hk H IH]; intros i rng Hrng; [reflexivity|].
    cbn [gen_random]. rewrite (proj2 (Nat.eqb_neq max 0)) by lia. rewrite (Hrng i max); [|lia|rewrite Nat.sub_diag; exact Hk].
    rewrite Nat.sub_diag. cbn [nth]. apply IH. intros j mx Hj Hn. specialize (Hrng j mx ltac:(lia)).
    replace (j - i) with (S (j - S i)) in Hrng by lia. apply Hrng. exact Hn. }
  apply G. intros j max _ Hn. rewrite (proj2 (Nat.ltb_lt _ _) Hn). reflexivity.
Qed.

(** The notations of the oracle test: every notation of the given size, exactly
    once. *)
Theorem C63_notations depth size : 0 < size <= depth ->
  exists l, ev (fun fuel => generate_all_of_size fuel (notation_gen depth) size) (Ok l) /\
    NoDup l /\ forall x, In x l <-> made_of size x.
Proof.
  intros H. destruct (notation_gen_spec H) as (S1 & S2 & S3). exists (values (notation_gen depth size)). split; [|split; auto].
  exists (S (length (leaves_of (notation_gen depth size)))). intros fuel Hf. apply collect_leaves; [exact S1|lia].
Qed.

(** The trees of the generator's own test: every tree with that many nodes, exactly
    once. *)
Theorem C63_trees depth size : 0 < size -> 2 * size <= depth ->
  exists l, ev (fun fuel => generate_all_of_size fuel (tree_gen depth) size) (Ok l) /\
    NoDup l /\ forall t, In t l <-> nodes t = size.
Proof.
  intros H Hd. destruct (tree_gen_spec depth) as [T _]. destruct (T size H Hd) as (S1 & S2 & S3).
  exists (values (tree_gen depth size)). split; [|split; auto].
  exists (S (length (leaves_of (tree_gen depth size)))). intros fuel Hf. apply collect_leaves; [exact S1|lia].
Qed.

(** generate_all_up_to_size: the notations of all smaller sizes, exactly once. *)
Theorem C63_up_to depth max_size : max_size <= depth + 1 ->
  exists l, ev (fun fuel => generate_all_up_to_size fuel (notation_gen depth) max_size) (Ok l) /\
    NoDup l /\ forall x, In x l <-> exists size, made_of size x /\ size < max_size.
Proof.
  intros Hd. unfold generate_all_up_to_size.
  assert (G : forall n k, 1 <= k -> k + n <= depth + 1 -> exists l,
    ev (fun fuel => fold_right (fun size rest => l <- generate_all_of_size fuel (notation_gen depth) size ;; ls <- rest ;; Ok (l ++ ls)) (Ok []) (seq k n)) (Ok l) /\
    NoDup l /\ forall x, In x l <-> exists size, made_of size x /\ k <= size < k + n).
  { induction n as [|n IH]; intros k Hk Hn.
    - exists []. split; [ev_now|]. split; [constructor|]. intros x. split; [intros []|intros (s & _ & Hs); lia].
    - destruct (IH (S k) ltac:(lia) ltac:(lia)) as (l2 & (N2 & E2) & D2 & I2).
      destruct (@C63_notations depth k ltac:(lia)) as (l1 & (N1 & E1) & D1 & I1).
      exists (l1 ++ l2). split.
      + exists (N1 + N2). intros fuel Hf. cbn [seq fold_right]. rewrite E1 by lia. cbn [bind]. rewrite E2 by lia. reflexivity.
      + split.
        * apply NoDup_app'; auto. intros x H1 H2. apply I1 in H1. apply I2 in H2 as (s & H2 & Hs). pose proof (made_det H1 H2). lia.
        * intros x. rewrite in_app_iff, I1, I2. split.
          -- intros [H|(s & H & Hs)]; [exists k|exists s]; split; auto; lia.
          -- intros (s & H & Hs). destruct (Nat.eq_dec s k) as [->|Hne]; [left; exact H|right; exists s; split; auto; lia]. }
  destruct (G (max_size - 1) 1) as (l & E & D & I); [lia|lia|]. exists l. split; [exact E|]. split; [exact D|].
  intros x. rewrite I. split; intros (s & H & Hs); exists s; split; auto; [lia|]. apply made_pos in H. lia.
Qed.

(** Its documentation says "up to the given size", but no notation of the given
    size itself is among them. *)
Theorem C63_up_to_refuted depth max_size : max_size <= depth + 1 -> 1 < max_size ->
  exists l x, ev (fun fuel => generate_all_up_to_size fuel (notation_gen depth) max_size) (Ok l) /\ made_of max_size x /\ ~ In x l.
Proof.
  intros Hd Hm. destruct (C63_up_to depth Hd) as (l & E & _ & I).
  assert (X : forall n, exists x, made_of (S n) x).
  { induction n as [|n (x & IH)]; [exists Empty; constructor|]. exists (Flat x). exact (made_flat IH). }
  destruct max_size as [|n]; [lia|]. destruct (X n) as (x & Hx). exists l, x. split; [exact E|]. split; [exact Hx|].
  intros Hin. apply I in Hin as (s & Hs & Hlt). pose proof (made_det Hx Hs). lia.
Qed.
