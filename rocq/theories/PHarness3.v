(** The oracle test as a whole (C72). *)
From Verif Require Export PHarness2 Properties39.

Set Implicit Arguments.

(** ** How deep the generator may recurse does not matter *)
Inductive geq {A} : gen A -> gen A -> Prop :=
| geq_return a : geq (GReturn a) (GReturn a)
| geq_pick max f g : (forall i, i < max -> geq (f i) (g i)) -> geq (GPick max f) (GPick max g).

Lemma geq_bind {A B} (g h : gen A) (k l : A -> gen B) : geq g h -> (forall a, geq (k a) (l a)) -> geq (gbind g k) (gbind h l).
Proof. intros H Hk. induction H; cbn [gbind]; [apply Hk|constructor; auto]. Qed.

Lemma geq_leaves {A} (g h : gen A) : geq g h -> leaves_of g = leaves_of h.
Proof.
  induction 1 as [a|max f g H IH]; [reflexivity|]. cbn [leaves_of].
  assert (G : forall l, (forall i, In i l -> i < max) ->
    flat_map (fun i => map (fun x => (i :: fst x, snd x)) (leaves_of (f i))) l = flat_map (fun i => map (fun x => (i :: fst x, snd x)) (leaves_of (g i))) l).
  { induction l as [|i l IHl]; intros Hl; [reflexivity|]. cbn [flat_map]. rewrite IHl by (intros; apply Hl; right; auto).
    rewrite (IH i) by (apply Hl; left; reflexivity). reflexivity. }
  apply G. intros i Hi. apply in_seq in Hi. lia.
Qed.

Lemma geq_random {A} (g h : gen A) rng : (forall j max, 0 < max -> rng j max < max) -> geq g h -> forall i, gen_random rng i g = gen_random rng i h.
Proof.
  intros Hr. induction 1 as [a|max f g H IH]; intros i; [reflexivity|]. cbn [gen_random].
  destruct (Nat.eqb_spec max 0) as [->|Hm]; [reflexivity|]. apply IH. apply Hr. lia.
Qed.

Lemma gen_deeper d : forall e size, 0 < size <= d -> size <= e -> geq (notation_gen d size) (notation_gen e size).
Proof.
  induction d as [|d IH]; intros e size Hs He; [lia|]. destruct e as [|e]; [lia|]. cbn [notation_gen].
  rewrite (proj2 (Nat.eqb_neq size 0)) by lia.
  destruct (Nat.eqb_spec size 1) as [->|H1].
  { constructor. intros i Hi. do 6 (destruct i as [|i]; [constructor|]). lia. }
  destruct (Nat.eqb_spec size 2) as [->|H2].
  { constructor. intros i Hi. destruct i as [|[|i]]; [| |lia]; (apply geq_bind; [apply IH; lia|intros; constructor]). }
  constructor. intros i Hi. destruct i as [|[|[|[|i]]]]; [| | | |lia].
  1,2: constructor; intros i Hi'; apply geq_bind; [apply IH; lia|]; intros a; apply geq_bind; [apply IH; lia|]; intros b; constructor.
  all: apply geq_bind; [apply IH; lia|intros; constructor].
Qed.

(** ** The lists of notations *)
Lemma all_of_size size : 0 < size -> exists l, ev (fun n => generate_all_of_size n (notation_gen n) size) (Ok l) /\ Forall (made_of size) l.
Proof.
  intros H. destruct (@notation_gen_spec size size ltac:(lia)) as (S1 & S2 & S3).
  exists (values (notation_gen size size)). split; [|apply Forall_forall; intros x Hx; apply S3; exact Hx].
  exists (S (size + length (leaves_of (notation_gen size size)))). intros n Hn. unfold generate_all_of_size.
  pose proof (geq_leaves (@gen_deeper size n size ltac:(lia) ltac:(lia))) as E.
  destruct (@notation_gen_spec n size ltac:(lia)) as (S1' & _ & _).
  rewrite (collect_leaves S1') by (rewrite <- E; lia). unfold values. rewrite E. reflexivity.
Qed.

Lemma all_up_to m : exists l, ev (fun n => generate_all_up_to_size n (notation_gen n) m) (Ok l) /\
  Forall (fun x => exists k, made_of k x /\ k < m) l.
Proof.
  unfold generate_all_up_to_size.
  assert (G : forall c a, 0 < a -> exists l,
    ev (fun n => fold_right (fun size rest => l <- generate_all_of_size n (notation_gen n) size ;; ls <- rest ;; Ok (l ++ ls)) (Ok []) (seq a c)) (Ok l) /\
    Forall (fun x => exists k, made_of k x /\ k < a + c) l).
  { induction c as [|c IH]; intros a Ha; [exists []; split; [exists 0; reflexivity|constructor]|].
    destruct (all_of_size Ha) as (l1 & (N1 & E1) & F1). destruct (IH (S a) ltac:(lia)) as (l2 & (N2 & E2) & F2).
    exists (l1 ++ l2). split.
    - exists (N1 + N2). intros n Hn. cbn [seq fold_right]. rewrite E1 by lia. cbn [bind]. rewrite E2 by lia. reflexivity.
    - apply Forall_app. split.
      + eapply Forall_impl; [|exact F1]. intros x Hx. exists a. split; [exact Hx|lia].
      + eapply Forall_impl; [|exact F2]. intros x (k & Hx & Hk). exists k. split; [exact Hx|lia]. }
  destruct (G (m - 1) 1 ltac:(lia)) as (l & E & F). exists l. split; [exact E|].
  eapply Forall_impl; [|exact F]. intros x (k & Hx & Hk). exists k. split; [exact Hx|]. apply made_pos in Hx. lia.
Qed.

Lemma random_list randoms :
  Forall (fun '(size, rng) => 0 < size /\ forall j max, 0 < max -> rng j max < max) randoms ->
  exists l, ev (fun n => @random_notations n randoms) (Ok l) /\ Forall2 (fun '(size, _) x => made_of size x) randoms l.
Proof.
  induction 1 as [|[size rng] randoms [Hs Hr] _ IH]; [exists []; split; [exists 0; reflexivity|constructor]|].
  destruct IH as (l & (N & E) & F).
  destruct (@notation_gen_spec size size ltac:(lia)) as (S1 & S2 & S3).
  destruct (@C63_random_value _ (notation_gen size size) rng 0 Hr S1) as (x & picks & Ex & Hx). exists (x :: l). split.
  - exists (N + size). intros n Hn. cbn [random_notations].
    rewrite <- (@geq_random _ _ _ rng Hr (@gen_deeper size n size ltac:(lia) ltac:(lia))). rewrite Ex. cbn [no_error bind].
    rewrite E by lia. reflexivity.
  - constructor; [|exact F]. apply S3. unfold values. apply in_map_iff. exists (picks, x). split; [reflexivity|]. apply leaves_chooses. exact Hx.
Qed.
