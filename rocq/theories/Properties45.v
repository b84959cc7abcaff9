(** C77: several threads that make trees. *)
From Verif Require Export SpecThreads Properties12.
From Coq Require Import Lia Permutation.

Set Implicit Arguments.

Section C77.
Context {ts : TreeStyle}.
Variable checks : bool.
Notation run := (run_schedule checks).

Lemma run_snoc l e : run (l ++ [e]) = thread_step checks (run l) e.
Proof. unfold run_schedule. rewrite fold_left_app. reflexivity. Qed.

Lemma program_snoc who l e : program_of who (l ++ [e]) = program_of who l ++ (if fst e =? who then [snd e] else []).
Proof. unfold program_of. rewrite filter_app, map_app. cbn. destruct (fst e =? who); reflexivity. Qed.

Lemma do_op_message op th to t : snd (do_op checks op th) = Some (to, t) -> op = OSend to.
Proof.
  unfold do_op. destruct (th_alive th); [|discriminate].
  destruct op; cbn [snd];
    try (repeat match goal with |- context [match ?x with _ => _ end] => destruct x end; cbn [snd]; discriminate).
  destruct (th_trees th); [discriminate|]. intros H. injection H as -> _. reflexivity.
Qed.

(** C77.  If no tree is sent, then it does not matter how the threads are
    scheduled: if in two schedules every thread does the same, then in the end
    every thread has the same trees, with the same ids. *)
Theorem C77_schedule l l' :
  (forall who op, In (who, op) l -> forall to, op <> OSend to) ->
  (forall who, program_of who l = program_of who l') ->
  forall who, run l who = run l' who.
Proof.
  assert (Hloc : forall l, (forall who op, In (who, op) l -> forall to, op <> OSend to) -> forall who,
    run l who = fold_left (fun th op => fst (do_op checks op th)) (program_of who l) thread_start).
  { clear l l'. induction l as [|[w op] l IH] using rev_ind; intros Hs who; [reflexivity|].
    rewrite run_snoc, program_snoc, fold_left_app. rewrite <- IH by (intros; eapply Hs; apply in_or_app; eauto).
    unfold thread_step. cbn [fst snd].
    assert (Hn : snd (do_op checks op (run l w)) = None).
    { destruct (snd (do_op checks op (run l w))) as [[to t]|] eqn:E; [|reflexivity]. exfalso.
      apply do_op_message in E. eapply Hs; [apply in_or_app; right; left; reflexivity|exact E]. }
    destruct (do_op checks op (run l w)) as [th m] eqn:E. cbn in Hn. subst m. cbn. unfold put_thread.
    rewrite (Nat.eqb_sym who w). destruct (Nat.eqb_spec w who) as [->|H]; cbn; [rewrite E; reflexivity|reflexivity]. }
  intros Hs Hp who. rewrite Hloc by exact Hs. rewrite Hloc.
  - rewrite Hp. reflexivity.
  - intros w op Hin to E. subst op. assert (X : In (OSend to) (program_of w l')).
    { unfold program_of. apply in_map_iff. exists (w, OSend to). split; [reflexivity|]. apply filter_In. split; [exact Hin|]. cbn. apply Nat.eqb_refl. }
    rewrite <- Hp in X. unfold program_of in X. apply in_map_iff in X as ([w' op] & E1 & X). cbn in E1. subst op.
    apply filter_In in X as [X _]. exact (Hs _ _ X _ eq_refl).
Qed.

(** ** The counters *)
Lemma nodes_made_snoc who l e :
  nodes_made who (l ++ [e]) = nodes_made who l + (if (fst e =? who) && makes (snd e) then 1 else 0).
Proof.
  unfold nodes_made. rewrite program_snoc, filter_app, app_length. destruct (fst e =? who); cbn; [|reflexivity].
  destruct (makes (snd e)); reflexivity.
Qed.

(** The counter [c] of a thread that made [n] nodes. *)
Definition counted (c : N) (n : nat) : Prop := (c = N.of_nat n \/ (checks = false /\ N.of_nat n = U32)) /\ (checks = true -> N.of_nat n < U32)%N.

Lemma counted_next c n id c' : counted c n -> checks = true \/ (N.of_nat (S n) <= U32)%N ->
  next_id checks c = Ok (id, c') -> id = N.of_nat n /\ counted c' (S n).
Proof.
  intros [Hc Hlt] Hle. assert (c = N.of_nat n) by (destruct Hc as [H|[H1 H2]]; [exact H|destruct Hle; [congruence|lia]]). subst c.
  unfold next_id, addM, bind. destruct (N.ltb_spec (N.of_nat n + 1) U32) as [Hm|Hm].
  - intros H. injection H as <- <-. split; [reflexivity|]. split; [left; lia|intros; lia].
  - destruct checks eqn:Ec; [discriminate|].
    intros H. injection H as <- _. split; [reflexivity|]. split; [|intros; congruence]. right. split; [exact Ec|]. destruct Hle as [Hle|Hle]; [congruence|lia].
Qed.

(** What one operation does to the counter and to the ids: some may be lost, some
    are sent, and one may be new. *)
Definition sent_ids (m : option (nat * tree)) : list N := match m with Some (_, t) => tree_ids t | None => [] end.
Definition op_effect (op : tree_op) (n : nat) (th th' : thread) (m : option (nat * tree)) : Prop :=
  (th_alive th' = true -> counted (th_counter th') (if makes op then S n else n)) /\
  exists lost, Permutation (lost ++ sent_ids m ++ thread_ids th') ((if makes op then [N.of_nat n] else []) ++ thread_ids th) \/
    Permutation (lost ++ sent_ids m ++ thread_ids th') (thread_ids th).

Lemma effect_panicked op n th : op_effect op n th (thread_panicked th) None.
Proof. split; [discriminate|]. exists (thread_ids th). right. cbn. rewrite app_nil_r. reflexivity. Qed.

Lemma effect_new op n th th0 rest r lost :
  (th_alive th = true -> counted (th_counter th) n) -> th_alive th = true -> makes op = true ->
  checks = true \/ (N.of_nat (S n) <= U32)%N ->
  (forall t c, r = Ok (t, c) -> exists c', next_id checks (th_counter th) = Ok (t_id (t_fields t), c') /\ c = c' /\
     Permutation (lost ++ tree_ids t ++ flat_map tree_ids (rest ++ th_inbox th)) (t_id (t_fields t) :: thread_ids th)) ->
  th0 = th -> op_effect op n th (new_tree th0 r rest) None.
Proof.
  intros Hc Ha Hm Hle Hr ->. unfold new_tree. destruct r as [[t c]|f]; [|apply effect_panicked].
  destruct (Hr _ _ eq_refl) as (c' & E & -> & HP). destruct (counted_next (Hc Ha) Hle E) as [E1 E2].
  split; [intros _; cbn; rewrite Hm; exact E2|]. exists lost. left. cbn. rewrite Hm. rewrite <- E1. exact HP.
Qed.

Lemma effect_last op n th (f : tree -> list tree) m :
  (th_alive th = true -> counted (th_counter th) n) -> th_alive th = true -> makes op = false ->
  (forall t rest, th_trees th = t :: rest -> exists lost, Permutation (lost ++ sent_ids m ++ flat_map tree_ids (f t)) (tree_ids t)) ->
  (th_trees th = [] -> m = None) ->
  op_effect op n th (with_last th f) m.
Proof.
  intros Hc Ha Hm Hf H0. unfold with_last. destruct (th_trees th) as [|t rest] eqn:E.
  - rewrite (H0 eq_refl). apply effect_panicked.
  - split; [intros _; cbn; rewrite Hm; exact (Hc Ha)|]. destruct (Hf _ _ eq_refl) as [lost HP]. exists lost. right.
    unfold thread_ids. rewrite E. cbn. rewrite <- !app_assoc, !flat_map_app, !app_assoc. apply Permutation_app_tail.
    apply Permutation_app_tail. rewrite <- app_assoc. exact HP.
Qed.

Lemma do_op_effect op n th :
  (th_alive th = true -> counted (th_counter th) n) ->
  (makes op = true -> checks = true \/ (N.of_nat (S n) <= U32)%N) ->
  op <> OClone -> op <> OReset ->
  op_effect op n th (fst (do_op checks op th)) (snd (do_op checks op th)).
Proof.
  intros Hc Hle N1 N2. unfold do_op. destruct (th_alive th) eqn:Ha.
  2:{ cbn. split; [intros X; congruence|]. exists []. right. reflexivity. }
  assert (Hone : forall g t, (forall f, t_id (g f) = t_id f) -> exists lost, Permutation (lost ++ sent_ids None ++ flat_map tree_ids [t_with g t]) (tree_ids t)).
  { intros g t Hg. exists []. cbn. rewrite app_nil_r, ids_with by exact Hg. reflexivity. }
  destruct op as [nt s|nt k| |s|lb s| | | |i| |to|]; cbn [fst snd].
  - eapply effect_new with (lost := []); try eassumption; try reflexivity; [intros _; exact (Hc eq_refl)|apply Hle; reflexivity|].
    intros t c H. unfold tree_new_text, bind in H. destruct (next_id checks (th_counter th)) as [[id c1]|] eqn:E; [|discriminate].
    injection H as <- <-. exists c1. split; [reflexivity|]. split; reflexivity.
  - destruct (Nat.ltb_spec (length (th_trees th)) k) as [Hk|Hk]; [apply effect_panicked|].
    eapply effect_new with (lost := []); try eassumption; try reflexivity; [intros _; exact (Hc eq_refl)|apply Hle; reflexivity|].
    intros t c H. unfold tree_new_branch, bind in H. destruct (next_id checks (th_counter th)) as [[id c1]|] eqn:E; [|discriminate].
    injection H as <- <-. exists c1. split; [reflexivity|]. split; [reflexivity|].
    cbn. constructor. rewrite mark_separated, separated_ids. unfold thread_ids.
    rewrite !flat_map_app, app_assoc. apply Permutation_app_tail.
    rewrite <- (firstn_skipn k (th_trees th)) at 3. rewrite flat_map_app. apply Permutation_app_tail.
    apply Permutation_flat_map. symmetry. apply Permutation_rev.
  - apply effect_last; auto; intros; apply Hone; reflexivity.
  - apply effect_last; auto; intros; apply Hone; reflexivity.
  - apply effect_last; auto; intros; apply Hone; reflexivity.
  - congruence.
  - apply effect_last; auto. intros t rest _. exists (tree_ids t). cbn. rewrite app_nil_r. reflexivity.
  - apply effect_last; auto. intros t rest _. destruct t as [f s|f ks].
    + exists []. cbn. reflexivity.
    + exists [t_id f]. cbn. reflexivity.
  - destruct (nth_error (th_trees th) i) as [t|] eqn:E; [|apply effect_panicked].
    split; [intros _; exact (Hc eq_refl)|]. exists []. right. unfold thread_ids. cbn [fst snd sent_ids app th_trees th_inbox].
    apply Permutation_flat_map. rewrite app_comm_cons. apply Permutation_app_tail.
    apply nth_error_split in E as (l1 & l2 & -> & <-). rewrite firstn_app, firstn_all, Nat.sub_diag. cbn [firstn]. rewrite app_nil_r.
    replace (skipn (S (length l1)) (l1 ++ t :: l2)) with l2.
    + apply Permutation_middle.
    + rewrite skipn_app, skipn_all2 by lia. replace (S (length l1) - length l1) with 1 by lia. reflexivity.
  - congruence.
  - apply effect_last; auto.
    + intros t rest E. rewrite E. exists []. cbn. rewrite app_nil_r. reflexivity.
    + intros E. rewrite E. reflexivity.
  - destruct (th_inbox th) as [|t inbox] eqn:E.
    + split; [intros _; exact (Hc eq_refl)|]. exists []. right. reflexivity.
    + split; [intros _; exact (Hc eq_refl)|]. exists []. right. unfold thread_ids. cbn [fst snd sent_ids app th_trees th_inbox].
      rewrite E. apply Permutation_flat_map. apply Permutation_middle.
Qed.

(** The counter of a thread, whatever it and the others do, if it does not reset it. *)
Lemma do_op_counter op n th :
  (th_alive th = true -> counted (th_counter th) n) ->
  (makes op = true -> checks = true \/ (N.of_nat (S n) <= U32)%N) -> op <> OReset ->
  th_alive (fst (do_op checks op th)) = true -> counted (th_counter (fst (do_op checks op th))) (if makes op then S n else n).
Proof.
  intros Hc Hle N2 Ha. destruct op eqn:E; try (refine (proj1 (@do_op_effect _ n th Hc Hle _ _) Ha); congruence).
  revert Ha. unfold do_op. destruct (th_alive th) eqn:Ea; cbn [fst]; [|congruence].
  unfold with_last. destruct (th_trees th); [discriminate|]. intros _. exact (Hc eq_refl).
Qed.

Lemma step_at l w op who : exists inbox, run (l ++ [(w, op)]) who =
  let th := if who =? w then fst (do_op checks op (run l w)) else run l who in
  Thread (th_counter th) (th_trees th) (th_inbox th ++ inbox) (th_alive th).
Proof.
  rewrite run_snoc. unfold thread_step. cbn [fst snd]. destruct (do_op checks op (run l w)) as [th m]. cbn [fst]. cbv zeta.
  assert (E : forall x : thread, x = Thread (th_counter x) (th_trees x) (th_inbox x ++ []) (th_alive x)).
  { intros [c t i a]. cbn. rewrite app_nil_r. reflexivity. }
  unfold deliver. destruct m as [[to t]|].
  - unfold put_thread at 1. destruct (Nat.eqb_spec who to) as [<-|H].
    + exists [t]. unfold put_thread. destruct (who =? w); reflexivity.
    + exists []. unfold put_thread. destruct (who =? w); apply E.
  - exists []. unfold put_thread. destruct (who =? w); apply E.
Qed.

(** C77.  The counter of a thread that has not panicked is the number of nodes that
    the thread has made, whatever the other threads do and whatever they send: so the
    next node that it makes has this id. *)
Lemma thread_counted l who :
  ~ In OReset (program_of who l) -> checks = true \/ (N.of_nat (nodes_made who l) <= U32)%N ->
  th_alive (run l who) = true -> counted (th_counter (run l who)) (nodes_made who l).
Proof.
  induction l as [|[w op] l IH] using rev_ind; intros Hr Hle Ha.
  - cbn. split; [left; reflexivity|reflexivity].
  - rewrite program_snoc in Hr. cbn [fst snd] in Hr. rewrite nodes_made_snoc in Hle |- *. cbn [fst snd] in Hle |- *.
    destruct (step_at l w op who) as (inbox & E). rewrite E in Ha |- *. cbv zeta in Ha |- *. cbn [th_alive th_counter] in Ha |- *.
    assert (IH' : th_alive (run l who) = true -> counted (th_counter (run l who)) (nodes_made who l)).
    { apply IH; [intros X; apply Hr, in_or_app; auto|]. destruct Hle; [auto|right; lia]. }
    rewrite (Nat.eqb_sym who w) in *. destruct (Nat.eqb_spec w who) as [->|Hw]; cbn [andb] in *.
    + assert (X : counted (th_counter (fst (do_op checks op (run l who)))) (if makes op then S (nodes_made who l) else nodes_made who l)).
      { apply do_op_counter; [exact IH'| |intros ->; apply Hr, in_or_app; right; left; reflexivity|exact Ha].
        intros Hm. rewrite Hm in Hle. destruct Hle; [auto|right; lia]. }
      destruct (makes op); [rewrite Nat.add_1_r|rewrite Nat.add_0_r]; exact X.
    + rewrite Nat.add_0_r. exact (IH' Ha).
Qed.

Theorem C77_next_id l who : 
  ~ In OReset (program_of who l) -> (N.of_nat (nodes_made who l) < U32)%N -> th_alive (run l who) = true ->
  th_counter (run l who) = N.of_nat (nodes_made who l).
Proof.
  intros Hr Hle Ha. destruct (@thread_counted l who Hr) as [[X|[_ X]] _]; [right; lia|exact Ha|exact X|].
  lia.
Qed.

(** ** A thread that receives nothing *)
Definition core (th : thread) : thread := Thread (th_counter th) (th_trees th) [] (th_alive th).
Lemma do_op_core op th : op <> OReceive -> core (fst (do_op checks op th)) = fst (do_op checks op (core th)).
Proof.
  intros N0. destruct th as [c trees inbox alive]. destruct alive; [|reflexivity].
  destruct op as [nt s|nt k| |s|lb s| | | |i| |to|]; try congruence; cbn [do_op th_alive core th_trees th_counter th_inbox fst];
    unfold with_last, new_tree; cbn [th_alive core th_trees th_counter th_inbox].
  - destruct (tree_new_text checks nt s c) as [[? ?]|]; reflexivity.
  - destruct (length trees <? k); [reflexivity|]. destruct (tree_new_branch checks nt (rev (firstn k trees)) c) as [[? ?]|]; reflexivity.
  - destruct trees; reflexivity.
  - destruct trees; reflexivity.
  - destruct trees; reflexivity.
  - destruct trees; reflexivity.
  - destruct trees; reflexivity.
  - destruct trees; reflexivity.
  - destruct (nth_error trees i); reflexivity.
  - reflexivity.
  - destruct trees; reflexivity.
Qed.

Lemma Nodup_sub {A} (l1 l2 l3 : list A) : Permutation (l1 ++ l2) l3 -> NoDup l3 -> NoDup l2.
Proof.
  intros HP HN. apply (Permutation_NoDup (Permutation_sym HP)) in HN. clear HP.
  induction l1; [exact HN|]. inversion HN; auto.
Qed.

(** C77.  All the nodes of all the trees of a thread have different ids, whatever the
    other threads do, if the thread receives nothing, clones nothing and does not
    reset the counter. *)
Theorem C77_own_trees l who :
  (forall op, In op (program_of who l) -> op <> OReceive /\ op <> OClone /\ op <> OReset) ->
  checks = true \/ (N.of_nat (nodes_made who l) <= U32)%N ->
  NoDup (flat_map tree_ids (th_trees (run l who))) /\
  forall t, In t (th_trees (run l who)) -> unique_ids (id_at (tree_rdoc t)).
Proof.
  intros Hops Hle.
  assert (H : NoDup (flat_map tree_ids (th_trees (run l who))) /\
    forall i, In i (flat_map tree_ids (th_trees (run l who))) -> (i < N.of_nat (nodes_made who l))%N).
  { induction l as [|[w op] l IH] using rev_ind; [split; [constructor|intros i []]|].
    rewrite program_snoc in Hops. cbn [fst snd] in Hops. rewrite nodes_made_snoc in Hle |- *. cbn [fst snd] in Hle |- *.
    assert (Hle' : checks = true \/ (N.of_nat (nodes_made who l) <= U32)%N) by (destruct Hle; [auto|right; lia]).
    destruct IH as [I1 I2]; [intros o X; apply Hops, in_or_app; auto|exact Hle'|].
    destruct (step_at l w op who) as (inbox & E). rewrite E. cbv zeta. cbn [th_trees]. rewrite (Nat.eqb_sym who w).
    revert Hops Hle. destruct (Nat.eqb_spec w who) as [->|Hw]; cbn [andb]; intros Hops Hle; [|rewrite Nat.add_0_r; auto].
    assert (Hop : op <> OReceive /\ op <> OClone /\ op <> OReset) by (apply Hops, in_or_app; right; left; reflexivity).
    destruct Hop as (N0 & N1 & N2).
    destruct (@do_op_effect op (nodes_made who l) (core (run l who))) as (_ & lost & HP); [| |exact N1|exact N2|].
    { cbn [core th_alive th_counter]. apply thread_counted; [|exact Hle']. intros X.
      destruct (Hops OReset) as (_ & _ & Z); [apply in_or_app; auto|]. apply Z. reflexivity. }
    { intros Hm. rewrite Hm in Hle. destruct Hle; [auto|right; lia]. }
    assert (E2 : thread_ids (fst (do_op checks op (core (run l who)))) = flat_map tree_ids (th_trees (fst (do_op checks op (run l who))))).
    { rewrite <- do_op_core by exact N0. unfold thread_ids, core. cbn. rewrite app_nil_r. reflexivity. }
    assert (E3 : thread_ids (core (run l who)) = flat_map tree_ids (th_trees (run l who))).
    { unfold thread_ids, core. cbn. rewrite app_nil_r. reflexivity. }
    rewrite E2, E3 in HP. rewrite app_assoc in HP. destruct HP as [HP|HP].
    - assert (Hnew : NoDup ((if makes op then [N.of_nat (nodes_made who l)] else []) ++ flat_map tree_ids (th_trees (run l who)))).
      { destruct (makes op); [|exact I1]. cbn. constructor; [|exact I1]. intros X. apply I2 in X. lia. }
      split; [exact (Nodup_sub _ _ HP Hnew)|]. intros i Hi.
      assert (X : In i ((if makes op then [N.of_nat (nodes_made who l)] else []) ++ flat_map tree_ids (th_trees (run l who)))).
      { apply (Permutation_in _ HP). apply in_or_app. right. exact Hi. }
      apply in_app_iff in X as [X|X]; [|apply I2 in X; lia].
      destruct (makes op); [|destruct X]. destruct X as [<-|[]]. lia.
    - split; [exact (Nodup_sub _ _ HP I1)|]. intros i Hi.
      assert (X : In i (flat_map tree_ids (th_trees (run l who)))).
      { apply (Permutation_in _ HP). apply in_or_app. right. exact Hi. }
      apply I2 in X. lia. }
  destruct H as [Hd _]. split; [exact Hd|]. intros t Hin. apply ids_unique.
  assert (E : ids (tree_rdoc t) = tree_ids t).
  { clear. induction t as [f s|f ks IH] using tree_ind'; [reflexivity|]. cbn [tree_rdoc ids tree_ids r_info tree_info i_id]. f_equal.
    induction ks as [|k ks IHk]; [reflexivity|]. cbn [map flat_map]. rewrite IH by (left; reflexivity). f_equal. apply IHk. intros x Hx. apply IH. right. exact Hx. }
  rewrite E. clear - Hd Hin. induction (th_trees (run l who)) as [|x pool IH]; [destruct Hin|]. cbn [flat_map] in Hd. destruct Hin as [->|Hin].
  - clear - Hd. induction (tree_ids t) as [|y l' IHl]; [constructor|]. inversion Hd; subst. constructor; auto. intros H. apply H1. apply in_app_iff. auto.
  - apply IH; auto. clear - Hd. induction (tree_ids x) as [|y l' IHl]; [exact Hd|]. inversion Hd; auto.
Qed.

(** ** All the threads *)
Notation occ i l := (count_occ N.eq_dec l i).
Definition nodes_with (i : N) (sys : system) (threads : list nat) : nat :=
  occ i (flat_map (fun who => thread_ids (sys who)) threads).

Lemma nodes_with_same i sys sys' threads : (forall x, In x threads -> sys' x = sys x) -> nodes_with i sys' threads = nodes_with i sys threads.
Proof.
  intros H. unfold nodes_with. induction threads as [|x l IH]; [reflexivity|]. cbn [flat_map].
  rewrite (H x) by (left; reflexivity). rewrite !count_occ_app, IH; [reflexivity|]. intros y Hy. apply H. right. exact Hy.
Qed.

Lemma nodes_with_put i sys w th threads : NoDup threads ->
  nodes_with i (put_thread sys w th) threads + (if in_dec Nat.eq_dec w threads then occ i (thread_ids (sys w)) else 0) =
  nodes_with i sys threads + (if in_dec Nat.eq_dec w threads then occ i (thread_ids th) else 0).
Proof.
  intros HN. destruct (in_dec Nat.eq_dec w threads) as [Hin|Hin].
  - induction threads as [|x l IH]; [destruct Hin|]. inversion HN as [|? ? Hx HN']; subst. unfold nodes_with in *. cbn [flat_map]. rewrite !count_occ_app.
    destruct (Nat.eq_dec x w) as [->|Hne].
    + pose proof (@nodes_with_same i sys (put_thread sys w th) l) as S. unfold nodes_with in S. rewrite S.
      * unfold put_thread. rewrite Nat.eqb_refl. lia.
      * intros y Hy. unfold put_thread. destruct (Nat.eqb_spec y w) as [->|]; [contradiction|reflexivity].
    + destruct Hin as [Hin|Hin]; [congruence|]. specialize (IH HN' Hin).
      replace (put_thread sys w th x) with (sys x) by (unfold put_thread; rewrite (proj2 (Nat.eqb_neq x w) Hne); reflexivity). lia.
  - rewrite (@nodes_with_same i sys); [reflexivity|]. intros y Hy. unfold put_thread. destruct (Nat.eqb_spec y w) as [->|]; [contradiction|reflexivity].
Qed.

Lemma filter_more {A} (f g : A -> bool) l : (forall x, In x l -> f x = true -> g x = true) ->
  length (filter f l) <= length (filter g l) /\
  forall w, In w l -> f w = false -> g w = true -> S (length (filter f l)) <= length (filter g l).
Proof.
  induction l as [|x l IH]; intros H; [split; [cbn; lia|intros w []]|].
  destruct IH as [I1 I2]; [intros; apply H; [right; assumption|assumption]|]. pose proof (H x (or_introl eq_refl)) as Hx. cbn [filter]. split.
  - destruct (f x); [rewrite (Hx eq_refl); cbn; lia|]. destruct (g x); cbn; lia.
  - intros w [->|Hw] Hf Hg.
    + rewrite Hf, Hg. cbn. lia.
    + specialize (I2 w Hw Hf Hg). destruct (f x); [rewrite (Hx eq_refl); cbn; lia|]. destruct (g x); cbn; lia.
Qed.

(** C77.  Whatever the threads send each other: there are at most as many nodes with
    the same id as there are threads that made enough nodes (one per thread). *)
Theorem C77_collisions l threads i :
  no_clone_no_reset l -> no_wrap checks l ->
  NoDup threads -> (forall who op, In (who, op) l -> In who threads) ->
  count_occ N.eq_dec (flat_map (fun who => thread_ids (run l who)) threads) i <= length (made_more_than i l threads).
Proof.
  intros Hc Hw HN. change (occ i (flat_map (fun who => thread_ids (run l who)) threads)) with (nodes_with i (run l) threads).
  induction l as [|[w op] l IH] using rev_ind; intros Hin.
  - replace (nodes_with i (run []) threads) with 0; [lia|]. clear. unfold nodes_with. induction threads; [reflexivity|exact IHthreads].
  - assert (Hw' : no_wrap checks l).
    { destruct Hw as [Hw|Hw]; [left; exact Hw|right]. intros who. specialize (Hw who). rewrite nodes_made_snoc in Hw. lia. }
    specialize (IH (fun a b H => Hc a b (in_or_app _ _ _ (or_introl H))) Hw' (fun a b H => Hin a b (in_or_app _ _ _ (or_introl H)))).
    destruct (Hc w op) as [N1 N2]; [apply in_or_app; right; left; reflexivity|].
    assert (Hwt : In w threads) by (apply (Hin w op), in_or_app; right; left; reflexivity).
    assert (Hr : forall who, ~ In OReset (program_of who l)).
    { intros who X. unfold program_of in X. apply in_map_iff in X as ([w' o] & E & X). cbn in E. subst o. apply filter_In in X as [X _].
      destruct (Hc w' OReset) as [_ Z]; [apply in_or_app; left; exact X|]. apply Z. reflexivity. }
    destruct (@do_op_effect op (nodes_made w l) (run l w)) as (_ & lost & HP); [| |exact N1|exact N2|].
    { apply thread_counted; [apply Hr|]. destruct Hw' as [Y|Y]; [left; exact Y|right; apply Y]. }
    { intros Hm. destruct Hw as [Y|Y]; [left; exact Y|right]. specialize (Y w). rewrite nodes_made_snoc in Y. cbn [fst snd] in Y.
      rewrite Nat.eqb_refl, Hm in Y. cbn [andb] in Y. rewrite Nat.add_1_r in Y. exact Y. }
    (* what the step adds *)
    set (fresh := if (makes op && (i =? N.of_nat (nodes_made w l))%N)%bool then 1 else 0).
    assert (Hocc : occ i (sent_ids (snd (do_op checks op (run l w)))) + occ i (thread_ids (fst (do_op checks op (run l w)))) <=
                   occ i (thread_ids (run l w)) + fresh).
    { destruct HP as [HP|HP]; pose proof (proj1 (Permutation_count_occ N.eq_dec _ _) HP i) as HP'.
      all: rewrite !count_occ_app in HP'.
      - unfold fresh. destruct (makes op); cbn [count_occ andb] in HP' |- *; [|lia].
        destruct (N.eq_dec (N.of_nat (nodes_made w l)) i) as [<-|Hne]; [rewrite N.eqb_refl; lia|lia].
      - lia. }
    assert (Hstep : nodes_with i (run (l ++ [(w, op)])) threads <= nodes_with i (run l) threads + fresh).
    { rewrite run_snoc. unfold thread_step. cbn [fst snd]. destruct (do_op checks op (run l w)) as [th m]. cbn [fst snd] in Hocc.
      pose proof (@nodes_with_put i (run l) w th threads HN) as P1. destruct (in_dec Nat.eq_dec w threads) as [_|X]; [|contradiction].
      unfold deliver. destruct m as [[to t]|]; cbn [sent_ids count_occ] in Hocc; [|lia].
      set (sys1 := put_thread (run l) w th) in *.
      match goal with |- context [put_thread sys1 to ?x] => pose proof (@nodes_with_put i sys1 to x threads HN) as P2 end.
      cbv zeta. destruct (in_dec Nat.eq_dec to threads) as [_|X]; [|lia].
      assert (E : forall a : thread, occ i (thread_ids (Thread (th_counter a) (th_trees a) (th_inbox a ++ [t]) (th_alive a))) = occ i (thread_ids a) + occ i (tree_ids t)).
      { intros a. unfold thread_ids. cbn [th_trees th_inbox]. rewrite app_assoc, flat_map_app, count_occ_app. cbn [flat_map]. rewrite app_nil_r. reflexivity. }
      rewrite E in P2. lia. }
    unfold made_more_than in *.
    destruct (@filter_more nat (fun who => (i <? N.of_nat (nodes_made who l))%N) (fun who => (i <? N.of_nat (nodes_made who (l ++ [(w, op)])))%N) threads) as [F1 F2].
    { intros x _. rewrite nodes_made_snoc, !N.ltb_lt. lia. }
    unfold fresh in Hstep. destruct (makes op) eqn:Em; cbn [andb] in Hstep; [|lia].
    destruct (N.eqb_spec i (N.of_nat (nodes_made w l))) as [->|Hne]; [|lia].
    specialize (F2 w Hwt). rewrite nodes_made_snoc in F2. cbn [fst snd] in F2. rewrite Nat.eqb_refl, Em in F2. cbn [andb] in F2.
    rewrite N.ltb_irrefl in F2. specialize (F2 eq_refl). rewrite (proj2 (N.ltb_lt _ _)) in F2 by lia. specialize (F2 eq_refl). lia.
Qed.
End C77.
