(** Proofs about dividing space between panes. *)
From Verif Require Export SpecDivvy.
From Coq Require Import Permutation Sorted.

Set Implicit Arguments.

Lemma total_app a b : total (a ++ b) = (total a + total b)%N.
Proof. induction a; simpl; [reflexivity|]. rewrite IHa. lia. Qed.

Lemma fixed_total_app a b : fixed_total (a ++ b) = (fixed_total a + fixed_total b)%N.
Proof. induction a as [|[]]; simpl; auto. rewrite IHa. lia. Qed.

Lemma bind_Ok {X A B} (r : res X A) (k : A -> res X B) b :
  bind r k = Ok b -> exists a, r = Ok a /\ k a = Ok b.
Proof. destruct r; simpl; [eauto|discriminate]. Qed.

(** ** Fixed panes *)
Lemma fixed_spec sizes : forall alloc cookies,
  length alloc = length sizes ->
  let '(al, c) := allocate_fixed sizes alloc cookies in
  length al = length sizes /\ c = (cookies - fixed_total sizes)%N /\
  (forall i k, nth_error sizes i = Some (Fixed k) ->
     nth_error al i = Some (N.min k (cookies - fixed_total (firstn i sizes)))) /\
  (forall i s, nth_error sizes i = Some s -> (forall k, s <> Fixed k) -> nth_error al i = nth_error alloc i).
Proof.
  induction sizes as [|s sizes IH]; intros [|a alloc] cookies Hl; try discriminate.
  - simpl. split; auto. split; [lia|]. split; intros [|i]; discriminate.
  - injection Hl as Hl. destruct s as [k| |h]; simpl.
    + specialize (IH alloc (cookies - N.min cookies k)%N Hl).
      destruct (allocate_fixed sizes alloc _) as [al c]. destruct IH as (H1 & H2 & H3 & H4).
      split; [simpl; auto|]. split; [lia|]. split.
      * intros [|i] k' H; simpl in *.
        -- injection H as ->. f_equal. lia.
        -- rewrite (H3 _ _ H). f_equal. f_equal. lia.
      * intros [|i] s H Hs; simpl in *; [|eauto]. injection H as <-. destruct (Hs k eq_refl).
    + specialize (IH alloc cookies Hl).
      destruct (allocate_fixed sizes alloc _) as [al c]. destruct IH as (H1 & H2 & H3 & H4).
      split; [simpl; auto|]. split; [lia|]. split.
      * intros [|i] k' H; simpl in *; [discriminate|]. eauto.
      * intros [|i] s H Hs; simpl in *; eauto.
    + specialize (IH alloc cookies Hl).
      destruct (allocate_fixed sizes alloc _) as [al c]. destruct IH as (H1 & H2 & H3 & H4).
      split; [simpl; auto|]. split; [lia|]. split.
      * intros [|i] k' H; simpl in *; [discriminate|]. eauto.
      * intros [|i] s H Hs; simpl in *; eauto.
Qed.

Lemma fixed_sum sizes : forall cookies,
  let '(al, c) := allocate_fixed sizes (repeat 0%N (length sizes)) cookies in
  (total al + c = cookies)%N.
Proof.
  induction sizes as [|s sizes IH]; intros cookies; simpl; [lia|].
  destruct s as [k| |h]; simpl.
  - specialize (IH (cookies - N.min cookies k)%N). destruct (allocate_fixed _ _ _) as [al c]. simpl. lia.
  - specialize (IH cookies). destruct (allocate_fixed _ _ _) as [al c]. simpl. lia.
  - specialize (IH cookies). destruct (allocate_fixed _ _ _) as [al c]. simpl. lia.
Qed.

Lemma new_spec available sizes : let d := divvier_new available sizes in
  dv_sizes d = sizes /\ length (dv_alloc d) = length sizes /\ dv_cookies d = after_fixed available sizes /\
  (total (dv_alloc d) + dv_cookies d = available)%N /\
  (forall i k, nth_error sizes i = Some (Fixed k) ->
     nth_error (dv_alloc d) i = Some (N.min k (available - fixed_total (firstn i sizes)))) /\
  (forall i s, nth_error sizes i = Some s -> (forall k, s <> Fixed k) -> nth_error (dv_alloc d) i = Some 0%N).
Proof.
  unfold divvier_new. pose proof (@fixed_spec sizes (repeat 0%N (length sizes)) available (repeat_length _ _)) as H.
  pose proof (fixed_sum sizes available) as Hs.
  destruct (allocate_fixed _ _ _) as [al c]. destruct H as (H1 & H2 & H3 & H4). simpl.
  repeat (split; [solve [auto]|]). intros i s H Hn. rewrite (H4 _ _ H Hn). apply nth_error_repeat.
  apply nth_error_Some. congruence.
Qed.

Section Divvy.
Context {X : Type} (ovf : bool).
Notation res := (res X).

(** ** Machine sums *)
Lemma sumM_from_exact m l : forall acc, (acc + total l < m)%N ->
  sumM_from (X := X) m ovf acc l = Ok (acc + total l)%N.
Proof.
  induction l as [|x l IH]; intros acc H; simpl in *; [f_equal; lia|].
  unfold addM. destruct (N.ltb_spec (acc + x) m); [|lia]. simpl. rewrite IH by lia. f_equal. lia.
Qed.
Lemma sumM_exact m l : (total l < m)%N -> sumM (X := X) m ovf l = Ok (total l).
Proof. intros H. unfold sumM. rewrite sumM_from_exact by lia. f_equal. Qed.

Lemma mapM_length {A B} (f : A -> res B) l l' : mapM f l = Ok l' -> length l' = length l.
Proof.
  revert l'. induction l as [|x l IH]; simpl; intros l' H; [injection H as <-; reflexivity|].
  apply bind_Ok in H as (y & _ & H). apply bind_Ok in H as (ys & H1 & H). injection H as <-. simpl. f_equal. auto.
Qed.

(** ** Dynamic panes *)
Lemma dyn_spec sizes : forall alloc given al rest,
  length alloc = length sizes ->
  give_dynamic (X := X) sizes alloc given = Ok (al, rest) ->
  length al = length sizes /\
  (exists front, given = front ++ rest /\ length front = dynamic_count sizes /\
    (forall i, nth_error sizes i = Some Dynamic ->
     nth_error al i = nth_error front (dynamic_count (firstn i sizes))) /\
    ((forall i, nth_error sizes i = Some Dynamic -> nth_error alloc i = Some 0%N) ->
     total al = total alloc + total front)%N) /\
  (forall i s, nth_error sizes i = Some s -> s <> Dynamic -> nth_error al i = nth_error alloc i).
Proof.
  induction sizes as [|s sizes IH]; intros [|a alloc] given al rest Hl H; try discriminate; simpl in H.
  - injection H as <- <-. split; auto. split.
    + exists []. split; auto. split; auto. split; [intros [|i]; discriminate|]. intros _. reflexivity.
    + intros [|i]; discriminate.
  - injection Hl as Hl. destruct s as [k| |h].
    + destruct (give_dynamic sizes alloc given) as [[al' rest']|] eqn:E; simpl in H; [|discriminate]. injection H as <- <-.
      destruct (IH _ _ _ _ Hl E) as (H1 & (fr & H2 & H3 & H4 & H5) & H6).
      split; [simpl; auto|]. split.
      * exists fr. split; auto. split; auto. split. { intros [|i] Hi; simpl in *; [discriminate|auto]. }
        intros Hz. simpl. rewrite H5; [lia|]. intros i. apply (Hz (S i)).
      * intros [|i] s Hi Hs; simpl in *; auto. eauto.
    + destruct given as [|g given]; [discriminate|].
      destruct (give_dynamic sizes alloc given) as [[al' rest']|] eqn:E; simpl in H; [|discriminate]. injection H as <- <-.
      destruct (IH _ _ _ _ Hl E) as (H1 & (fr & H2 & H3 & H4 & H5) & H6).
      split; [simpl; auto|]. split.
      * exists (g :: fr). split; [simpl; congruence|]. split; [simpl; auto|]. split. { intros [|i] Hi; simpl in *; auto. }
        intros Hz. simpl. rewrite H5; [|intros i; apply (Hz (S i))]. specialize (Hz 0 eq_refl). simpl in Hz. injection Hz as ->. lia.
      * intros [|i] s Hi Hs; simpl in *; [congruence|]. eauto.
    + destruct (give_dynamic sizes alloc given) as [[al' rest']|] eqn:E; simpl in H; [|discriminate]. injection H as <- <-.
      destruct (IH _ _ _ _ Hl E) as (H1 & (fr & H2 & H3 & H4 & H5) & H6).
      split; [simpl; auto|]. split.
      * exists fr. split; auto. split; auto. split. { intros [|i] Hi; simpl in *; [discriminate|auto]. }
        intros Hz. simpl. rewrite H5; [lia|]. intros i. apply (Hz (S i)).
      * intros [|i] s Hi Hs; simpl in *; auto. eauto.
Qed.

Lemma dyn_total sizes : forall alloc given rest,
  length alloc = length sizes -> length given = dynamic_count sizes ->
  exists al, give_dynamic (X := X) sizes alloc (given ++ rest) = Ok (al, rest).
Proof.
  induction sizes as [|s sizes IH]; intros [|a alloc] given rest Hl Hg; try discriminate; simpl in *.
  - destruct given; [eauto|discriminate].
  - injection Hl as Hl. destruct s.
    + destruct (IH alloc given rest Hl Hg) as (al & ->). simpl. eauto.
    + destruct given as [|g given]; [discriminate|]. injection Hg as Hg. simpl.
      destruct (IH alloc given rest Hl Hg) as (al & ->). simpl. eauto.
    + destruct (IH alloc given rest Hl Hg) as (al & ->). simpl. eauto.
Qed.

(** ** Proportional panes *)

(** Which of the Proportional panes is at position [i]. *)
Fixpoint prop_index (sizes : list pane_size) (i : nat) : nat :=
  match sizes, i with
  | _, 0 => 0
  | [], _ => 0
  | Proportional _ :: s, S i' => S (prop_index s i')
  | _ :: s, S i' => prop_index s i'
  end.

Lemma prop_index_weights sizes : forall i h, nth_error sizes i = Some (Proportional h) ->
  nth_error (weights sizes) (prop_index sizes i) = Some h.
Proof.
  induction sizes as [|s sizes IH]; intros [|i] h H; try discriminate; simpl in *.
  - injection H as ->. reflexivity.
  - destruct s; simpl; auto.
Qed.

Lemma prop_index_lt sizes : forall i j h, nth_error sizes i = Some (Proportional h) -> i < j ->
  prop_index sizes i < prop_index sizes j.
Proof.
  induction sizes as [|s sizes IH]; intros [|i] j h H Hij; try discriminate; simpl in *.
  - injection H as ->. destruct j; [lia|]. lia.
  - destruct j; [lia|]. destruct s; simpl; try (eapply IH; eauto; lia).
    assert (prop_index sizes i < prop_index sizes j) by (eapply IH; eauto; lia). lia.
Qed.

Lemma weight_total_weights sizes : weight_total sizes = total (weights sizes).
Proof. induction sizes as [|[]]; simpl; congruence. Qed.

Lemma prop_spec sizes : forall alloc cookies given al c,
  length alloc = length sizes ->
  give_proportional (X := X) ovf sizes alloc cookies given = Ok (al, c) ->
  length al = length sizes /\
  (forall i h, nth_error sizes i = Some (Proportional h) ->
     nth_error al i = nth_error given (prop_index sizes i)) /\
  (forall i s, nth_error sizes i = Some s -> (forall h, s <> Proportional h) -> nth_error al i = nth_error alloc i) /\
  ((forall i h, nth_error sizes i = Some (Proportional h) -> nth_error alloc i = Some 0%N) ->
   total al = total alloc + total (firstn (length (weights sizes)) given))%N.
Proof.
  induction sizes as [|s sizes IH]; intros [|a alloc] cookies given al c Hl H; try discriminate; simpl in H.
  - injection H as <- <-. split; auto. split; [intros [|i]; discriminate|]. split; [intros [|i]; discriminate|].
    intros _. simpl. reflexivity.
  - injection Hl as Hl. destruct s as [k| |h].
    1,2: destruct (give_proportional ovf sizes alloc cookies given) as [[al' c']|] eqn:E; simpl in H; [|discriminate];
      injection H as <- <-; destruct (IH _ _ _ _ _ Hl E) as (H1 & H2 & H3 & H4);
      (split; [simpl; auto|]); (split; [intros [|i] h Hi; simpl in *; [discriminate|eauto]|]);
      (split; [intros [|i] s Hi Hs; simpl in *; eauto|]);
      intros Hz; simpl; rewrite H4; [lia|]; intros i h; apply (Hz (S i)).
    destruct given as [|g given]; [discriminate|]. apply bind_Ok in H as (c1 & E1 & H).
    destruct (give_proportional ovf sizes alloc c1 given) as [[al' c']|] eqn:E; simpl in H; [|discriminate].
    injection H as <- <-. destruct (IH _ _ _ _ _ Hl E) as (H1 & H2 & H3 & H4).
    split; [simpl; auto|]. split. { intros [|i] h' Hi; simpl in *; [reflexivity|eauto]. }
    split. { intros [|i] s Hi Hs; simpl in *; [|eauto]. injection Hi as <-. destruct (Hs h eq_refl). }
    intros Hz. simpl. rewrite H4; [|intros i h'; apply (Hz (S i))]. specialize (Hz 0 _ eq_refl). simpl in Hz. injection Hz as ->. lia.
Qed.

Lemma prop_total sizes : forall alloc cookies given,
  length alloc = length sizes -> length given = length (weights sizes) -> (total given <= cookies)%N ->
  exists al, give_proportional (X := X) ovf sizes alloc cookies given = Ok (al, (cookies - total given)%N).
Proof.
  induction sizes as [|s sizes IH]; intros [|a alloc] cookies given Hl Hg Ht; try discriminate; simpl in *.
  - destruct given; [|discriminate]. simpl. rewrite N.sub_0_r. eauto.
  - injection Hl as Hl. destruct s.
    1,2: destruct (IH alloc cookies given Hl Hg Ht) as (al & ->); simpl; eauto.
    destruct given as [|g given]; [discriminate|]. injection Hg as Hg. simpl in *.
    unfold subM. destruct (N.leb_spec g cookies); [|lia]. simpl.
    destruct (IH alloc (cookies - g)%N given Hl Hg) as (al & ->); [lia|]. simpl. exists (g :: al). do 2 f_equal. lia.
Qed.

(** *** Sorting *)
Definition before (a b : nat * N) : Prop := (snd b < snd a)%N \/ (snd a = snd b /\ fst a < fst b).

Lemma insert_perm x l : Permutation (x :: l) (insert_desc x l).
Proof.
  induction l as [|y l IH]; simpl; [auto|]. destruct (snd y <=? snd x)%N; [auto|].
  eapply perm_trans; [apply perm_swap|]. constructor. exact IH.
Qed.
Lemma sort_perm l : Permutation l (sort_desc l).
Proof. induction l as [|x l IH]; simpl; [auto|]. eapply perm_trans; [apply perm_skip, IH|apply insert_perm]. Qed.

Lemma insert_sorted x l : (forall y, In y l -> fst x < fst y) -> StronglySorted before l ->
  StronglySorted before (insert_desc x l).
Proof.
  induction l as [|y l IH]; intros Hx Hs; simpl.
  - constructor; constructor.
  - inversion Hs as [|? ? Hs' Hy]; subst. destruct (N.leb_spec (snd y) (snd x)).
    + constructor; [exact Hs|]. constructor.
      * destruct (N.eq_dec (snd x) (snd y)); [right|left; lia]. split; auto. apply Hx. left. reflexivity.
      * rewrite Forall_forall in Hy |- *. intros z Hz. specialize (Hy z Hz). unfold before in *.
        destruct (N.eq_dec (snd x) (snd z)); [right; split; auto; apply Hx; right; auto|left; lia].
    + constructor.
      * apply IH; auto. intros z Hz. apply Hx. right. auto.
      * rewrite Forall_forall in Hy |- *. intros z Hz. apply (Permutation_in _ (Permutation_sym (insert_perm x l))) in Hz.
        destruct Hz as [<-|Hz]; [left; lia|auto].
Qed.

Lemma sort_sorted l : StronglySorted (fun a b => fst a < fst b) l -> StronglySorted before (sort_desc l).
Proof.
  induction l as [|x l IH]; intros H; simpl; [constructor|].
  inversion H as [|? ? H1 H2]; subst. apply insert_sorted; auto.
  intros y Hy. apply (Permutation_in _ (Permutation_sym (sort_perm l))) in Hy. rewrite Forall_forall in H2. auto.
Qed.

Lemma enum_sorted (rems : list N) : forall k, StronglySorted (fun a b : nat * N => fst a < fst b) (combine (seq k (length rems)) rems).
Proof.
  induction rems as [|r rems IH]; intros k; simpl; [constructor|]. constructor; [auto|].
  apply Forall_forall. intros [i x] Hi. apply in_combine_l in Hi. apply in_seq in Hi. simpl. lia.
Qed.

Lemma enum_in (rems : list N) : forall k i x, In (i, x) (combine (seq k (length rems)) rems) <-> k <= i /\ nth_error rems (i - k) = Some x.
Proof.
  induction rems as [|r rems IH]; intros k i x; simpl.
  - split; [tauto|]. intros [_ H]. destruct (i - k); discriminate.
  - rewrite IH. split.
    + intros [H|[H1 H2]]; [injection H as <- <-; split; [lia|]; rewrite Nat.sub_diag; reflexivity|].
      split; [lia|]. replace (i - k) with (S (i - S k)) by lia. exact H2.
    + intros [H1 H2]. destruct (Nat.eq_dec i k) as [->|Hn].
      * rewrite Nat.sub_diag in H2. injection H2 as ->. auto.
      * right. split; [lia|]. replace (i - k) with (S (i - S k)) in H2 by lia. exact H2.
Qed.

Lemma sorted_firstn {A} (R : A -> A -> Prop) l : StronglySorted R l -> forall k a b,
  In a (firstn k l) -> In b (skipn k l) -> R a b.
Proof.
  induction 1 as [|x l Hs IH Hx]; intros [|k] a b Ha Hb; simpl in *; try tauto.
  destruct Ha as [<-|Ha]; [|eauto]. rewrite Forall_forall in Hx. apply Hx.
  rewrite <- (firstn_skipn k l). apply in_or_app. auto.
Qed.

(** *** Incrementing *)
Lemma increment_spec i : forall v, i < length v -> (forall a, In a v -> (a + 1 < USIZE)%N) ->
  exists v', increment (X := X) ovf i v = Ok v' /\ length v' = length v /\
    (forall j : nat, nth_error v' j = option_map (fun a : N => if Nat.eqb j i then (a + 1)%N else a) (nth_error v j)) /\
    total v' = (total v + 1)%N.
Proof.
  induction i as [|i IH]; intros [|a v] Hi Hb; simpl in Hi; try lia; simpl.
  - unfold addM. specialize (Hb a (or_introl eq_refl)). destruct (N.ltb_spec (a + 1) USIZE); [|lia]. simpl.
    eexists. split; [reflexivity|]. split; auto. split; [|simpl; lia].
    intros [|j]; simpl; [reflexivity|]. destruct (nth_error v j); reflexivity.
  - destruct (IH v) as (v' & -> & H1 & H2 & H3); [lia|intros; apply Hb; right; auto|]. simpl.
    eexists. split; [reflexivity|]. split; [simpl; auto|]. split; [|simpl; lia].
    intros [|j]; simpl; [reflexivity|apply H2].
Qed.

Lemma increment_all_spec is : forall v, NoDup is -> (forall i, In i is -> i < length v) ->
  (forall a, In a v -> (a + 1 < USIZE)%N) ->
  exists v', increment_all (X := X) ovf is v = Ok v' /\ length v' = length v /\
    (forall j a, nth_error v j = Some a ->
       (In j is -> nth_error v' j = Some (a + 1)%N) /\ (~ In j is -> nth_error v' j = Some a)) /\
    total v' = (total v + N.of_nat (length is))%N.
Proof.
  assert (Gen : forall is v (D : nat -> Prop), NoDup is -> (forall i, In i is -> i < length v) ->
    (forall i, In i is -> D i) -> (forall j a, D j -> nth_error v j = Some a -> (a + 1 < USIZE)%N) ->
    exists v', increment_all (X := X) ovf is v = Ok v' /\ length v' = length v /\
    (forall j a, nth_error v j = Some a ->
       (In j is -> nth_error v' j = Some (a + 1)%N) /\ (~ In j is -> nth_error v' j = Some a)) /\
    total v' = (total v + N.of_nat (length is))%N).
  { clear is. induction is as [|i is IH]; intros v D Hnd Hi HD Hb; simpl.
    - exists v. split; auto. split; auto. split; [|lia]. intros j a Ha. tauto.
    - inversion Hnd as [|? ? Hni Hnd']; subst.
      assert (E : exists v1, increment (X := X) ovf i v = Ok v1 /\ length v1 = length v /\
        (forall j : nat, nth_error v1 j = option_map (fun a : N => if Nat.eqb j i then (a + 1)%N else a) (nth_error v j)) /\
        total v1 = (total v + 1)%N).
      { clear IH. assert (Hl : i < length v) by (apply Hi; left; auto).
        destruct (nth_error v i) as [a|] eqn:Ea; [|apply nth_error_None in Ea; lia].
        assert (Ha : (a + 1 < USIZE)%N) by (eapply Hb; [apply HD; left; reflexivity|exact Ea]).
        clear - Ea Ha. revert v Ea. induction i as [|i IH]; intros [|x v] Ea; try discriminate; simpl in *.
        - injection Ea as ->. unfold addM. destruct (N.ltb_spec (a + 1) USIZE); [|lia]. simpl.
          eexists. split; [reflexivity|]. split; auto. split; [|simpl; lia].
          intros [|j]; simpl; [reflexivity|]. destruct (nth_error v j); reflexivity.
        - destruct (IH v Ea) as (v' & -> & H1 & H2 & H3). simpl.
          eexists. split; [reflexivity|]. split; [simpl; auto|]. split; [|simpl; lia].
          intros [|j]; simpl; [reflexivity|apply H2]. }
      destruct E as (v1 & -> & L1 & N1 & T1). simpl.
      destruct (IH v1 (fun j => D j /\ j <> i) Hnd') as (v' & -> & L2 & N2 & T2).
      + intros j Hj. rewrite L1. apply Hi. right. auto.
      + intros j Hj. split; [apply HD; right; auto|]. intros ->. auto.
      + intros j a [Hj Hne] Ha. rewrite N1 in Ha. destruct (nth_error v j) as [b|] eqn:Eb; [|discriminate].
        simpl in Ha. destruct (Nat.eqb_spec j i); [contradiction|]. injection Ha as <-. eauto.
      + exists v'. split; auto. split; [congruence|]. split; [|rewrite T2, T1; lia].
        intros j a Ha. specialize (N1 j). rewrite Ha in N1. simpl in N1.
        destruct (Nat.eqb_spec j i) as [->|Hne].
        * split; [|intros H; destruct H; auto]. intros _. destruct (N2 _ _ N1) as [_ H]. auto.
        * destruct (N2 _ _ N1) as [H1 H2]. split; [intros [->|H]; [congruence|auto]|intros H; apply H2; tauto]. }
  intros v Hnd Hi Hb. apply (Gen is v (fun _ => True)); auto.
  intros j a _ Ha. apply Hb. eapply nth_error_In. exact Ha.
Qed.

Lemma NoDup_firstn {A} k (l : list A) : NoDup l -> NoDup (firstn k l).
Proof.
  intros H. rewrite <- (firstn_skipn k l) in H. revert H. generalize (skipn k l). generalize (firstn k l).
  induction l0 as [|x l0 IH]; intros l1 H; simpl in *; [constructor|]. inversion H; subst. constructor; [|eauto].
  intros Hx. apply H2. apply in_or_app. auto.
Qed.

(** *** Shares *)
Section Shares.
Variables (c t : N) (hs : list N).
Hypothesis Ht : t = total hs.
Hypothesis Hpos : (0 < t)%N.
Let base := map (fun h => c * h / t)%N hs.
Let rems := map (fun h => (c * h) mod t)%N hs.

Lemma shares_eq : (t * total base + total rems = c * t)%N.
Proof.
  replace (c * t)%N with (c * total hs)%N by (rewrite Ht; reflexivity).
  unfold base, rems. clear Ht. induction hs as [|h l IH]; simpl; [lia|].
  assert (Hn : t <> 0%N) by lia. pose proof (N.div_mod (c * h) t Hn). rewrite !N.mul_add_distr_l. cbv zeta in IH. lia.
Qed.

Lemma base_le : (total base <= c)%N.
Proof. pose proof shares_eq. nia. Qed.

Lemma rems_lt x : In x rems -> (x < t)%N.
Proof. unfold rems. intros H. apply in_map_iff in H as (h & <- & _). apply N.mod_lt. lia. Qed.

Let leftover := (c - total base)%N.

Lemma leftover_eq : (total rems = leftover * t)%N.
Proof. pose proof shares_eq. pose proof base_le. unfold leftover. nia. Qed.

Definition rsum (l : list (nat * N)) : N := total (map snd l).

Lemma rsum_perm l l' : Permutation l l' -> rsum l = rsum l'.
Proof. unfold rsum. induction 1; simpl; lia. Qed.

Lemma enum_sum k l : rsum (combine (seq k (length l)) l) = total l.
Proof. unfold rsum. revert k. induction l as [|x l IH]; intros k; simpl; [reflexivity|]. rewrite IH. reflexivity. Qed.

Lemma bounded_sum l : (forall x, In x l -> snd x < t)%N -> (rsum l <= N.of_nat (length l) * t)%N /\
  (l <> [] -> (rsum l < N.of_nat (length l) * t)%N).
Proof.
  induction l as [|x l IH]; intros H.
  - split; [reflexivity|]. congruence.
  - unfold rsum in *. cbn [length map total fold_right]. fold (total (map snd l)). rewrite Nat2N.inj_succ, N.mul_succ_l.
    destruct IH as [IH _]; [intros; apply H; right; auto|]. pose proof (H x (or_introl eq_refl)). split; [lia|]. intros _. lia.
Qed.

Let sorted := sort_desc (combine (seq 0 (length rems)) rems).
Let taken := firstn (N.to_nat leftover) sorted.

Lemma sorted_in i x : In (i, x) sorted <-> nth_error rems i = Some x.
Proof.
  unfold sorted. split; intros H.
  - apply (Permutation_in _ (Permutation_sym (sort_perm _))) in H. apply enum_in in H as [_ H].
    rewrite Nat.sub_0_r in H. exact H.
  - apply (Permutation_in _ (sort_perm _)). apply enum_in. split; [lia|]. rewrite Nat.sub_0_r. exact H.
Qed.

Lemma sorted_bound : forall x, In x sorted -> (snd x < t)%N.
Proof. intros [i x] H. apply sorted_in in H. apply rems_lt. eapply nth_error_In. exact H. Qed.

Lemma sorted_sum : rsum sorted = (leftover * t)%N.
Proof. unfold sorted. rewrite <- (rsum_perm (sort_perm _)), enum_sum. apply leftover_eq. Qed.

Lemma leftover_le : (N.to_nat leftover <= length sorted)%nat.
Proof. pose proof sorted_sum. destruct (bounded_sum _ sorted_bound) as [H1 _]. nia. Qed.

Lemma taken_length : length taken = N.to_nat leftover.
Proof. unfold taken. apply firstn_length_le. apply leftover_le. Qed.

Lemma zeros_sum l : (forall x, In x l -> snd x = 0%N) -> rsum l = 0%N.
Proof. induction l as [|x l IH]; intros H; unfold rsum in *; simpl; [reflexivity|]. rewrite (H x) by (left; reflexivity). rewrite IH; [reflexivity|intros; apply H; right; auto]. Qed.

(** Whoever gets an extra cell has a positive remainder. *)
Lemma taken_positive i x : In (i, x) taken -> (0 < x)%N.
Proof.
  intros H. destruct (N.eq_dec x 0) as [->|]; [exfalso|lia].
  pose proof (sort_sorted (enum_sorted rems 0)) as Hs. fold sorted in Hs.
  apply in_split in H as (l1 & l2 & E).
  assert (E2 : sorted = l1 ++ (i, 0%N) :: (l2 ++ skipn (N.to_nat leftover) sorted)).
  { rewrite <- (firstn_skipn (N.to_nat leftover) sorted) at 1. fold taken. rewrite E, <- app_assoc. reflexivity. }
  assert (Hz : rsum (l2 ++ skipn (N.to_nat leftover) sorted) = 0%N).
  { apply zeros_sum. intros y Hy. rewrite E2 in Hs. clear - Hs Hy. set (l3 := l2 ++ _) in *. clearbody l3.
    induction l1 as [|z l1 IH]; simpl in Hs; inversion Hs; subst; auto.
    rewrite Forall_forall in H2. destruct (H2 y Hy) as [H|[H _]]; simpl in H; lia. }
  pose proof sorted_sum as Hsum. rewrite E2 in Hsum. unfold rsum in *. rewrite map_app, total_app in Hsum. simpl in Hsum.
  assert (Hl : (rsum l1 <= N.of_nat (length l1) * t)%N).
  { apply bounded_sum. intros y Hy. apply sorted_bound. rewrite E2. apply in_or_app. auto. }
  unfold rsum in Hl. pose proof taken_length as Hlen. rewrite E, app_length in Hlen. simpl in Hlen. nia.
Qed.

Lemma taken_before i x j y : In (i, x) taken -> nth_error rems j = Some y -> ~ In j (map fst taken) -> before (i, x) (j, y).
Proof.
  intros Hi Hj Hn. pose proof (sort_sorted (enum_sorted rems 0)) as Hs. fold sorted in Hs.
  apply sorted_in in Hj. rewrite <- (firstn_skipn (N.to_nat leftover) sorted) in Hj. apply in_app_or in Hj as [Hj|Hj].
  - exfalso. apply Hn. apply in_map_iff. exists (j, y). auto.
  - eapply sorted_firstn; eauto.
Qed.

Lemma taken_nodup : NoDup (map fst taken).
Proof.
  unfold taken. rewrite <- firstn_map. apply NoDup_firstn. unfold sorted.
  eapply Permutation_NoDup; [apply Permutation_map, sort_perm|].
  assert (E : forall k (l : list N), map fst (combine (seq k (length l)) l) = seq k (length l)).
  { intros k l. revert k. induction l; intros k; simpl; [|rewrite IHl]; reflexivity. }
  rewrite E. apply seq_NoDup.
Qed.

Lemma taken_range i : In i (map fst taken) -> i < length hs.
Proof.
  intros H. apply in_map_iff in H as ([i' x] & <- & H). simpl.
  assert (Hin : In (i', x) sorted).
  { rewrite <- (firstn_skipn (N.to_nat leftover) sorted). apply in_or_app. left. exact H. }
  apply sorted_in in Hin.
  assert (i' < length rems) by (apply nth_error_Some; congruence). unfold rems in *. rewrite map_length in *. auto.
Qed.
End Shares.
End Divvy.
