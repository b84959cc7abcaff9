(** Dividing space between panes (C28-C30, and the allocation part of C37).

    [divvy ovf available sizes dyn]: the sizes given to the subpanes of a Horz or
    Vert, when [dyn] are the sizes of the contents of its Dynamic subpanes.
    [ovf]: compiled with overflow checks or not (the theorems hold for both).
    Vocabulary: SpecDivvy. *)
From Verif Require Export PDivvy2.

Set Implicit Arguments.

Section Divvy.
Context {X : Type} (ovf : bool).
Variables (available : N) (sizes : list pane_size) (dyn : list N).
Notation divvied := (divvy (X := X) ovf available sizes dyn).

(** C29.  A Fixed(k) pane receives k, or what is left after the earlier Fixed
    panes if that is less.  Nothing else plays a role. *)
Theorem C29_fixed_first alloc i k :
  divvied = Ok alloc -> nth_error sizes i = Some (Fixed k) ->
  nth_error alloc i = Some (N.min k (available - fixed_total (firstn i sizes))).
Proof. intros H. apply (@give_ok X ovf _ _ _ _ H). Qed.

(** C37.  The nth Dynamic pane receives the nth requested size. *)
Theorem C37_dynamic_allocation alloc i :
  divvied = Ok alloc -> nth_error sizes i = Some Dynamic ->
  nth_error alloc i = nth_error dyn (dynamic_count (firstn i sizes)).
Proof. intros H. apply (@give_ok X ovf _ _ _ _ H). Qed.

(** Every pane receives a size. *)
Theorem C28_one_size_each alloc : divvied = Ok alloc -> length alloc = length sizes.
Proof. intros H. apply (@give_ok X ovf _ _ _ _ H). Qed.

Hypothesis Hdiv : divisible available sizes.
Hypothesis Hlen : length dyn = dynamic_count sizes.
Hypothesis Hfit : (total dyn <= after_fixed available sizes)%N.

(** C28.  The division succeeds. *)
Theorem C28_division_succeeds : exists alloc, divvied = Ok alloc.
Proof. destruct (@divvy_spec X ovf _ _ _ Hdiv Hlen Hfit) as (al & H & _). eauto. Qed.

(** C28.  No more than the available space is given out. *)
Theorem C28_never_over_allocated alloc : divvied = Ok alloc -> (total alloc <= available)%N.
Proof. destruct (@divvy_spec X ovf _ _ _ Hdiv Hlen Hfit) as (al & H & H1 & _). rewrite H. intros [= <-]. auto. Qed.

(** C28.  With a Proportional pane, all of it is given out. *)
Theorem C28_all_space_used alloc h :
  divvied = Ok alloc -> In (Proportional h) sizes -> total alloc = available.
Proof.
  destruct (@divvy_spec X ovf _ _ _ Hdiv Hlen Hfit) as (al & H & _ & H1 & _). rewrite H. intros [= <-] Hin.
  apply H1. clear - Hin. induction sizes as [|[] s IH]; simpl in *; try (destruct Hin as [Hin|Hin]; [discriminate|]; auto).
  - tauto. - congruence.
Qed.

(** C28.  Without one, what the Fixed and Dynamic panes leave is not used. *)
Theorem C28_rest_unused alloc :
  divvied = Ok alloc -> (forall h, ~ In (Proportional h) sizes) ->
  (total alloc = available - after_dynamic available sizes dyn)%N.
Proof.
  destruct (@divvy_spec X ovf _ _ _ Hdiv Hlen Hfit) as (al & H & _ & _ & H1 & _). rewrite H. intros [= <-] Hno.
  apply H1. destruct (weights sizes) eqn:E; auto. exfalso.
  destruct (@weights_in sizes) as (h & Hh); [congruence|]. eapply Hno. eauto.
Qed.

Let space := after_dynamic available sizes dyn.

(** The exact share of a pane of weight [h] is [space * h / weight_total]; its
    integer part and (the numerator of) its fractional part: *)
Let floor_share (h : N) : N := (space * h / weight_total sizes)%N.
Let fraction (h : N) : N := ((space * h) mod weight_total sizes)%N.

(** C30.  Each Proportional pane receives its exact share, or if that is not an
    integer, its share rounded down or up. *)
Theorem C30_floor_or_ceiling alloc i h :
  divvied = Ok alloc -> nth_error sizes i = Some (Proportional h) ->
  nth_error alloc i = Some (floor_share h) \/
  (nth_error alloc i = Some (floor_share h + 1)%N /\ (0 < fraction h)%N).
Proof.
  destruct (@divvy_spec X ovf _ _ _ Hdiv Hlen Hfit) as (al & H & _ & _ & _ & H1). rewrite H. intros [= <-] Hi.
  destruct (H1 _ _ Hi) as [A B]. unfold floor_share, fraction. rewrite weight_total_weights. fold space in A, B.
  destruct (in_dec Nat.eq_dec (prop_index sizes i) (extra space (weights sizes))) as [Hin|Hin]; [right|left; auto].
  split; auto. eapply extra_spec; [|apply prop_index_weights; eauto|exact Hin].
  destruct Hdiv as (_ & _ & _ & Hp). rewrite <- weight_total_weights. apply Hp. exists h. eapply nth_error_In. eauto.
Qed.

(** C30.  A pane that is rounded up has a larger fractional part than one that
    is not, or the same and is to the left of it. *)
Theorem C30_largest_fractions_first alloc i h j k :
  divvied = Ok alloc ->
  nth_error sizes i = Some (Proportional h) -> nth_error sizes j = Some (Proportional k) ->
  nth_error alloc i = Some (floor_share h + 1)%N -> nth_error alloc j = Some (floor_share k) ->
  (fraction k < fraction h)%N \/ (fraction k = fraction h /\ i < j).
Proof.
  destruct (@divvy_spec X ovf _ _ _ Hdiv Hlen Hfit) as (al & H & _ & _ & _ & H1). rewrite H. intros [= <-] Hi Hj.
  destruct (H1 _ _ Hi) as [A B]. destruct (H1 _ _ Hj) as [A' B']. unfold floor_share, fraction. rewrite weight_total_weights. fold space in A, B, A', B'.
  intros Ei Ej.
  destruct (in_dec Nat.eq_dec (prop_index sizes i) (extra space (weights sizes))) as [Hin|Hin].
  2:{ specialize (B Hin). rewrite B in Ei. injection Ei as Ei. lia. }
  destruct (in_dec Nat.eq_dec (prop_index sizes j) (extra space (weights sizes))) as [Hjn|Hjn].
  { specialize (A' Hjn). rewrite A' in Ej. injection Ej as Ej. lia. }
  destruct (@extra_spec space (weights sizes)) with (i := prop_index sizes i) (h := h) as [_ Hx]; auto.
  - destruct Hdiv as (_ & _ & _ & Hp). rewrite <- weight_total_weights. apply Hp. exists h. eapply nth_error_In. eauto.
  - apply prop_index_weights. auto.
  - destruct (Hx (prop_index sizes j) k) as [Hl|[He Hl]]; auto.
    + apply prop_index_weights. auto.
    + right. split; auto. destruct (Nat.lt_trichotomy i j) as [|[->|Hji]]; auto; [lia|].
      pose proof (@prop_index_lt sizes j i k Hj Hji). lia.
Qed.

(** C30.  A larger weight never receives less. *)
Theorem C30_monotone alloc i h j k a b :
  divvied = Ok alloc ->
  nth_error sizes i = Some (Proportional h) -> nth_error sizes j = Some (Proportional k) ->
  nth_error alloc i = Some a -> nth_error alloc j = Some b ->
  (h < k)%N -> (a <= b)%N.
Proof.
  intros Hok Hi Hj Ha Hb Hlt.
  assert (Hpos : (0 < weight_total sizes)%N).
  { destruct Hdiv as (_ & _ & _ & Hp). apply Hp. exists h. eapply nth_error_In. eauto. }
  assert (Hf : (floor_share h <= floor_share k)%N).
  { unfold floor_share. apply N.div_le_mono; [lia|]. apply N.mul_le_mono_l. lia. }
  destruct (@C30_floor_or_ceiling alloc i h Hok Hi) as [Ei|[Ei Fi]]; rewrite Ha in Ei; injection Ei as Ei;
  destruct (@C30_floor_or_ceiling alloc j k Hok Hj) as [Ej|[Ej Fj]]; rewrite Hb in Ej; injection Ej as Ej; try lia.
  destruct (N.eq_dec (floor_share h) (floor_share k)) as [E|E]; [exfalso|lia].
  assert (Hfr : (fraction h <= fraction k)%N).
  { unfold fraction, floor_share in *. pose proof (N.div_mod (space * h) (weight_total sizes)).
    pose proof (N.div_mod (space * k) (weight_total sizes)). nia. }
  destruct (@C30_largest_fractions_first alloc i h j k) as [Hx|[Hx _]]; auto; try congruence; try lia.
  assert (Hsp : space = 0%N).
  { unfold fraction, floor_share in *. pose proof (N.div_mod (space * h) (weight_total sizes)).
    pose proof (N.div_mod (space * k) (weight_total sizes)). rewrite E, Hx in *. nia. }
  unfold fraction in Fi. rewrite Hsp in Fi. simpl in Fi. rewrite N.mod_0_l in Fi; lia.
Qed.

End Divvy.

(** C30.  Proportional panes that all have weight 0 make the division panic
    (division by zero), whatever the space. *)
Theorem C30_zero_weight_refuted (X : Type) ovf available :
  divvy (X := X) ovf available [Proportional 0] [] = Panic PDivZero.
Proof. unfold divvy, finish, allocate_dynamic, divvier_new, allocate_proportional. simpl.
  destruct (N.leb_spec 0 available); [|lia]. simpl. unfold mulM. rewrite N.mul_0_r. reflexivity.
Qed.

(** C30, and very large weights overflow: with checks the division panics, and
    without checks two of four cells are given to nobody. *)
Theorem C30_overflow_refuted (X : Type) :
  divvy (X := X) true 2 [Proportional (2 ^ 63)] [] = Panic POverflow /\
  divvy (X := X) false 4 [Proportional (2 ^ 63); Proportional 1] [] = Ok [1; 1]%N.
Proof. split; vm_compute; reflexivity. Qed.

(** The tests of divvy.rs:118-144, and a mixture of all kinds. *)
Definition mixed : list pane_size := [Proportional 10; Fixed 3; Dynamic; Proportional 11; Fixed 2; Proportional 12; Dynamic].
Example C28_case_mixed :
  divisible 20 mixed /\ length [4; 1]%N = dynamic_count mixed /\ (total [4; 1] <= after_fixed 20 mixed)%N /\
  divvy (X := unit) true 20 mixed [4; 1]%N = Ok [3; 3; 4; 3; 2; 4; 1]%N.
Proof.
  split; [|split; [reflexivity|split; [vm_compute; discriminate|reflexivity]]].
  split; [reflexivity|]. split; [reflexivity|]. split; [reflexivity|]. intros _. reflexivity.
Qed.
Example C30_case_tests :
  divvy (X := unit) true 34583 (map Proportional [55; 98; 55; 7; 12; 200]%N) [] = Ok [4455; 7937; 4454; 567; 972; 16198]%N /\
  divvy (X := unit) true 5 (map Proportional [10; 10; 11]%N) [] = Ok [2; 1; 2]%N /\
  divvy (X := unit) true 5 (map Proportional [2; 0; 1]%N) [] = Ok [3; 0; 2]%N.
Proof. repeat split. Qed.
Example C29_case_first_come : divvy (X := unit) true 5 [Fixed 3; Proportional 1; Fixed 4; Fixed 1] [] = Ok [3; 0; 2; 0]%N.
Proof. reflexivity. Qed.
