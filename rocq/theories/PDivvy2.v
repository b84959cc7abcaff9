(** Proofs about the whole division of space. *)
From Verif Require Export PDivvy.
From Coq Require Import Permutation Sorted.

Set Implicit Arguments.

Section Divvy2.
Context {X : Type} (ovf : bool).

Lemma mapM_ok {A B} (f : A -> res X B) (g : A -> B) l :
  (forall x, In x l -> f x = Ok (g x)) -> mapM f l = Ok (map g l).
Proof.
  induction l as [|x l IH]; intros H; simpl; [reflexivity|]. rewrite (H x) by (left; auto). simpl.
  rewrite IH; [reflexivity|]. intros; apply H; right; auto.
Qed.

Lemma in_total x l : In x l -> (x <= total l)%N.
Proof. induction l as [|y l IH]; simpl; [tauto|]. intros [->|H]; [lia|]. specialize (IH H). lia. Qed.

(** The extra cells, as positions among the weights. *)
Definition extra (c : N) (hs : list N) : list nat :=
  let t := total hs in
  let base := map (fun h => c * h / t)%N hs in
  let rems := map (fun h => (c * h) mod t)%N hs in
  map fst (firstn (N.to_nat (c - total base)) (sort_desc (combine (seq 0 (length rems)) rems))).

(** [allocate_proportional], when nothing overflows. *)
Lemma proportional_ok d :
  length (dv_alloc d) = length (dv_sizes d) ->
  (forall i h, nth_error (dv_sizes d) i = Some (Proportional h) -> nth_error (dv_alloc d) i = Some 0%N) ->
  (dv_cookies d < USIZE)%N -> (dv_cookies d * weight_total (dv_sizes d) < USIZE)%N -> (weight_total (dv_sizes d) < USIZE)%N ->
  (weights (dv_sizes d) <> [] -> (0 < weight_total (dv_sizes d))%N) ->
  let c := dv_cookies d in let hs := weights (dv_sizes d) in let t := total hs in
  exists al c', allocate_proportional (X := X) ovf d = Ok (Divvier (dv_sizes d) al c') /\
    length al = length (dv_sizes d) /\
    total al = (total (dv_alloc d) + (match hs with [] => 0 | _ => c end))%N /\
    (forall i s, nth_error (dv_sizes d) i = Some s -> (forall h, s <> Proportional h) -> nth_error al i = nth_error (dv_alloc d) i) /\
    (forall i h, nth_error (dv_sizes d) i = Some (Proportional h) ->
       (In (prop_index (dv_sizes d) i) (extra c hs) -> nth_error al i = Some (c * h / t + 1)%N) /\
       (~ In (prop_index (dv_sizes d) i) (extra c hs) -> nth_error al i = Some (c * h / t)%N)).
Proof.
  intros Hlen Hz Hc Hct Ht Hpos c hs t. unfold allocate_proportional. fold hs.
  rewrite (weight_total_weights (dv_sizes d)) in *. fold hs in Hct, Ht, Hpos. fold t in Hct, Ht, Hpos. fold c in Hc, Hct. fold c.
  rewrite sumM_exact by exact Ht. simpl. fold t.
  assert (Hmul : forall h, In h hs -> (c * h < USIZE)%N).
  { intros h Hh. apply in_total in Hh. fold t in Hh. eapply N.le_lt_trans; [apply N.mul_le_mono_l; exact Hh|exact Hct]. }
  destruct (list_eq_dec N.eq_dec hs []) as [E|E].
  - assert (E0 : forall i h, nth_error (dv_sizes d) i <> Some (Proportional h)).
    { intros i h H. apply prop_index_weights in H. fold hs in H. rewrite E in H. destruct (prop_index (dv_sizes d) i); discriminate. }
    rewrite E. simpl. unfold subM. rewrite N.sub_0_r. destruct (N.leb_spec 0 c); [|lia]. simpl. rewrite firstn_nil. simpl.
    destruct (@prop_total X ovf (dv_sizes d) (dv_alloc d) c []) as (al & Hal); auto.
    { fold hs. rewrite E. reflexivity. }
    change (total []) with 0%N in Hal; rewrite N.sub_0_r in Hal; rewrite Hal; simpl. destruct (@prop_spec X ovf _ _ _ _ _ _ Hlen Hal) as (H1 & H2 & H3 & H4).
    exists al, c. split; [reflexivity|]. split; auto. split.
    + rewrite H4 by auto. rewrite firstn_nil. reflexivity.
    + split; auto. intros i h Hi. destruct (E0 _ _ Hi).
  - specialize (Hpos E).
    rewrite (mapM_ok _ (fun h => c * h / t)%N).
    2:{ intros h Hh. unfold mulM. specialize (Hmul h Hh). destruct (N.ltb_spec (c * h) USIZE); [|lia]. simpl.
        unfold divM. destruct (N.eqb_spec t 0); [lia|reflexivity]. }
    cbn [bind]. set (base := map _ hs).
    pose proof (@base_le c t hs eq_refl Hpos) as Hb. fold base in Hb.
    rewrite sumM_exact by lia. cbn [bind]. unfold subM. destruct (N.leb_spec (total base) c); [|lia]. cbn [bind].
    rewrite (mapM_ok _ (fun h => (c * h) mod t)%N).
    2:{ intros h Hh. unfold mulM. specialize (Hmul h Hh). destruct (N.ltb_spec (c * h) USIZE); [|lia]. simpl.
        unfold modM. destruct (N.eqb_spec t 0); [lia|reflexivity]. }
    cbn [bind].
    set (is := map fst _).
    assert (Eis : is = extra c hs) by reflexivity.
    assert (His : length is = N.to_nat (c - total base)).
    { unfold is. rewrite map_length. apply (@taken_length c t hs eq_refl Hpos). }
    destruct (N.eq_dec (c - total base) 0) as [E0|E0].
    + assert (is = []) by (destruct is; [auto|simpl in His; lia]). rewrite H0. simpl.
      destruct (@prop_total X ovf (dv_sizes d) (dv_alloc d) c base) as (al & Hal); auto.
      { unfold base. apply map_length. }
      rewrite Hal. simpl. destruct (@prop_spec X ovf _ _ _ _ _ _ Hlen Hal) as (H1 & H2 & H3 & H4).
      eexists al, _. split; [reflexivity|]. split; auto. split.
      * rewrite H4 by auto. rewrite firstn_all2 by (unfold base; rewrite map_length; fold hs; lia).
        destruct hs; [congruence|]. f_equal. lia.
      * split; auto. intros i h Hi. rewrite (H2 _ _ Hi). rewrite <- Eis, H0. split; [intros []|]. intros _.
        unfold base. erewrite map_nth_error; [reflexivity|]. apply prop_index_weights. auto.
    + assert (Hbound : forall a, In a base -> (a + 1 < USIZE)%N).
      { intros a Ha. apply in_total in Ha. lia. }
      destruct (@increment_all_spec X ovf is base) as (given & -> & G1 & G2 & G3); auto.
      { apply taken_nodup. }
      { intros i Hi. unfold base. rewrite map_length. eapply (@taken_range c t hs eq_refl Hpos). exact Hi. }
      cbn [bind].
      assert (Hg : (total given = c)%N) by (rewrite G3, His, N2Nat.id; lia).
      destruct (@prop_total X ovf (dv_sizes d) (dv_alloc d) c given) as (al & Hal); auto.
      { rewrite G1. unfold base. apply map_length. } { lia. }
      rewrite Hal. simpl. destruct (@prop_spec X ovf _ _ _ _ _ _ Hlen Hal) as (H1 & H2 & H3 & H4).
      eexists al, _. split; [reflexivity|]. split; auto. split.
      * rewrite H4 by auto. rewrite firstn_all2 by (rewrite G1; unfold base; rewrite map_length; fold hs; lia).
        destruct hs; [congruence|]. f_equal. lia.
      * split; auto. intros i h Hi. rewrite (H2 _ _ Hi). rewrite <- Eis. apply G2.
        unfold base. erewrite map_nth_error; [reflexivity|]. apply prop_index_weights. auto.
Qed.

(** The extra cells go to the largest remainders, the leftmost first. *)
Lemma extra_spec c hs : (0 < total hs)%N -> forall i h, nth_error hs i = Some h -> In i (extra c hs) ->
  (0 < (c * h) mod total hs)%N /\
  forall j k, nth_error hs j = Some k -> ~ In j (extra c hs) ->
    ((c * k) mod total hs < (c * h) mod total hs)%N \/
    (((c * k) mod total hs)%N = ((c * h) mod total hs)%N /\ i < j).
Proof.
  intros Hpos i h Hi Hin. unfold extra in Hin. apply in_map_iff in Hin as ([i' x] & E & Hin). simpl in E. subst i'.
  set (t := total hs) in *.
  assert (Hx : (x = (c * h) mod t)%N).
  { assert (Hs : In (i, x) (sort_desc (combine (seq 0 (length (map (fun h => (c * h) mod t)%N hs))) (map (fun h => (c * h) mod t)%N hs)))).
    { rewrite <- (firstn_skipn (N.to_nat (c - total (map (fun h : N => c * h / t)%N hs)))). apply in_or_app. left. exact Hin. }
    apply (@sorted_in c t hs eq_refl Hpos) in Hs. erewrite map_nth_error in Hs by exact Hi. congruence. }
  subst x. split; [apply (@taken_positive c t hs eq_refl Hpos _ _ Hin)|].
  intros j k Hj Hn. destruct (@taken_before c t hs eq_refl Hpos i _ j ((c * k) mod t)%N Hin) as [H|[H1 H2]].
  - erewrite map_nth_error; [reflexivity|exact Hj].
  - exact Hn.
  - left. exact H.
  - right. simpl in *. split; auto.
Qed.

Lemma give_ok available sizes dyn al :
  divvy (X := X) ovf available sizes dyn = Ok al ->
  length al = length sizes /\
  (forall i k, nth_error sizes i = Some (Fixed k) ->
     nth_error al i = Some (N.min k (available - fixed_total (firstn i sizes)))) /\
  (forall i, nth_error sizes i = Some Dynamic -> nth_error al i = nth_error dyn (dynamic_count (firstn i sizes))) /\
  length dyn = dynamic_count sizes.
Proof.
  unfold divvy, finish, allocate_dynamic. intros H.
  destruct (new_spec available sizes) as (N1 & N2 & N3 & N4 & N5 & N6). set (d := divvier_new available sizes) in *.
  apply bind_Ok in H as (d2 & H & H2). apply bind_Ok in H as (sum & Hs & H).
  destruct (sum <=? dv_cookies d)%N eqn:E; [|discriminate]. apply bind_Ok in H as ([al1 rest] & Hd & H).
  destruct rest; [|discriminate]. injection H as <-. rewrite N1 in *.
  destruct (dyn_spec _ _ _ N2 Hd) as (D1 & (fr & D2 & D3 & D4 & D5) & D6). rewrite app_nil_r in D2. subst fr.
  apply bind_Ok in H2 as (d3 & H2 & H). injection H as <-. unfold allocate_proportional in H2. simpl in H2.
  do 6 (apply bind_Ok in H2 as (? & _ & H2)).
  apply bind_Ok in H2 as ([al2 c2] & Hp & H2).
  injection H2 as <-. simpl. destruct (@prop_spec X ovf _ _ _ _ _ _ D1 Hp) as (P1 & P2 & P3 & P4).
  split; auto. split; [|split; auto].
  - intros i k Hi. erewrite P3, D6; eauto; congruence.
  - intros i Hi. erewrite P3; eauto. congruence.
Qed.

Lemma weights_in sizes : weights sizes <> [] -> exists h, In (Proportional h) sizes.
Proof.
  induction sizes as [|[]]; simpl; try congruence; intros H; [| |eauto].
  - destruct IHsizes; eauto. - destruct IHsizes; eauto.
Qed.

Lemma divvy_spec available sizes dyn :
  divisible available sizes -> length dyn = dynamic_count sizes -> (total dyn <= after_fixed available sizes)%N ->
  let c := after_dynamic available sizes dyn in let hs := weights sizes in
  exists al, divvy (X := X) ovf available sizes dyn = Ok al /\
    (total al <= available)%N /\ (hs <> [] -> total al = available) /\
    (hs = [] -> (total al = available - c)%N) /\
    (forall i h, nth_error sizes i = Some (Proportional h) ->
       (In (prop_index sizes i) (extra c hs) -> nth_error al i = Some (c * h / total hs + 1)%N) /\
       (~ In (prop_index sizes i) (extra c hs) -> nth_error al i = Some (c * h / total hs)%N)).
Proof.
  intros (A1 & A2 & A3 & A4) Hlen Hfit c hs. unfold divvy, finish, allocate_dynamic.
  destruct (new_spec available sizes) as (N1 & N2 & N3 & N4 & N5 & N6). set (d := divvier_new available sizes) in *.
  unfold after_fixed in *. rewrite sumM_exact by lia. cbn [bind]. rewrite N3. destruct (N.leb_spec (total dyn) (available - fixed_total sizes)); [|lia].
  rewrite N1. destruct (@dyn_total X sizes (dv_alloc d) dyn [] N2 Hlen) as (al1 & Hd). rewrite app_nil_r in Hd. rewrite Hd. cbn [bind].
  destruct (dyn_spec _ _ _ N2 Hd) as (D1 & (fr & D2 & D3 & D4 & D5) & D6). rewrite app_nil_r in D2. subst fr.
  fold (after_fixed available sizes). fold (after_dynamic available sizes dyn). fold c.
  destruct (@proportional_ok (Divvier sizes al1 c)) as (al & c' & E & P1 & P2 & P3 & P4).
  - exact D1.
  - simpl. intros i h Hi. erewrite D6; [|exact Hi|congruence]. eapply N6; [exact Hi|congruence].
  - simpl. unfold c, after_dynamic, after_fixed. lia.
  - simpl. unfold c, after_dynamic, after_fixed. nia.
  - exact A3.
  - simpl. intros Hw. apply A4. apply weights_in. exact Hw.
  - rewrite E. simpl in *. exists al. split; auto.
    assert (T1 : total al1 = (total (dv_alloc d) + total dyn)%N).
    { apply D5. intros i Hi. eapply N6; [exact Hi|congruence]. }
    fold hs in P2, P4. rewrite T1 in P2.
    assert (Ec : (c = available - fixed_total sizes - total dyn)%N) by reflexivity.
    split; [|split; [|split]].
    + rewrite P2. destruct hs; lia.
    + intros Hh. rewrite P2. destruct hs; [congruence|]. lia.
    + intros Hh. rewrite P2, Hh. lia.
    + exact P4.
Qed.

End Divvy2.
