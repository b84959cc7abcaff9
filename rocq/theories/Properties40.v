(** C72, continued: the repository's oracle test, for any sizes and any random
    numbers.  Vocabulary: SpecGenerative ([made_of]). *)
From Verif Require Export PHarness3.

Set Implicit Arguments.

Section OracleTests.
#[local] Existing Instance simple_doc.
Variables (uw : str -> N) (cf : char -> bool).
Notation release := (Build_Env uw cf false).
Notation debug := (Build_Env uw cf true).

(** Column widths add up, and ['a'], ['b'], ['c'] and the space have width 1, as they
    do with the crate [unicode-width]. *)
Hypothesis Hadd : widths_add_up uw.
Hypothesis Ha : uw [97%N] = 1%N.
Hypothesis Hb : uw [98%N] = 1%N.
Hypothesis Hc : uw [99%N] = 1%N.
Hypothesis Hs : uw [32%N] = 1%N.

(** Every notation that the generator can make and [validate] accepts passes the
    test, at every width. *)
Theorem C72_generated_passes k x w : made_of k x -> (N.of_nat k <= 9000)%N -> validate x = Ok tt -> (w < 10000)%N ->
  ev (fun n => @assert_pp_without_expectation simple_doc debug n x w) (Ok tt).
Proof.
  intros Hx Hk Hv Hw.
  assert (Hk' : (4 + 6 * N.of_nat k + 10000 < 65536)%N).
  { lia. }
  destruct (@C22_childless_is_printed simple_doc simple_ideq uw cf (simple_tree x) x (simple_rep x) (simple_valid x Hv)
    (made_childless Hx) (simple_matched Hx) w None) as (fl & downs & Hp).
  pose proof (simple_texts Hx) as Ht.
  eapply (@C72_test_passes simple_doc simple_ideq uw cf (simple_tree x) x (simple_rep x) (simple_valid x Hv) (simple_unique x)
    (simple_once Hx) (simple_matched Hx) Hadd) with (T := 4%N) (L := (6 * N.of_nat k)%N) (fl := fl) (downs := downs).
  - left. eapply Forall_impl; [|exact Ht]. intros t Hin. apply (@text_width uw cf Hadd Ha Hb Hc Hs t Hin).
  - exact Hw.
  - exact Hk'.
  - eapply Forall_impl; [|exact Ht]. intros t Hin. apply (@text_width uw cf Hadd Ha Hb Hc Hs t Hin).
  - exact Hp.
  - eapply (@simple_lines uw cf Hadd Ha Hb Hc Hs k x w fl downs); eauto.
Qed.

Definition accepted (x : notation unit unit) : bool := match validate x with Ok _ => true | Fail _ => false end.

Lemma one_notation k x : made_of k x -> (N.of_nat k <= 9000)%N -> ev (fun n => @test_notation debug n x) (Ok (accepted x)).
Proof.
  intros Hx Hk. unfold test_notation, accepted. destruct (C21_validate_total x) as [E|(e & E)]; rewrite E; [|exists 0; reflexivity].
  apply ev_bind_ok with (a := tt); [|exists 0; reflexivity].
  apply (ev_for_each (map N.of_nat (seq 1 8)) (fun n width => @assert_pp_without_expectation simple_doc debug n x width)).
  intros w Hw. eapply C72_generated_passes; eauto. cbn in Hw. repeat (destruct Hw as [<-|Hw]; [reflexivity|]). destruct Hw.
Qed.

Lemma all_notations l : Forall (fun x => exists k, made_of k x /\ (N.of_nat k <= 9000)%N) l -> forall v i,
  ev (fun n => @test_notations debug n l (v, i)) (Ok (v + length (filter accepted l), i + length (filter (fun x => negb (accepted x)) l))).
Proof.
  induction 1 as [|x l (k & Hx & Hk) _ IH]; intros v i.
  - exists 0. intros n _. cbn. rewrite !Nat.add_0_r. reflexivity.
  - cbn [test_notations]. eapply ev_bind_ok; [eapply one_notation; eauto|]. cbn [filter]. destruct (accepted x); cbn [negb length].
    + replace (v + S (length (filter accepted l))) with (v + 1 + length (filter accepted l)) by lia. apply IH.
    + replace (i + S (length (filter (fun x => negb (accepted x)) l))) with (i + 1 + length (filter (fun x => negb (accepted x)) l)) by lia. apply IH.
Qed.

(** The whole test passes: all notations of sizes below [max_size] and the random
    ones, whatever the random numbers.  It counts the accepted and the rejected. *)
Theorem C72_oracle_tests max_size randoms : (N.of_nat max_size <= 9000)%N ->
  Forall (fun '(size, rng) => (0 < size /\ (N.of_nat size <= 9000)%N) /\ forall j max, 0 < max -> rng j max < max) randoms ->
  exists small large,
    ev (fun n => generate_all_up_to_size n (notation_gen n) max_size) (Ok small) /\
    ev (fun n => random_notations n randoms) (Ok large) /\
    Forall2 (fun '(size, _) x => made_of size x) randoms large /\
    ev (fun n => @oracle_tests debug n max_size randoms)
       (Ok (length (filter accepted (small ++ large)), length (filter (fun x => negb (accepted x)) (small ++ large)))).
Proof.
  intros Hm Hr. destruct (all_up_to max_size) as (small & Es & Fs).
  destruct (@random_list randoms) as (large & El & Fl).
  { eapply Forall_impl; [|exact Hr]. intros [size rng] H. cbn beta iota in *. destruct H as [H1 H2]. split; [lia|exact H2]. }
  exists small, large. split; [exact Es|]. split; [exact El|]. split; [exact Fl|].
  unfold oracle_tests. apply ev_bind_ok with (a := small).
  { destruct Es as (N & E). exists N. intros n Hn. rewrite E by exact Hn. reflexivity. }
  apply ev_bind_ok with (a := large); [exact El|].
  apply (@all_notations (small ++ large)). apply Forall_app. split.
  - eapply Forall_impl; [|exact Fs]. intros x (k & Hx & Hk). exists k. split; [exact Hx|lia].
  - clear El. induction Fl as [|[size rng] x randoms l Hx Fl IH]; [constructor|]. inversion Hr as [|? ? H1 H3]; subst. cbn beta iota in H1, Hx. destruct H1 as [H1 H2]. constructor; [exists size; split; [exact Hx|lia]|]. apply IH. exact H3.
Qed.
End OracleTests.
