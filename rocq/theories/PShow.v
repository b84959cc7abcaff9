(** Proofs about the texts of errors and positions. *)
From Verif Require Export SpecShow.
From Coq Require Import String.

Set Implicit Arguments.

Lemma show_digits_spec : forall f n, (n < 2 ^ N.of_nat f)%N -> numeral (show_digits (S f) n) n.
Proof.
  induction f as [|f IH]; intros n Hn.
  - simpl in Hn. assert (n = 0%N) by lia. subst n. exact (@num_digit 0%N eq_refl).
  - replace (show_digits (S (S f)) n) with (if (n <? 10)%N then [48 + n]%N else show_digits (S f) (n / 10) ++ [48 + n mod 10]%N) by reflexivity.
    destruct (N.ltb_spec n 10) as [H|H]; [apply num_digit; exact H|].
    assert (E : n = (10 * (n / 10) + n mod 10)%N) by (apply N.div_mod; lia).
    replace (numeral (show_digits (S f) (n / 10) ++ [48 + n mod 10]%N) n) with (numeral (show_digits (S f) (n / 10) ++ [48 + n mod 10]%N) (10 * (n / 10) + n mod 10)%N) by (rewrite <- E; reflexivity).
    apply num_more.
    + apply IH. apply N.div_lt_upper_bound; [lia|]. rewrite Nat2N.inj_succ, N.pow_succ_r' in Hn. lia.
    + apply N.div_str_pos. lia.
    + apply N.mod_lt. lia.
Qed.

Lemma size_nat_gt n : (n < 2 ^ N.of_nat (N.size_nat n))%N.
Proof.
  destruct n as [|p]; [simpl; lia|]. change (N.size_nat (N.pos p)) with (Pos.size_nat p).
  induction p as [p IH|p IH|]; cbn [Pos.size_nat]; rewrite ?Nat2N.inj_succ, ?N.pow_succ_r'; lia.
Qed.

Lemma show_N_numeral n : numeral (show_N n) n.
Proof. apply show_digits_spec. apply size_nat_gt. Qed.

Lemma numeral_inv s n : numeral s n -> (exists d, s = [48 + d]%N /\ n = d /\ (d < 10)%N) \/
  exists s' n' d, s = s' ++ [48 + d]%N /\ n = (10 * n' + d)%N /\ numeral s' n' /\ (d < 10)%N /\ (0 < n')%N.
Proof. destruct 1 as [d|s n d]; [left; eauto|right]. exists s, n, d. auto. Qed.
Lemma numeral_ne s n : numeral s n -> s <> [].
Proof. destruct 1 as [|s]; [discriminate|]. destruct s; discriminate. Qed.

(** A string stands for one number only. *)
Lemma numeral_det s n m : numeral s n -> numeral s m -> n = m.
Proof.
  intros H. revert m. induction H as [d Hd|s n d H IH H0 Hd]; intros m Hm;
  apply numeral_inv in Hm as [(d' & E & -> & H1)|(s' & n' & d' & E & -> & H1 & H2 & _)].
  - apply (f_equal (hd 0%N)) in E. cbn [hd] in E. lia.
  - change [48 + d]%N with ([] ++ [48 + d]%N) in E. apply app_inj_tail in E as [E _]. apply numeral_ne in H1. symmetry in E. contradiction.
  - change [48 + d']%N with ([] ++ [48 + d']%N) in E. apply app_inj_tail in E as [E _]. apply numeral_ne in H. contradiction.
  - apply app_inj_tail in E as [-> E]. rewrite (IH n'); auto. lia.
Qed.

Definition is_digit (c : N) : bool := ((48 <=? c) && (c <=? 57))%N.
Lemma numeral_digits s n : numeral s n -> forallb is_digit s = true.
Proof.
  assert (Hd : forall d, (d < 10)%N -> is_digit (48 + d)%N = true).
  { intros d H. unfold is_digit. apply andb_true_intro. split; apply N.leb_le; lia. }
  induction 1 as [d H|s n d H IH H0 Hdd]; [cbn [forallb]; rewrite Hd; auto|].
  rewrite forallb_app. apply andb_true_intro. split; [exact IH|]. cbn [forallb]. rewrite Hd; auto.
Qed.

(** Cutting at the first character outside of a class. *)
Definition opens (p : N -> bool) (s : str) : Prop := match s with [] => True | c :: _ => p c = false end.
Lemma span_unique (p : N -> bool) a b s t : forallb p a = true -> forallb p b = true -> opens p s -> opens p t ->
  a ++ s = b ++ t -> a = b /\ s = t.
Proof.
  revert b. induction a as [|x a IH]; intros [|y b] Ha Hb Hs Ht E; simpl in *; auto.
  - subst s. simpl in Hs. rewrite Hs in Hb. discriminate.
  - subst t. simpl in Ht. rewrite Ht in Ha. discriminate.
  - injection E as -> E. apply andb_prop in Ha as [_ Ha]. apply andb_prop in Hb as [_ Hb].
    destruct (IH b) as [-> ->]; auto.
Qed.

Lemma show_N_cut n m s t : opens is_digit s -> opens is_digit t -> show_N n ++ s = show_N m ++ t -> n = m /\ s = t.
Proof.
  intros Hs Ht E. pose proof (show_N_numeral n) as Hn. pose proof (show_N_numeral m) as Hm.
  apply (@span_unique is_digit) in E as [E ->]; auto; [|eapply numeral_digits; eauto..].
  split; auto. rewrite E in Hn. eapply numeral_det; eauto.
Qed.
Lemma show_nat_cut n m s t : opens is_digit s -> opens is_digit t -> show_nat n ++ s = show_nat m ++ t -> n = m /\ s = t.
Proof. intros Hs Ht E. apply show_N_cut in E as [E ->]; auto. split; auto. lia. Qed.

Lemma show_N_head n s : exists c s', show_N n ++ s = c :: s' /\ is_digit c = true.
Proof.
  pose proof (show_N_numeral n) as H. pose proof (numeral_digits H) as Hd. pose proof (numeral_ne H) as Hne.
  destruct (show_N n) as [|c s']; [contradiction|]. simpl in Hd. apply andb_prop in Hd as [Hd _]. exists c, (s' ++ s). auto.
Qed.
Lemma show_Z_cut a b s t : opens is_digit s -> opens is_digit t -> show_Z a ++ s = show_Z b ++ t -> a = b /\ s = t.
Proof.
  intros Hs Ht E. unfold show_Z in E. destruct a as [|p|p], b as [|q|q]; cbn [app] in E.
  all: try (exfalso; match type of E with
    | show_N ?n ++ _ = 45%N :: _ => destruct (show_N_head n s) as (c & s' & E' & Hc); rewrite E' in E; injection E as -> _; discriminate
    | 45%N :: _ = show_N ?n ++ _ => destruct (show_N_head n t) as (c & s' & E' & Hc); rewrite E' in E; injection E as <- _; discriminate
    end).
  all: try match type of E with 45%N :: _ = 45%N :: _ => injection E as E end; apply show_N_cut in E as [E ->]; auto; split; auto; lia.
Qed.

Lemma show_Z_head z s : exists c s', show_Z z ++ s = c :: s' /\ (is_digit c || (c =? 45)%N) = true.
Proof.
  unfold show_Z. destruct z as [|p|p].
  1,2: match goal with |- context [show_N ?n] => destruct (show_N_head n s) as (c & s' & E & H) end; exists c, s'; rewrite H; auto.
  exists 45%N, (show_N (N.pos p) ++ s). auto.
Qed.

(** ** Messages *)

Lemma pos_text p q : show_pos p = show_pos q -> p = q.
Proof.
  destruct p as [r c], q as [r' c']. unfold show_pos. cbn [p_row p_col]. intros E.
  apply show_N_cut in E as [-> E]; [|reflexivity..]. injection E as E.
  rewrite <- (app_nil_r (show_N c)), <- (app_nil_r (show_N c')) in E. apply show_N_cut in E as [-> _]; simpl; auto.
Qed.
Lemma size_text p q : show_size p = show_size q -> p = q.
Proof.
  destruct p as [r c], q as [r' c']. unfold show_size. cbn [s_width s_height]. intros E.
  apply show_N_cut in E as [-> E]; [|reflexivity..]. injection E as E.
  rewrite <- (app_nil_r (show_N r)), <- (app_nil_r (show_N r')) in E. apply show_N_cut in E as [-> _]; simpl; auto.
Qed.

Section Messages.
Context {E : Type}.
Variable show_error : E -> str.

Lemma message_distinct (Hinj : forall e e', show_error e = show_error e' -> e = e') (x y : perr E) :
  printing_message show_error x = printing_message show_error y -> x = y.
Proof.
  destruct x, y; cbn [printing_message]; intros H; try reflexivity; try discriminate H.
  - apply app_inv_head in H. apply show_nat_cut in H as [-> _]; reflexivity.
  - apply app_inv_head in H. apply show_Z_cut in H as [-> H]; [|reflexivity..]. apply app_inv_head in H.
    apply show_nat_cut in H as [-> _]; reflexivity.
  - apply app_inv_head in H. apply show_Z_cut in H as [-> H]; [|reflexivity..]. apply app_inv_head in H.
    apply show_nat_cut in H as [-> _]; reflexivity.
  - exfalso. apply (app_inv_head (chars "Notation/doc mismatch: Notation contained CheckPos::Child(")) in H.
    match type of H with show_Z ?n ++ ?s = _ => destruct (show_Z_head n s) as (c & s' & E' & Hc); rewrite E' in H end.
    injection H as -> _. discriminate Hc.
  - exfalso. symmetry in H. apply (app_inv_head (chars "Notation/doc mismatch: Notation contained CheckPos::Child(")) in H.
    match type of H with show_Z ?n ++ ?s = _ => destruct (show_Z_head n s) as (c & s' & E' & Hc); rewrite E' in H end.
    injection H as -> _. discriminate Hc.
  - apply app_inv_head in H. f_equal. apply Hinj. exact H.
Qed.
End Messages.
