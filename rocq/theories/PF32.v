(** Facts about 32-bit floating point, by integer arithmetic. *)
From Verif Require Export F32.
From Coq Require Import ZArith Lia.

Set Implicit Arguments.
Local Open Scope Z_scope.

Lemma digits_spec m : 2 ^ (Zpos (digits2_pos m) - 1) <= Zpos m < 2 ^ Zpos (digits2_pos m).
Proof.
  induction m as [m IH|m IH|]; [| |split; [apply Z.le_refl|reflexivity]].
  - change (digits2_pos m~1) with (Pos.succ (digits2_pos m)). rewrite Pos2Z.inj_succ, Pos2Z.inj_xI.
    remember (Z.pos (digits2_pos m)) as d eqn:Ed. assert (0 < d) by (subst; lia). clear Ed.
    replace (Z.succ d - 1) with (1 + (d - 1)) by lia. replace (Z.succ d) with (1 + d) by lia.
    rewrite (Z.pow_add_r 2 1 (d - 1)), (Z.pow_add_r 2 1 d) by lia. change (2 ^ 1) with 2. lia.
  - change (digits2_pos m~0) with (Pos.succ (digits2_pos m)). rewrite Pos2Z.inj_succ, (Pos2Z.inj_xO m).
    remember (Z.pos (digits2_pos m)) as d eqn:Ed. assert (0 < d) by (subst; lia). clear Ed.
    replace (Z.succ d - 1) with (1 + (d - 1)) by lia. replace (Z.succ d) with (1 + d) by lia.
    rewrite (Z.pow_add_r 2 1 (d - 1)), (Z.pow_add_r 2 1 d) by lia. change (2 ^ 1) with 2. lia.
Qed.

Lemma pow_pos a : 0 <= a -> 0 < 2 ^ a.
Proof. intros. apply Z.pow_pos_nonneg; lia. Qed.

(** ** Shifting right *)
Definition shifted (m0 k : Z) (s : shr_record) : Prop :=
  let R := m0 - shr_m s * 2 ^ k in
  0 <= shr_m s /\ 0 <= R < 2 ^ k /\
  match shr_r s, shr_s s with
  | false, false => R = 0
  | false, true => 0 < 2 * R < 2 ^ k
  | true, false => 2 * R = 2 ^ k
  | true, true => 2 ^ k < 2 * R
  end.

Lemma shr_1_spec m0 k s : 0 <= k -> shifted m0 k s -> shifted m0 (k + 1) (shr_1 s).
Proof.
  intros Hk (H1 & H2 & H3). assert (E : 2 ^ (k + 1) = 2 * 2 ^ k) by (rewrite Z.pow_add_r by lia; lia).
  pose proof (pow_pos Hk) as Hp. unfold shifted. rewrite E. destruct s as [m r s]. cbn [shr_m shr_r shr_s] in *.
  remember (2 ^ k) as P eqn:EP. clear EP E.
  destruct m as [|[p|p|]|p]; cbn [shr_1 shr_m shr_r shr_s]; try lia;
    rewrite ?(Pos2Z.inj_xI p), ?(Pos2Z.inj_xO p) in *; destruct r, s; cbn [orb] in *; lia.
Qed.

Lemma iter_pos_spec {A} (f : A -> A) (P : Z -> A -> Prop) :
  (forall k x, 0 <= k -> P k x -> P (k + 1) (f x)) ->
  forall n k x, 0 <= k -> P k x -> P (k + Zpos n) (@SpecFloat.iter_pos A f n x).
Proof.
  intros Hf. induction n as [n IH|n IH|]; intros k x Hk H; simpl.
  - replace (k + Z.pos n~1) with ((k + 1 + Z.pos n) + Z.pos n) by lia. apply IH; [lia|]. apply IH; [lia|]. apply Hf; auto.
  - replace (k + Z.pos n~0) with ((k + Z.pos n) + Z.pos n) by lia. apply IH; [lia|]. apply IH; auto.
  - apply Hf; auto.
Qed.

(** Nearest integer to m / 2^k. *)
Definition nearest (m k q : Z) : Prop := 0 <= q /\ 2 * Z.abs (q * 2 ^ k - m) <= 2 ^ k.

Lemma round_spec m0 k s : 0 <= k -> shifted m0 k s -> nearest m0 k (round_nearest_even (shr_m s) (loc_of_shr_record s)).
Proof.
  intros Hk (H1 & H2 & H3). destruct s as [m r s]. unfold nearest. cbn [shr_m shr_r shr_s] in *. pose proof (pow_pos Hk).
  remember (2 ^ k) as P eqn:EP. clear EP. unfold loc_of_shr_record, round_nearest_even.
  destruct r, s; try (destruct (Z.even m)); split; try lia;
    rewrite ?Z.mul_add_distr_r; remember (m * P) as mP; lia.
Qed.

Lemma shifted_0 m : 0 <= m -> shifted m 0 (Build_shr_record m false false).
Proof. intros H. unfold shifted. simpl. lia. Qed.

(** ** Rounding to 24 bits *)
Definition fx (e : Z) : Z := fexp 24 128 e.
Lemma fx_eq e : fx e = Z.max (e - 24) (-149).
Proof. reflexivity. Qed.

Lemma shr_fexp_spec m e : 0 <= m ->
  let k := Z.max 0 (fx (Zdigits2 m + e) - e) in
  exists s, shr_fexp 24 128 m e loc_Exact = (s, e + k) /\ shifted m k s.
Proof.
  intros Hm k. unfold shr_fexp, shr. simpl shr_record_of_loc. change (fexp 24 128) with fx.
  destruct (fx (Zdigits2 m + e) - e) as [|p|p] eqn:E.
  - exists (Build_shr_record m false false). subst k. rewrite Z.max_id, Z.add_0_r. split; auto. apply shifted_0; auto.
  - eexists. split; [f_equal; subst k; lia|]. replace k with (0 + Z.pos p) by lia.
    apply (@iter_pos_spec _ shr_1 (shifted m)); [intros; apply shr_1_spec; auto|lia|apply shifted_0; auto].
  - exists (Build_shr_record m false false). replace k with 0 by lia. rewrite Z.add_0_r. split; auto. apply shifted_0; auto.
Qed.

Lemma nearest_0 m q : nearest m 0 q -> q = m.
Proof. unfold nearest. change (2 ^ 0) with 1. lia. Qed.

(** The digits of a rounded number. *)
Lemma nearest_le_pow m k q d : 0 <= k -> 0 <= d -> m <= 2 ^ (d + k) -> nearest m k q -> q <= 2 ^ d.
Proof.
  intros Hk Hd Hm [H1 H2]. rewrite Z.pow_add_r in Hm by lia. pose proof (pow_pos Hk).
  remember (2 ^ k) as P eqn:EP. remember (2 ^ d) as Q eqn:EQ. clear EP EQ. nia.
Qed.

Lemma nearest_mono_int m k q n : 0 <= k -> m <= n * 2 ^ k -> nearest m k q -> q <= n.
Proof.
  intros Hk Hm [H1 H2]. pose proof (pow_pos Hk). remember (2 ^ k) as P eqn:EP. clear EP. nia.
Qed.

Lemma digits_le m d : 0 <= m -> 0 <= d -> m < 2 ^ d -> Zdigits2 m <= d.
Proof.
  intros H1 Hd H2. destruct m as [|m|m]; simpl; [lia| |lia]. destruct (Z_le_gt_dec (Z.pos (digits2_pos m)) d) as [|Hgt]; auto.
  exfalso. pose proof (digits_spec m) as [H3 _]. assert (2 ^ d <= 2 ^ (Z.pos (digits2_pos m) - 1)) by (apply Z.pow_le_mono_r; lia). lia.
Qed.

(** Rounding the positive number [m * 2^e]: [q] is the nearest multiple of
    2^(e+k), and the result is [q * 2^(e+k)], perhaps with a smaller mantissa. *)
Lemma round_aux_spec mp e :
  let m := Zpos mp in
  let k := Z.max 0 (fx (Zdigits2 m + e) - e) in
  exists q, nearest m k q /\
    ((q = 0 /\ binary_round_aux 24 128 false m e loc_Exact = S754_zero false) \/
     exists mp' k2, 0 <= k2 /\ q = Zpos mp' * 2 ^ k2 /\
       binary_round_aux 24 128 false m e loc_Exact =
         if Z.leb (e + k + k2) 104 then S754_finite false mp' (e + k + k2) else S754_infinity false).
Proof.
  intros m k. assert (Hm : 0 <= m) by (unfold m; lia). destruct (@shr_fexp_spec m e Hm) as (s & E1 & Hs). fold k in E1, Hs.
  assert (Hk : 0 <= k) by (unfold k; lia).
  pose proof (round_spec Hk Hs) as Hq. set (q := round_nearest_even (shr_m s) (loc_of_shr_record s)) in *.
  exists q. split; auto. unfold binary_round_aux. rewrite E1. fold q.
  assert (Hq0 : 0 <= q) by apply Hq.
  destruct (@shr_fexp_spec q (e + k) Hq0) as (s2 & E2 & Hs2). set (k2 := Z.max 0 (fx (Zdigits2 q + (e + k)) - (e + k))) in *.
  assert (Hk2 : 0 <= k2) by (unfold k2; lia).
  rewrite E2.
  (* the second shift is exact *)
  assert (Hex : q = shr_m s2 * 2 ^ k2).
  { destruct (Z.eq_dec k2 0) as [Ek|Ek].
    { destruct Hs2 as (_ & H & _). rewrite Ek in *. change (2 ^ 0) with 1 in *. lia. }
    pose proof (digits_spec mp) as [_ Hd]. fold m in Hd.
    assert (Kk : k = Z.max 0 (Z.max (Z.pos (digits2_pos mp) + e - 24) (-149) - e)) by reflexivity.
    assert (Kk2 : k2 = Z.max 0 (Z.max (Zdigits2 q + (e + k) - 24) (-149) - (e + k))) by reflexivity.
    assert (Hd0 : 0 < Z.pos (digits2_pos mp)) by lia.
    remember (Z.pos (digits2_pos mp)) as d eqn:Ed. clear Ed. clearbody k k2 q.
    destruct (Z_le_gt_dec k d) as [Hkd|Hkd].
    - assert (Hqle : q <= 2 ^ (d - k)).
      { eapply nearest_le_pow; [exact Hk|lia| |exact Hq]. replace (d - k + k) with d by lia. lia. }
      destruct (Z.eq_dec q (2 ^ (d - k))) as [Eq|Nq].
      + (* a power of two *)
        assert (Hdig : Zdigits2 q <= d - k + 1).
        { apply digits_le; [lia|lia|]. rewrite Eq. apply Z.pow_lt_mono_r; lia. }
        assert (Hk2' : k2 <= d - k).
        { destruct (Z.eq_dec k 0); lia. }
        destruct Hs2 as (A1 & A2 & _). rewrite Eq in *.
        assert (Hdiv : 2 ^ (d - k) = 2 ^ (d - k - k2) * 2 ^ k2) by (rewrite <- Z.pow_add_r by lia; f_equal; lia).
        pose proof (pow_pos Hk2) as HP. rewrite Hdiv in *. f_equal.
        remember (2 ^ (d - k - k2)) as C eqn:EC. remember (2 ^ k2) as P eqn:EP. clear - A1 A2 HP. nia.
      + exfalso. assert (Hdig : Zdigits2 q <= d - k) by (apply digits_le; lia). lia.
    - exfalso. assert (Hqle : q <= 1).
      { change 1 with (2 ^ 0). eapply nearest_le_pow; [exact Hk|lia| |exact Hq]. apply Z.lt_le_incl. eapply Z.lt_le_trans; [exact Hd|]. apply Z.pow_le_mono_r; lia. }
      assert (Hdig : Zdigits2 q <= 1) by (apply digits_le; [lia|lia|change (2 ^ 1) with 2; lia]). lia. }
  change (128 - 24) with 104.
  destruct (shr_m s2) as [|mp'|mp'] eqn:Em.
  - left. split; [lia|]. cbv beta iota. rewrite ?Em. cbv iota. reflexivity.
  - right. exists mp', k2. split; [exact Hk2|]. split; [exact Hex|]. cbv beta iota. rewrite ?Em. cbv iota. reflexivity.
  - exfalso. destruct Hs2 as (A & _). rewrite Em in A. lia.
Qed.

(** ** From integers *)
Lemma shift_pos_spec n p : Z.pos (shift_pos n p) = Z.pos p * 2 ^ Z.pos n.
Proof. rewrite shift_pos_correct, Z.pow_pos_fold. lia. Qed.

(** [N as f32] is exact for 0 < N < 2^24. *)
Lemma of_uint_exact n : (0 < n < 2 ^ 24)%N ->
  exists mp d k2, f32_of_uint n = S754_finite false mp (k2 - d) /\ 0 <= d /\ 0 <= k2 /\ k2 - d < 24 /\
    Z.pos mp * 2 ^ k2 = Z.of_N n * 2 ^ d.
Proof.
  intros [H1 H2]. unfold f32_of_uint, binary_normalize. destruct n as [|p]; [lia|]. cbn [Z.of_N].
  unfold binary_round, shl_align. change (fexp 24 128) with fx. rewrite fx_eq, Z.add_0_r.
  pose proof (digits_spec p) as Hd. pose proof (Pos2Z.is_pos (digits2_pos p)) as Hd0.
  assert (Hd1 : Z.pos (digits2_pos p) <= 24).
  { apply (@digits_le (Z.pos p)); [lia|lia|]. change (2 ^ 24) with (Z.of_N (2 ^ 24)). change (Z.pos p) with (Z.of_N (N.pos p)). lia. }
  remember (Z.pos (digits2_pos p)) as D eqn:ED.
  rewrite Z.max_l by lia. rewrite Z.sub_0_r.
  assert (X : exists mz d, (match D - 24 with Z.neg d => (shift_pos d p, D - 24) | _ => (p, 0) end) = (mz, - d) /\
            d = 24 - D /\ Z.pos mz = Z.pos p * 2 ^ d).
  { destruct (D - 24) as [|x|x] eqn:Ex.
    - exists p, 0. split; [reflexivity|]. split; [lia|]. change (2 ^ 0) with 1. lia.
    - exfalso. lia.
    - exists (shift_pos x p), (Z.pos x). split; [reflexivity|]. split; [lia|]. apply shift_pos_spec. }
  destruct X as (mz & d & EX & Ed & Emz). rewrite EX. cbv beta iota.
  assert (Hd2 : 0 <= d) by lia.
  assert (Hdig : Zdigits2 (Z.pos mz) = 24).
  { cbn [Zdigits2]. pose proof (digits_spec mz) as [A B].
    assert (C1 : 2 ^ 23 <= Z.pos mz).
    { rewrite Emz. replace 23 with ((D - 1) + d) by lia. rewrite Z.pow_add_r by lia. apply Z.mul_le_mono_nonneg_r; [apply Z.pow_nonneg; lia|lia]. }
    assert (C2 : Z.pos mz < 2 ^ 24).
    { rewrite Emz. replace 24 with (D + d) by lia. rewrite Z.pow_add_r by lia. apply Z.mul_lt_mono_pos_r; [apply pow_pos; lia|lia]. }
    remember (Z.pos (digits2_pos mz)) as F. assert (0 < F) by lia.
    assert (23 < F) by (apply (Z.pow_lt_mono_r_iff 2); lia).
    assert (F - 1 < 24) by (apply (Z.pow_lt_mono_r_iff 2); lia). lia. }
  destruct (round_aux_spec mz (- d)) as (q & Hq & HR).
  rewrite Hdig, fx_eq in *.
  assert (Ek : Z.max 0 (Z.max (24 + - d - 24) (-149) - - d) = 0) by lia. rewrite Ek in *.
  apply nearest_0 in Hq. destruct HR as [[Hq0 _]|(mp' & k2 & Hk2 & Eq & ER)]; [lia|].
  assert (HE : k2 - d < 24).
  { destruct (Z_lt_ge_dec (k2 - d) 24) as [|G]; auto. exfalso.
    assert (Z.pos mz < 2 ^ (D + d)). { rewrite Emz, Z.pow_add_r by lia. apply Z.mul_lt_mono_pos_r; [apply pow_pos; lia|lia]. }
    assert (2 ^ (D + d) <= 2 ^ k2) by (apply Z.pow_le_mono_r; lia). nia. }
  exists mp', d, k2. rewrite ER. replace (- d + 0 + k2) with (k2 - d) by lia.
  rewrite (proj2 (Z.leb_le (k2 - d) 104)) by lia. repeat split; auto. rewrite <- Eq, Hq. exact Emz.
Qed.

(** ** Fractions between 0 and 1 *)
Lemma le_finite m e u v : SFleb (S754_finite false m e) (S754_finite false u v) = true ->
  e < v \/ (e = v /\ (m <= u)%positive).
Proof.
  unfold SFleb. cbn [SFcompare]. destruct (Z.compare_spec e v) as [E|E|E]; intros H; [right|left; auto|discriminate].
  split; auto. change (Pos.compare_cont Eq m u) with (Pos.compare m u) in H. destruct (Pos.compare_spec m u) as [F|F|F]; try discriminate; lia.
Qed.

Lemma fraction_spec x : is_f32 x -> f32_le f32_zero x = true -> f32_le x f32_one = true ->
  (exists s, x = S754_zero s) \/
  exists m a, x = S754_finite false m (- a) /\ 23 <= a /\ Z.pos m <= 2 ^ a.
Proof.
  unfold is_f32, f32_le, SFleb. intros Hv H0 H1. destruct x as [s|s| |s m e]; try discriminate.
  - left. eauto.
  - destruct s; discriminate.
  - right. destruct s; [discriminate|]. exists m, (- e). rewrite Z.opp_involutive. split; auto.
    simpl in Hv. unfold bounded, canonical_mantissa in Hv. change (fexp 24 128) with fx in Hv. rewrite fx_eq in Hv.
    apply Bool.andb_true_iff in Hv. destruct Hv as [Hv _]. apply Zeq_bool_eq in Hv.
    apply le_finite in H1. pose proof (digits_spec m) as [_ Hd].
    remember (Z.pos (digits2_pos m)) as D eqn:ED. assert (0 < D) by (rewrite ED; apply Pos2Z.is_pos).
    destruct H1 as [E|[E F]].
    + split; [lia|]. apply Z.lt_le_incl. eapply Z.lt_le_trans; [exact Hd|]. apply Z.pow_le_mono_r; lia.
    + split; [lia|]. rewrite E. change (2 ^ - -23) with (Z.pos 8388608). exact F.
Qed.

(** Rounding to an integer. *)
Lemma to_u32_spec mp k A N : 0 <= k -> 0 <= A -> 0 <= N < 2 ^ 32 -> Z.pos mp * 2 ^ k <= N * 2 ^ A ->
  let n := Z.of_N (f32_round_to_u32 (S754_finite false mp (k - A))) in
  0 <= n <= N /\ 2 * Z.abs (n * 2 ^ A - Z.pos mp * 2 ^ k) <= 2 ^ A.
Proof.
  intros Hk HA HN HQ n.
  assert (X : exists x, Z.of_N (match (k - A)%Z with
               | Z0 => Npos mp
               | Zpos e' => Npos mp * 2 ^ Npos e'
               | Zneg e' => (2 * Npos mp + 2 ^ Npos e') / (2 * 2 ^ Npos e')
               end)%N = x /\ 0 <= x <= N /\ 2 * Z.abs (x * 2 ^ A - Z.pos mp * 2 ^ k) <= 2 ^ A).
  { pose proof (pow_pos Hk) as PK. pose proof (pow_pos HA) as PA.
    destruct (k - A) as [|p|p] eqn:EE.
    - exists (Z.pos mp). assert (k = A) by lia. subst k. split; [reflexivity|]. remember (2 ^ A) as P eqn:EP. clear EP. nia.
    - exists (Z.pos mp * 2 ^ Z.pos p). assert (E : k = Z.pos p + A) by lia. rewrite E in *. rewrite Z.pow_add_r in * by lia.
      assert (PP : 0 < 2 ^ Z.pos p) by (apply pow_pos; lia).
      split; [rewrite N2Z.inj_mul, N2Z.inj_pow; reflexivity|].
      remember (2 ^ A) as P eqn:EP. remember (2 ^ Z.pos p) as Q eqn:EQ. clear EP EQ E EE n.
      replace (Z.pos mp * Q * P - Z.pos mp * (Q * P)) with 0 by ring. nia.
    - assert (E : A = Z.pos p + k) by lia. rewrite E in *. rewrite Z.pow_add_r in * by lia.
      assert (PP : 0 < 2 ^ Z.pos p) by (apply pow_pos; lia).
      eexists. split; [rewrite N2Z.inj_div, N2Z.inj_add, !N2Z.inj_mul, N2Z.inj_pow; reflexivity|].
      change (Z.of_N 2) with 2. change (Z.of_N (N.pos mp)) with (Z.pos mp). change (Z.of_N (N.pos p)) with (Z.pos p).
      remember (2 ^ Z.pos p) as P eqn:EP. remember (2 ^ k) as K eqn:EK. clear EP EK E EE n.
      pose proof (Z.div_mod (2 * Z.pos mp + P) (2 * P) ltac:(lia)) as DM.
      pose proof (Z.mod_pos_bound (2 * Z.pos mp + P) (2 * P) ltac:(lia)) as MB.
      assert (D0 : 0 <= (2 * Z.pos mp + P) / (2 * P)) by (apply Z.div_pos; lia).
      remember ((2 * Z.pos mp + P) / (2 * P)) as x eqn:Ex. remember ((2 * Z.pos mp + P) mod (2 * P)) as y eqn:Ey. clear Ex Ey.
      assert (HQ' : Z.pos mp <= N * P) by nia.
      remember (x * P) as xP eqn:ExP.
      assert (B : 2 * Z.abs (xP - Z.pos mp) <= P) by nia.
      split; [split; [exact D0|]; nia|]. replace (x * (P * K) - Z.pos mp * K) with ((xP - Z.pos mp) * K) by (rewrite ExP; ring).
      rewrite Z.abs_mul, (Z.abs_eq K) by lia. nia. }
  destruct X as (x & Ex & Hx & Hr). unfold n, f32_round_to_u32. cbv zeta.
  rewrite N2Z.inj_min, Ex. change (Z.of_N (U32 - 1)) with (2 ^ 32 - 1). rewrite Z.min_l by lia. auto.
Qed.

(** Multiplying an integer 0 < N < 2^24 by a fraction m / 2^a and rounding. *)
Lemma row_spec n m a : (0 < n < 2 ^ 24)%N -> 23 <= a -> Z.pos m <= 2 ^ a ->
  let row := Z.of_N (f32_round_to_u32 (f32_mul (f32_of_uint n) (S754_finite false m (- a)))) in
  0 <= row <= Z.of_N n /\
  Z.abs (row * 2 ^ a - Z.of_N n * Z.pos m) <= 2 ^ a /\
  ((n < 2 ^ 16)%N -> 512 * Z.abs (row * 2 ^ a - Z.of_N n * Z.pos m) <= 257 * 2 ^ a).
Proof.
  intros Hn Ha Hm row. unfold row. clear row.
  destruct (of_uint_exact Hn) as (mp & d & k2 & EN & Hd & Hk2 & HE & HV). rewrite EN.
  unfold f32_mul. cbn [SFmul xorb].
  assert (HN : 0 < Z.of_N n < 2 ^ 24) by (change (2 ^ 24) with (Z.of_N (2 ^ 24)); lia).
  assert (HN16 : (n < 2 ^ 16)%N -> Z.of_N n < 2 ^ 16) by (change (2 ^ 16) with (Z.of_N (2 ^ 16)); lia).
  remember (Z.of_N n) as N eqn:EqN.
  destruct (round_aux_spec (mp * m) (k2 - d + - a)) as (q & Hq & HR).
  cbn [Zdigits2] in *. pose proof (digits_spec (mp * m)) as [HD _].
  assert (HD0 : 0 < Z.pos (digits2_pos (mp * m))) by apply Pos2Z.is_pos.
  remember (Z.pos (digits2_pos (mp * m))) as D eqn:ED. clear ED.
  rewrite fx_eq in *. remember (Z.max 0 (Z.max (D + (k2 - d + - a) - 24) (-149) - (k2 - d + - a))) as k eqn:Kk.
  assert (EB : exists B, k2 - d + - a = - B /\ 0 <= B) by (exists (a + d - k2); lia). destruct EB as (B & EB & HB).
  rewrite EB in *.
  rewrite Pos2Z.inj_mul in *. remember (Z.pos mp * Z.pos m) as M eqn:EM.
  assert (Pa : 0 < 2 ^ a) by (apply pow_pos; lia). assert (PB : 0 < 2 ^ B) by (apply pow_pos; lia).
  assert (Hk : 0 <= k) by lia. pose proof (pow_pos Hk) as Pk.
  assert (HM : M * 2 ^ a = N * Z.pos m * 2 ^ B).
  { apply (Z.mul_reg_r _ _ (2 ^ k2)); [pose proof (pow_pos Hk2); lia|]. rewrite <- (Z.mul_assoc _ (2 ^ B)), <- Z.pow_add_r by lia.
    replace (B + k2) with (a + d) by lia. rewrite Z.pow_add_r by lia. rewrite EM.
    transitivity (Z.pos m * 2 ^ a * (Z.pos mp * 2 ^ k2)); [ring|]. rewrite HV. ring. }
  assert (HMN : M <= N * 2 ^ B).
  { apply (Zmult_le_reg_r _ _ (2 ^ a)); [lia|]. rewrite HM. remember (2 ^ B) as P. remember (2 ^ a) as Q. nia. }
  assert (HDB : forall c, 0 <= c -> N < 2 ^ c -> D <= c + B).
  { intros c Hc HNc. assert (D - 1 < c + B); [|lia]. apply (Z.pow_lt_mono_r_iff 2); [lia|lia|]. rewrite Z.pow_add_r by lia. nia. }
  assert (EA : exists A, B = A + k /\ 0 <= A).
  { exists (B - k). split; [lia|]. pose proof (HDB 24 ltac:(lia) ltac:(lia)). lia. }
  destruct EA as (A & EA & HA).
  assert (HqN : q <= N * 2 ^ A).
  { eapply nearest_mono_int; [exact Hk| |exact Hq]. rewrite <- Z.mul_assoc, <- Z.pow_add_r by lia. rewrite <- EA. exact HMN. }
  pose proof (pow_pos HA) as PA.
  (* the rounded number *)
  assert (X : exists x, Z.of_N (f32_round_to_u32 (binary_round_aux 24 128 false M (- B) loc_Exact)) = x /\
              0 <= x <= N /\ 2 * Z.abs (x * 2 ^ A - q) <= 2 ^ A).
  { destruct HR as [[Hq0 ER]|(mp' & k3 & Hk3 & Eq & ER)].
    - exists 0. rewrite ER, Hq0. split; [reflexivity|]. change (0 * 2 ^ A - 0) with 0. change (Z.abs 0) with 0. lia.
    - rewrite ER. replace (- B + k + k3) with (k3 - A) by lia.
      assert (k3 - A < 24).
      { destruct (Z_lt_ge_dec (k3 - A) 24) as [|G]; auto. exfalso.
        assert (2 ^ (24 + A) <= 2 ^ k3) by (apply Z.pow_le_mono_r; lia). rewrite Z.pow_add_r in * by lia. nia. }
      rewrite (proj2 (Z.leb_le (k3 - A) 104)) by lia. eexists. split; [reflexivity|]. rewrite Eq.
      apply to_u32_spec; try lia. }
  destruct X as (x & Ex & Hx & Hr). rewrite Ex. split; [exact Hx|].
  destruct Hq as [Hq0 Hq].
  assert (BB : 2 ^ B = 2 ^ A * 2 ^ k) by (rewrite EA, Z.pow_add_r by lia; reflexivity).
  assert (HErr : 2 * Z.abs (x * 2 ^ B - M) <= 2 ^ B + (if Z.eqb k 0 then 0 else 2 ^ k)).
  { assert (2 * Z.abs (q * 2 ^ k - M) <= (if Z.eqb k 0 then 0 else 2 ^ k)).
    { destruct (Z.eqb_spec k 0) as [E|E]; [|exact Hq]. rewrite E in *. change (2 ^ 0) with 1 in *. lia. }
    replace (x * 2 ^ B - M) with ((x * 2 ^ A - q) * 2 ^ k + (q * 2 ^ k - M)) by (rewrite BB; ring).
    pose proof (Z.abs_triangle ((x * 2 ^ A - q) * 2 ^ k) (q * 2 ^ k - M)) as HT.
    rewrite Z.abs_mul, (Z.abs_eq (2 ^ k)) in HT by lia. rewrite BB.
    assert (2 * Z.abs (x * 2 ^ A - q) * 2 ^ k <= 2 ^ A * 2 ^ k) by (apply Z.mul_le_mono_nonneg_r; lia). lia. }
  assert (HX : Z.abs (x * 2 ^ a - N * Z.pos m) * 2 ^ B = Z.abs (x * 2 ^ B - M) * 2 ^ a).
  { rewrite <- (Z.abs_eq (2 ^ B)) at 1 by lia. rewrite <- (Z.abs_eq (2 ^ a)) at 2 by lia. rewrite <- !Z.abs_mul. f_equal.
    rewrite !Z.mul_sub_distr_r, HM. ring. }
  remember (Z.abs (x * 2 ^ a - N * Z.pos m)) as Y. remember (Z.abs (x * 2 ^ B - M)) as Z0.
  split.
  - apply (Zmult_le_reg_r _ _ (2 ^ B)); [lia|]. rewrite HX. rewrite (Z.mul_comm (2 ^ a)). apply Z.mul_le_mono_nonneg_r; [lia|].
    assert (2 ^ k <= 2 ^ B) by (apply Z.pow_le_mono_r; lia). destruct (Z.eqb k 0); lia.
  - intros Hs. specialize (HN16 Hs). apply (Zmult_le_reg_r _ _ (2 ^ B)); [lia|].
    replace (512 * Y * 2 ^ B) with (512 * Z0 * 2 ^ a) by (rewrite <- !Z.mul_assoc, HX; reflexivity).
    replace (257 * 2 ^ a * 2 ^ B) with (257 * 2 ^ B * 2 ^ a) by ring. apply Z.mul_le_mono_nonneg_r; [lia|].
    destruct (Z.eqb_spec k 0) as [E|E]; [lia|].
    assert (8 <= A). { pose proof (HDB 16 ltac:(lia) HN16). lia. }
    assert (HB8 : 2 ^ (8 + k) <= 2 ^ B) by (apply Z.pow_le_mono_r; lia). rewrite Z.pow_add_r in HB8 by lia. change (2 ^ 8) with 256 in HB8. lia.
Qed.
