(** Amortized bounds: printing lines, seeking, printing a document. *)
From Verif Require Export PCost3.

Set Implicit Arguments.

(** What is not needed is still there afterwards. *)
Lemma paid_frame {X A} c (x : res X A) (J : A -> nat -> Prop) phi e :
  paid c x J phi -> paid c x (fun a p => exists q, J a q /\ q + e <= p) (phi + e).
Proof.
  unfold paid. destruct x as [a|f]; [|lia]. intros (p & Ha & H). exists (p + e). split; [exists p; auto|lia].
Qed.

Section Bounds.
Context {pd : PrettyDoc} {env : Env}.
Variables K T : nat.
Hypothesis HK : 4 * T + 20 <= K.
Hypothesis HT2 : 2 <= T.
Notation ppot := (pot K T pz).

Lemma HK2 : 4 * (T - 2) + 20 <= K.
Proof. lia. Qed.

Lemma next_line_paid n p phi e : ppot e p phi ->
  paid (print_next_line_cost n p) (print_next_line n p)
    (fun x q => match snd x with None => ppot e (fst x) q | Some _ => ppot (e + K) (fst x) q end) phi.
Proof.
  intros (m & Hp & HT & Hphi). unfold print_next_line_cost, print_next_line.
  destruct (pr_next p) as [|b bs] eqn:E.
  { exists phi. split; [|lia]. exists m. auto. }
  destruct (pz_next Hp E) as (x & z & Hx & Hz & Hle).
  pose proof (@pay K (m - 1) (x + z) ltac:(lia)) as P1. pose proof (@pay K m (m - 1) ltac:(lia)) as P2.
  assert (Hl : paid (loop_cost (chunk_cost n (expand_first_cost n)) n (print_next_body n) (set_next p bs, b))
    (loop n (print_next_body n) (set_next p bs, b)) (pot K T stz 0) (K * (x + z) + 1)).
  { apply paid_loop with (I := pot K T stz 1); [intros; apply print_next_paid; auto|].
    exists (x + z). split; [exists x, z; auto|]. lia. }
  unfold paid in *. destruct (loop n (print_next_body n) (set_next p bs, b)) as [[q c]|f]; simpl; [|lia].
  destruct Hl as (phi' & (m' & (x' & z' & H1 & H2 & H3) & H4 & H5) & H6).
  destruct (block_print c) as [l|f]; simpl; [|lia].
  exists (phi' + e + K). split; [|lia]. exists m'. split; [eapply pz_mono; eauto; lia|]. lia.
Qed.

Lemma prev_line_paid n p phi e : ppot e p phi ->
  paid (print_prev_line_cost n p) (print_prev_line n p)
    (fun x q => match snd x with None => ppot e (fst x) q | Some _ => ppot e (fst x) q end) phi.
Proof.
  intros (m & Hp & HT & Hphi). unfold print_prev_line_cost, print_prev_line.
  destruct (pr_prev p) as [|b bs] eqn:E.
  { exists phi. split; [|lia]. exists m. auto. }
  destruct (pz_prev Hp E) as (x & z & Hx & Hz & Hle).
  pose proof (@pay K m (x + z) ltac:(lia)) as P1.
  assert (Hl : paid (loop_cost (chunk_cost n (expand_last_cost n)) n (print_prev_body n) (set_prev p bs, b))
    (loop n (print_prev_body n) (set_prev p bs, b)) (pot K T stz 0) (K * (x + z) + 1)).
  { apply paid_loop with (I := pot K T stz 1); [intros; apply print_prev_paid; auto|].
    exists (x + z). split; [exists x, z; auto|]. lia. }
  unfold paid in *. destruct (loop n (print_prev_body n) (set_prev p bs, b)) as [[q c]|f]; simpl; [|lia].
  destruct Hl as (phi' & (m' & (x' & z' & H1 & H2 & H3) & H4 & H5) & H6).
  destruct (block_print c) as [l|f]; simpl; [|lia].
  exists (phi' + e). split; [|lia]. exists m'. split; [eapply pz_mono; eauto; lia|]. lia.
Qed.

(** A chunk about to be expanded into the next block. *)
Definition cpot (e : nat) (s : printer * chunk) (phi : nat) : Prop :=
  exists m a, pz m (fst s) /\ wt a (ck_note (snd s)) /\ m + a <= T /\ K * (m + a) + e <= phi.

Lemma cpot_first n p c b bs phi e : pr_next p = b :: bs -> cpot (e + 1) (p, c) phi ->
  paid (expand_first_cost n (set_next p bs) b c) (expand_first n (set_next p bs) b c)
    (fun s q => pot K (T - 2) stz (2 * K + e) s q) phi.
Proof.
  intros E (m & a & Hp & Ha & HT & Hphi). cbn [fst snd] in *.
  destruct (pz_next Hp E) as (x & z & Hx & Hz & Hle).
  pose proof (@pay K (m + a - 1) (x + z + a) ltac:(lia)) as P1. pose proof (@pay K (m + a) (m + a - 1) ltac:(lia)) as P2.
  pose proof (@expand_first_paid pd env K (T - 2) HK2 n (set_next p bs) b c (x + z + a) x z a Hx Hz Ha ltac:(lia) ltac:(lia)) as H.
  unfold paid in *. destruct (expand_first n (set_next p bs) b c) as [s|f]; [|lia].
  destruct H as (phi' & (m' & H1 & H2 & H3) & H4). exists (phi' + 2 * K + e). split; [|lia]. exists m'. split; auto; lia.
Qed.

Lemma cpot_last n p c b bs phi e : pr_next p = b :: bs -> cpot (e + 1) (p, c) phi ->
  paid (expand_last_cost n (set_next p bs) b c) (expand_last n (set_next p bs) b c)
    (fun s q => pot K (T - 2) stz (2 * K + e) s q) phi.
Proof.
  intros E (m & a & Hp & Ha & HT & Hphi). cbn [fst snd] in *.
  destruct (pz_next Hp E) as (x & z & Hx & Hz & Hle).
  pose proof (@pay K (m + a - 1) (x + z + a) ltac:(lia)) as P1. pose proof (@pay K (m + a) (m + a - 1) ltac:(lia)) as P2.
  pose proof (@expand_last_paid pd env K (T - 2) HK2 n (set_next p bs) b c (x + z + a) x z a Hx Hz Ha ltac:(lia) ltac:(lia)) as H.
  unfold paid in *. destruct (expand_last n (set_next p bs) b c) as [s|f]; [|lia].
  destruct H as (phi' & (m' & H1 & H2 & H3) & H4). exists (phi' + 2 * K + e). split; [|lia]. exists m'. split; auto; lia.
Qed.

Lemma pot_push p b e phi : pot K (T - 2) stz (2 * K + e) (p, b) phi -> ppot e (push_next p b) phi.
Proof.
  intros (m & Hs & HT & Hphi). exists (2 + m). split; [apply stz_push; auto|]. split; [lia|]. 
  pose proof (@pay K (1 + m) m ltac:(lia)). pose proof (@pay K (2 + m) (1 + m) ltac:(lia)). nia.
Qed.

Lemma seek_start_paid n p c phi : cpot 1 (p, c) phi ->
  paid (seek_start_cost n p c) (seek_start n p c) (ppot 0) phi.
Proof.
  intros H. unfold seek_start_cost, seek_start. destruct (pr_next p) as [|b bs] eqn:E; [simpl; lia|].
  pose proof (@cpot_first n p c b bs phi 0 E H) as H1. unfold paid in *.
  destruct (expand_first n (set_next p bs) b c) as [[q d]|f]; simpl; [|lia].
  destruct H1 as (phi' & H1 & H2). exists phi'. split; auto. apply pot_push; auto.
Qed.

Lemma seek_end_paid n p c phi : cpot 2 (p, c) phi ->
  paid (seek_end_cost n p c) (seek_end n p c) (ppot 0) phi.
Proof.
  intros H. unfold seek_end_cost, seek_end. destruct (pr_next p) as [|b bs] eqn:E; [simpl; lia|].
  pose proof (@cpot_last n p c b bs phi 1 E H) as H1.
  apply paid_bind with (J := fun s q => pot K (T - 2) stz (2 * K + 1) s q); [exact H1|]. clear - HK HT2.
  intros s phi (m & H1 & H2 & H3).
  assert (Hl : paid (loop_cost (fun s => if Nat.leb (length (bl_chunks (snd s))) (length (bl_chunks b)) then 1
                    else chunk_cost n (expand_last_cost n) s) n (seek_end_body n (length (bl_chunks b))) s)
    (loop n (seek_end_body n (length (bl_chunks b))) s) (pot K (T - 2) stz 0) (K * m + 1)).
  { apply paid_loop with (I := pot K (T - 2) stz 1); [intros; apply seek_end_body_paid; auto; lia|].
    exists m. split; auto; lia. }
  unfold paid in *. destruct (loop n (seek_end_body n (length (bl_chunks b))) s) as [[q d]|f]; simpl; [|lia].
  destruct Hl as (phi' & (m' & H4 & H5 & H6) & H7). exists (phi' + 2 * K). split; [|lia].
  apply pot_push. exists m'. split; auto; lia.
Qed.

Lemma outer_paid n p c phi (bc : printer * block -> nat) body outer :
  (forall s phi, pot K (T - 2) stz (2 * K + 1) s phi ->
    paid (bc s) (body s) (fun x p => match x with Next s' => pot K (T - 2) stz (2 * K + 1) s' p | Done r => mark_pot K (T - 2) r p end) phi) ->
  (forall p, match pr_next p with
    | [] => exists f, outer p = Fail f
    | b :: bs => outer p = (r <- loop n body (set_next p bs, b) ;;
      match r with
      | inl p' => Ok (Done p')
      | inr (p', b') => Ok (Next (push_prev p' b'))
      end)
    end) -> cpot 3 (p, c) phi ->
  paid (match pr_next p with
    | [] => 0
    | b :: bs =>
      expand_first_cost n (set_next p bs) b c +
      after (expand_first n (set_next p bs) b c) (fun '(p, b) =>
        loop_cost (fun p => 1 + match pr_next p with
      | [] => 0
      | b :: bs => loop_cost bc n body (set_next p bs, b)
      end) n outer (push_next p b))
    end)
   (match pr_next p with
    | [] => Panic PNoBlock
    | b :: bs =>
      '(p, b) <- expand_first n (set_next p bs) b c ;;
      loop n outer (push_next p b)
    end) (ppot 0) phi.
Proof.
  intros Hb Ho H. destruct (pr_next p) as [|b bs] eqn:E; [simpl; lia|].
  pose proof (@cpot_first n p c b bs phi 2 E H) as H1.
  eapply paid_bind; [exact H1|]. clear - HK HT2 Hb Ho. intros [p b] phi H.
  apply paid_loop with (I := ppot 2); [|apply pot_push; auto].
  clear - HK HT2 Hb Ho. intros p phi (m & Hp & HT & Hphi).
  specialize (Ho p). destruct (pr_next p) as [|b bs] eqn:E.
  { destruct Ho as (f & ->). simpl. lia. }
  rewrite Ho. destruct (pz_next Hp E) as (x & z & Hx & Hz & Hle).
  assert (Hl : paid (loop_cost bc n body (set_next p bs, b)) (loop n body (set_next p bs, b)) (mark_pot K (T - 2)) (K * m + 1)).
  { apply paid_loop with (I := pot K (T - 2) stz (2 * K + 1)); [auto|].
    exists (x + z). split; [exists x, z; auto|]. split; [lia|].
    pose proof (@pay K (m - 1) (x + z) ltac:(lia)) as P1. pose proof (@pay K m (m - 1) ltac:(lia)) as P2. lia. }
  unfold paid in *. destruct (loop n body (set_next p bs, b)) as [[q|[q d]]|f]; simpl; [| |lia].
  - destruct Hl as (phi' & (m' & H1 & H2 & H3) & H4). exists phi'. split; [|lia]. exists m'. split; auto; lia.
  - destruct Hl as (phi' & (m' & H1 & H2 & H3) & H4). exists phi'. split; [|lia]. exists m'. split; auto; lia.
Qed.

Lemma seek_mark_paid' n p c phi : cpot 3 (p, c) phi ->
  paid (seek_mark_cost n p c) (seek_mark n p c) (ppot 0) phi.
Proof.
  intros H. unfold seek_mark_cost, seek_mark. 
  apply (@outer_paid n p c phi (chunk_cost n (expand_first_cost n)) (seek_mark_body n (ck_id c)) (seek_mark_outer n (ck_id c))); auto.
  - intros. apply seek_mark_paid; auto. apply HK2.
  - intros q. unfold seek_mark_outer. destruct (pr_next q); eauto.
Qed.

Lemma seek_text_paid' n p c k phi : cpot 3 (p, c) phi ->
  paid (seek_text_cost n p c k) (seek_text n p c k) (ppot 0) phi.
Proof.
  intros H. unfold seek_text_cost, seek_text. 
  apply (@outer_paid n p c phi (chunk_cost n (expand_first_cost n)) (seek_text_body n k) (seek_text_outer n k)); auto.
  - intros. apply seek_text_paid; auto. apply HK2.
  - intros q. unfold seek_text_outer. destruct (pr_next q); eauto.
Qed.

(** ** seek_child *)
Lemma scan_le id k z cs : csz z cs -> scan_cost id k cs <= z.
Proof. induction 1; simpl; [lia|]. destruct (relevant_chunk _ _ _); lia. Qed.

Lemma walk_paid id k next : forall x y prev, bsz 1 x prev -> bsz 2 y next ->
  walk_cost id k next <= y /\
  exists x' y', bsz 1 x' (fst (walk id k prev next)) /\ bsz 2 y' (snd (walk id k prev next)) /\ x' + y' <= x + y.
Proof.
  induction next as [|b next IH]; intros x y prev Hx Hy; simpl.
  - split; [lia|]. exists x, y. auto.
  - inversion Hy as [|? a m ? ? Ha Hm Hle]; subst. pose proof (scan_le id k Ha).
    destruct (contains_relevant_chunk id k b).
    + split; [lia|]. exists x, y. auto.
    + destruct (IH (1 + (a + x)) m (b :: prev)) as (H1 & x' & y' & H2 & H3 & H4); auto; [econstructor; eauto|].
      split; [lia|]. exists x', y'. repeat split; auto; lia.
Qed.

Lemma seek_child_outer_paid n id k p phi : ppot (T + 3) p phi ->
  paid (seek_child_outer_cost n id k p) (seek_child_outer n id k p)
    (fun x q => match x with Next s' => ppot (T + 3) s' q | Done r => cpot (K - 1) r q end) phi.
Proof.
  intros (m & (x & y & Hx & Hy & Hle) & HT & Hphi). unfold seek_child_outer_cost, seek_child_outer.
  destruct (@walk_paid id k (pr_next p) x y (pr_prev p) Hx Hy) as (Hw & x' & y' & H2 & H3 & H4).
  destruct (walk id k (pr_prev p) (pr_next p)) as [prev [|b bs]]; cbn [fst snd] in *; [simpl; lia|].
  inversion H3 as [|? a m' ? ? Ha Hm Hle']; subst.
  assert (Hl : paid (loop_cost (seek_child_body_cost n id k) n (seek_child_body n id k) (Printer (pr_width p) prev bs, b))
    (loop n (seek_child_body n id k) (Printer (pr_width p) prev bs, b)) (sc_pot K (T - 2)) (K * m + 1)).
  { apply paid_loop with (I := pot K (T - 2) stz (2 * K + 1)); [intros; apply seek_child_body_paid; auto; apply HK2|].
    exists (x' + m' + a). split; [exists (x' + m'), a; repeat split; auto; exists x', m'; auto|]. split; [lia|].
    pose proof (@pay K (m - 1) (x' + m' + a) ltac:(lia)) as P1. pose proof (@pay K m (m - 1) ltac:(lia)) as P2. lia. }
  unfold paid in *. destruct (loop n (seek_child_body n id k) (Printer (pr_width p) prev bs, b)) as [[q d|q|q]|f]; simpl; [| | |lia].
  - destruct Hl as (phi' & (m1 & a1 & Q1 & Q2 & Q3 & Q4) & Q5).
    destruct (chunk_new d) as [c|] eqn:E; simpl; [|lia].
    exists phi'. split; [|lia]. exists m1, a1. cbn [fst snd]. split; auto. split; [eapply chunk_new_wt; eauto|]. lia.
  - destruct Hl as (phi' & (m1 & Q1 & Q2 & Q3) & Q4). exists phi'. split; [|lia]. exists m1. split; auto; lia.
  - destruct Hl as (phi' & (m1 & Q1 & Q2 & Q3) & Q4). exists phi'. split; [|lia]. exists m1. split; auto; lia.
Qed.

Lemma seek_child_paid n p c k phi : cpot (T + 4) (p, c) phi ->
  paid (seek_child_cost n p c k) (seek_child n p c k) (cpot (K - 1)) phi.
Proof.
  intros H. unfold seek_child_cost, seek_child. destruct (pr_next p) as [|b bs] eqn:E; [simpl; lia|].
  eapply paid_bind; [apply (@cpot_first n p c b bs phi (T + 3) E)|].
  - replace (T + 3 + 1) with (T + 4) by lia. exact H.
  - clear - HK HT2. intros [p b] phi H. apply paid_loop with (I := ppot (T + 3)); [|apply pot_push; auto].
    intros; apply seek_child_outer_paid; auto.
Qed.

Lemma cpot_mono e e' s phi phi' : cpot e s phi -> e' + phi <= e + phi' -> cpot e' s phi'.
Proof. intros (m & a & H1 & H2 & H3 & H4) H. exists m, a. repeat split; auto. lia. Qed.

Lemma seek_path_paid n path : forall p c phi, cpot (T + 5) (p, c) phi ->
  paid (seek_path_cost n p c path) (seek_path n p c path) (cpot (T + 5)) phi.
Proof.
  induction path as [|i path IH]; intros p c phi H; simpl.
  - exists phi. auto.
  - apply paid_more with (c := seek_child_cost n p c i + after (seek_child n p c i) (fun '(p, c) => seek_path_cost n p c path))
      (phi := phi - 1) (J := cpot (T + 5)); auto; [|destruct H as (? & ? & _ & _ & _ & ?); lia].
    apply paid_bind with (J := cpot (K - 1)).
    + apply seek_child_paid; auto. eapply cpot_mono; eauto. destruct H as (? & ? & _ & _ & _ & ?); lia.
    + intros [q d] phi' H'. apply IH. eapply cpot_mono; eauto. lia.
Qed.

(** ** Whole documents *)
Lemma printer_new_pz w p : printer_new w = Ok p -> pz 2 p.
Proof.
  unfold printer_new. destruct (block_new [] []) as [b|] eqn:E; simpl; [|discriminate]. intros [= <-].
  apply block_new_chunks in E. exists 0, 2. simpl. split; [constructor|]. split; [|lia].
  apply bsz_cons with (a := 0) (m := 0); [rewrite E; constructor|constructor|lia].
Qed.

Lemma seek_paid n p doc path ft st a : 2 + a <= T -> pz 2 p ->
  (forall d c, with_optional_style doc st = Ok d -> eval d = Ok c -> wt a c) ->
  paid (seek_cost n p doc path ft st) (seek n p doc path ft st) (ppot 0) (K * T + (T + 5)).
Proof.
  intros Ha Hp Hd. unfold seek_cost, seek.
  destruct (with_optional_style doc st) as [d|] eqn:Ed; simpl; [|lia].
  destruct (chunk_new d) as [c|] eqn:Ec; simpl; [|lia].
  eapply paid_bind with (J := cpot (T + 5)).
  - apply seek_path_paid. exists 2, a. cbn [fst snd]. split; auto. split; [eapply chunk_new_wt; eauto|]. split; [lia|].
    assert (K * (2 + a) <= K * T) by (apply Nat.mul_le_mono_l; auto). lia.
  - intros [q e] phi H.
    destruct ft.
    + apply seek_start_paid. eapply cpot_mono; eauto. lia.
    + apply seek_end_paid. eapply cpot_mono; eauto. lia.
    + apply seek_mark_paid'. eapply cpot_mono; eauto. lia.
    + apply seek_text_paid'. eapply cpot_mono; eauto. lia.
Qed.

Definition wpot (x : printer * focused_line * printer) (phi : nat) : Prop :=
  exists a b, ppot 0 (fst (fst x)) a /\ ppot K (snd x) b /\ a + b <= phi.

Lemma pretty_print_paid n doc w path ft st a : 2 + a <= T ->
  (forall d c, with_optional_style doc st = Ok d -> eval d = Ok c -> wt a c) ->
  paid (pretty_print_cost n doc w path ft st) (pretty_print n doc w path ft st) wpot (K * T + (T + 5)).
Proof.
  intros Ha Hd. unfold pretty_print_cost, pretty_print.
  destruct (printer_new w) as [p|] eqn:Ep; simpl; [|lia]. apply printer_new_pz in Ep.
  apply paid_bind with (J := ppot 0); [eapply seek_paid; eauto|]. clear - HK HT2. intros p phi H.
  pose proof (@next_line_paid n p phi 0 H) as Hl. 
  destruct (pr_next p) as [|b bs] eqn:E.
  { unfold print_next_line_cost. rewrite E. simpl. lia. }
  unfold paid in *. destruct (print_next_line n p) as [[q [l|]]|f]; simpl; [| |lia].
  - destruct Hl as (phi' & (m & (x & y & H1 & H2 & H3) & H4 & H5) & H6).
    destruct (length (bl_segments b) <=? length l); simpl; [|lia].
    exists phi'. split; [|lia]. exists (K * x), (K * y + K). cbn [fst snd]. split; [|split].
    + exists x. split; [exists x, 0; simpl; repeat split; auto; [constructor|lia]|lia].
    + exists y. split; [exists 0, y; simpl; repeat split; auto; constructor|lia].
    + assert (K * (x + y) <= K * m) by (apply Nat.mul_le_mono_l; auto). lia.
  - destruct Hl as (phi' & _ & H6). lia.
Qed.

Lemma take_lines_paid next cost e k : (forall p phi, ppot e p phi -> paid (cost p) (next p)
    (fun (x : printer * option line) q => match snd x with None => ppot e (fst x) q | Some _ => ppot e (fst x) q end) phi) ->
  forall p phi, ppot e p phi -> paid (take_lines_cost next cost k p) (take_lines next k p) (fun _ _ => True) phi.
Proof.
  intros Hn. induction k as [|k IH]; intros p phi H; simpl.
  - exists phi. auto.
  - eapply paid_bind; [apply Hn; exact H|]. intros [q [l|]] phi' H'; cbn [fst snd] in *.
    + specialize (IH _ _ H'). unfold paid in *. destruct (take_lines next k q); simpl; auto.
    + exists phi'. auto.
Qed.

Theorem window_work n doc w path ft st ku kd a : 2 + a <= T ->
  (forall d c, with_optional_style doc st = Ok d -> eval d = Ok c -> wt a c) ->
  window_cost n doc w path ft st ku kd <= K * T + (T + 5).
Proof.
  intros Ha Hd. assert (H : paid (window_cost n doc w path ft st ku kd) (window n doc w path ft st ku kd) (fun _ _ => True) (K * T + (T + 5))).
  { unfold window_cost, window. eapply paid_bind; [eapply pretty_print_paid; eauto|].
    intros [[up fl] down] phi (x & y & H1 & H2 & H3). cbn [fst snd] in *.
    pose proof (@take_lines_paid (up_next n) (print_prev_line_cost n) 0 ku (fun p phi => @prev_line_paid n p phi 0) up x H1) as U.
    assert (V : paid (take_lines_cost (down_next n) (print_next_line_cost n) kd down) (take_lines (down_next n) kd down) (fun _ _ => True) y).
    { eapply take_lines_paid; eauto. clear - HK HT2. intros p phi H. pose proof (@next_line_paid n p phi K H) as H1.
      eapply paid_more; eauto. intros [q [l|]] phi'; cbn [fst snd]; auto.
      intros (m & Q1 & Q2 & Q3). exists m. repeat split; auto; lia. }
    unfold paid in *. destruct (take_lines (up_next n) ku up); simpl; [|lia]. destruct U as (u & _ & U).
    destruct (take_lines (down_next n) kd down); simpl; [|lia].
    destruct V as (v & _ & V). exists 0. split; auto; lia. }
  unfold paid in H. destruct (window n doc w path ft st ku kd); [destruct H as (? & _ & H)|]; lia.
Qed.

Theorem to_string_work n doc w a : 2 + a <= T ->
  (forall d c, with_optional_style doc None = Ok d -> eval d = Ok c -> wt a c) ->
  to_string_cost n doc w <= K * T + (T + 5).
Proof.
  intros Ha Hd. assert (H : paid (to_string_cost n doc w) (pretty_print_to_string n doc w) (fun _ _ => True) (K * T + (T + 5))).
  { unfold to_string_cost, pretty_print_to_string. eapply paid_bind; [eapply pretty_print_paid; eauto|].
    intros [[up fl] down] phi (x & y & H1 & H2 & H3). cbn [fst snd] in *.
    apply paid_loop with (I := fun s q => ppot 1 (fst s) q).
    2: { cbn [fst]. destruct H2 as (m & Q1 & Q2 & Q3). exists m. repeat split; auto; lia. }
    clear - HK HT2. intros [p s] phi (m & Q1 & Q2 & Q3). cbn [fst] in *. unfold to_string_body, down_next.
    pose proof (@next_line_paid n p (K * m) 0) as Hl. unfold paid in *.
    destruct (print_next_line n p) as [[q [l|]]|f]; simpl.
    - destruct Hl as (phi' & Hq & Hl); [exists m; repeat split; auto; lia|].
      exists phi'. split; [|lia]. cbn [fst snd] in *. destruct Hq as (m' & R1 & R2 & R3). exists m'. repeat split; auto; lia.
    - destruct Hl as (phi' & Hq & Hl); [exists m; repeat split; auto; lia|]. exists 0. split; auto; lia.
    - assert (ppot 0 p (K * m)) by (exists m; repeat split; auto; lia). specialize (Hl H). lia. }
  unfold paid in H. destruct (pretty_print_to_string n doc w); [destruct H as (? & _ & H)|]; lia.
Qed.

End Bounds.
