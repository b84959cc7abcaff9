(** Printing two documents that behave alike takes the same work. *)
From Verif Require Export PSim Cost.

Set Implicit Arguments.

Section SimCost.
Context {pd1 pd2 : PrettyDoc} {env : Env}.
Variable T : likeness pd1 pd2.
Variable shut : @D pd1 -> Prop.
Hypothesis HR : lockstep T shut.

Notation rr := (@rr pd1 pd2 T _ _).
Notation rd := (rd T shut).
Notation rc := (rc T shut).
Notation rk := (rk T shut).
Notation rb := (rb T shut).
Notation rp := (rp T shut).
Notation rpb := (rpb T shut).

(** The first refuses, or the costs are the same. *)
Definition ceq {A} (x' : @pres pd1 A) (c' c : nat) : Prop := refused T x' \/ c' = c.

Lemma ceq_eq {A} (x' : @pres pd1 A) c : ceq x' c c.
Proof. right. reflexivity. Qed.

Lemma ceq_add {A} (x' : @pres pd1 A) a b' b : ceq x' b' b -> ceq x' (a + b') (a + b).
Proof. intros [H|H]; [left|right]; auto. Qed.

Lemma refused_bind {A B} (x' : @pres pd1 A) (k : A -> @pres pd1 B) : refused T x' -> refused T (bind x' k).
Proof. intros (e & -> & H). exists e. auto. Qed.

Lemma ceq_bind_l {A B} (x' : @pres pd1 A) (k : A -> @pres pd1 B) c' c : ceq x' c' c -> ceq (bind x' k) c' c.
Proof. intros [H|H]; [left; apply refused_bind; auto|right; auto]. Qed.

Lemma ceq_bind {A A2 B} (Q : A -> A2 -> Prop) (x' : @pres pd1 A) (x : @pres pd2 A2) (k' : A -> @pres pd1 B) c' c f' f :
  rr Q x' x -> ceq x' c' c -> (forall a' a, Q a' a -> ceq (k' a') (f' a') (f a)) ->
  ceq (bind x' k') (c' + after x' f') (c + after x f).
Proof.
  intros Hx Hc Hk. destruct x' as [a'|g'].
  - destruct Hx as (a & -> & Ha). destruct Hc as [(e & E & _)| ->]; [discriminate|]. simpl. apply ceq_add. apply Hk. exact Ha.
  - destruct Hx as [(e & -> & He)|(g & -> & _)]; [left; exists e; auto|].
    destruct Hc as [H| ->]; [left; apply refused_bind; auto|right; reflexivity].
Qed.

Lemma ceq_after {A A2 B} (Q : A -> A2 -> Prop) (x' : @pres pd1 A) (x : @pres pd2 A2) (k' : A -> @pres pd1 B) f' f :
  rr Q x' x -> (forall a' a, Q a' a -> ceq (k' a') (f' a') (f a)) ->
  ceq (bind x' k') (after x' f') (after x f).
Proof. intros Hx Hk. apply (@ceq_bind _ _ _ Q x' x k' 0 0 f' f Hx (ceq_eq _ _) Hk). Qed.

Lemma ceq_loop {S S2 U U2} (Q : S -> S2 -> Prop) (QT : U -> U2 -> Prop) body' body c' c n :
  (forall s' s, Q s' s -> rr (steps Q QT) (body' s') (body s)) ->
  (forall s' s, Q s' s -> ceq (body' s') (c' s') (c s)) ->
  forall s' s, Q s' s -> ceq (loop n body' s') (loop_cost c' n body' s') (loop_cost c n body s).
Proof.
  intros Hb Hc. induction n as [|n IH]; intros s' s Hs; [apply ceq_eq|].
  cbn [loop loop_cost]. specialize (Hb _ _ Hs). specialize (Hc _ _ Hs). destruct (body' s') as [a'|g'].
  - destruct Hb as (a & -> & Ha). destruct Hc as [(e & E & _)| ->]; [discriminate|].
    destruct a', a; try contradiction; [apply ceq_add; apply IH; auto|apply ceq_eq].
  - destruct Hb as [(e & -> & He)|(g & -> & _)]; [left; exists e; auto|].
    destruct Hc as [(e & E & He)| ->]; [left; injection E as ->; exists e; auto|apply ceq_eq].
Qed.

(** ** The functions of the printer *)
Lemma fits_cost_sim n w eol c' c cs' cs : rc c' c -> Forall2 rk cs' cs ->
  ceq (fits n w eol c' cs') (fits_cost n w eol c' cs') (fits_cost n w eol c cs).
Proof.
  intros Hc Hcs. unfold fits, fits_cost.
  apply ceq_loop with (Q := rfs T shut) (QT := eq); [intros; apply (fits_body_sim HR); auto|intros; apply ceq_eq|].
  unfold rfs. simpl. auto.
Qed.

Lemma choose_cost_sim n p' p b' b d1' d1 d2' d2 : rp p' p -> rb b' b -> rd d1' d1 -> rd d2' d2 ->
  ceq (choose n p' b' d1' d2') (choose_cost n p' b' d1' d2') (choose_cost n p b d1 d2).
Proof.
  intros Hp Hb H1 H2. unfold choose, choose_cost. eapply ceq_after; [apply (chunk_sim HR); exact H1|].
  intros c' c Hc. apply ceq_bind_l. rewrite (rp_width Hp), (rb_len Hb), (rb_eol Hb).
  destruct (_ <=? _)%N; [|apply ceq_eq]. apply fits_cost_sim; [apply Hc|apply Hb].
Qed.

Lemma expand_first_cost_sim n p' p b' b c' c : rp p' p -> rb b' b -> rk c' c ->
  ceq (expand_first n p' b' c') (expand_first_cost n p' b' c') (expand_first_cost n p b c).
Proof.
  intros Hp Hb Hc. unfold expand_first, expand_first_cost.
  apply ceq_loop with (Q := ref T shut) (QT := rpb); [intros; apply (expand_first_body_sim HR); auto|intros; apply ceq_eq|].
  unfold ref. simpl. auto.
Qed.

Lemma expand_last_cost_sim n p' p b' b c' c : rp p' p -> rb b' b -> rk c' c ->
  ceq (expand_last n p' b' c') (expand_last_cost n p' b' c') (expand_last_cost n p b c).
Proof.
  intros Hp Hb Hc. unfold expand_last, expand_last_cost. apply ceq_bind_l.
  apply ceq_loop with (Q := rel T shut) (QT := ref T shut); [intros; apply (expand_last_body_sim HR); auto|intros; apply ceq_eq|].
  unfold rel. simpl. auto.
Qed.

Section Chunk.
Variable n : nat.
Variables (ex' : @printer pd1 -> @block pd1 -> @chunk pd1 -> @pres pd1 (@printer pd1 * @block pd1)).
Variables (ec' : @printer pd1 -> @block pd1 -> @chunk pd1 -> nat) (ec : @printer pd2 -> @block pd2 -> @chunk pd2 -> nat).
Hypothesis Hex : forall p' p b' b c' c, rp p' p -> rb b' b -> rk c' c -> ceq (ex' p' b' c') (ec' p' b' c') (ec p b c).

Lemma child_part {B} (K : @printer pd1 * @block pd1 -> @pres pd1 B) p' p b' b d' d : rp p' p -> rb b' b -> rd d' d ->
  ceq (x <- chunk_new d' ;; s <- ex' p' b' x ;; K s) (after (chunk_new d') (ec' p' b')) (after (chunk_new d) (ec p b)).
Proof.
  intros Hp Hb Hd. eapply ceq_after; [apply (chunk_sim HR); exact Hd|]. intros c' c Hc. apply ceq_bind_l. auto.
Qed.

Lemma choice_part {B} (K : @printer pd1 * @block pd1 -> @pres pd1 B) p' p b' b d1' d1 d2' d2 :
  rp p' p -> rb b' b -> rd d1' d1 -> rd d2' d2 ->
  ceq (x <- choose n p' b' d1' d2' ;; s <- ex' p' b' x ;; K s)
    (choose_cost n p' b' d1' d2' + after (choose n p' b' d1' d2') (ec' p' b'))
    (choose_cost n p b d1 d2 + after (choose n p b d1 d2) (ec p b)).
Proof.
  intros Hp Hb H1 H2. eapply ceq_bind; [apply (choose_sim HR); eauto|apply choose_cost_sim; auto|].
  intros c' c Hc. apply ceq_bind_l. auto.
Qed.

(** The result [x'] of an iteration is refused if expanding a child or a choice is. *)
Definition chunk_result {B} (p' : @printer pd1) (b' : @block pd1) (x' : @pres pd1 B) : Prop :=
  match bl_chunks b' with
  | [] => True
  | c :: cs =>
      match ck_note c with
      | CChild _ d => exists K, x' = (x <- chunk_new d ;; s <- ex' p' (set_chunks b' cs) x ;; K s)
      | CChoice d1 d2 => exists K, x' = (x <- choose n p' (set_chunks b' cs) d1 d2 ;; s <- ex' p' (set_chunks b' cs) x ;; K s)
      | _ => True
      end
  end.

Lemma chunk_cost_sim {B} (x' : @pres pd1 B) p' p b' b : rp p' p -> rb b' b -> chunk_result p' b' x' ->
  ceq x' (chunk_cost n ec' (p', b')) (chunk_cost n ec (p, b)).
Proof.
  intros Hp Hb Hx. unfold chunk_cost, chunk_result in *. apply ceq_add.
  pose proof (rb_chunks Hb) as Hk. inversion Hk as [E1 E2|c' c cs' cs Hc Hcs E1 E2]; [apply ceq_eq|].
  rewrite <- E1 in Hx. pose proof (set_chunks_sim Hb Hcs) as Hb2. destruct Hc as [Hc Hi].
  destruct (ck_note c') eqn:N1, (ck_note c) eqn:N2; simpl in Hc; try contradiction; try apply ceq_eq.
  - destruct Hx as [K ->]. apply choice_part; auto; apply Hc.
  - destruct Hx as [K ->]. apply child_part; auto; apply Hc.
Qed.
End Chunk.

Ltac find_result :=
  unfold chunk_result; match goal with |- context[match bl_chunks ?b with _ => _ end] => destruct (bl_chunks b) as [|?c ?cs] end;
  [exact I|]; match goal with |- context[ck_note ?c] => destruct (ck_note c) end; try exact I; eexists; reflexivity.

Lemma print_next_cost_sim n s' s : rpb s' s ->
  ceq (print_next_body n s') (chunk_cost n (expand_first_cost n) s') (chunk_cost n (expand_first_cost n) s).
Proof.
  destruct s' as [p' b'], s as [p b]. intros [Hp Hb]. simpl in Hp, Hb.
  apply chunk_cost_sim with (ex' := expand_first n); auto; [intros; apply expand_first_cost_sim; auto|].
  unfold print_next_body. find_result.
Qed.

Lemma print_prev_cost_sim n s' s : rpb s' s ->
  ceq (print_prev_body n s') (chunk_cost n (expand_last_cost n) s') (chunk_cost n (expand_last_cost n) s).
Proof.
  destruct s' as [p' b'], s as [p b]. intros [Hp Hb]. simpl in Hp, Hb.
  apply chunk_cost_sim with (ex' := expand_last n); auto; [intros; apply expand_last_cost_sim; auto|].
  unfold print_prev_body. find_result.
Qed.

Lemma print_next_line_cost_sim n p' p : rp p' p ->
  ceq (print_next_line n p') (print_next_line_cost n p') (print_next_line_cost n p).
Proof.
  intros Hp. unfold print_next_line, print_next_line_cost.
  pose proof (rp_next Hp) as Hn. inversion Hn as [E1 E2|b' b bs' bs Hb Hbs E1 E2]; [apply ceq_eq|].
  apply ceq_bind_l. apply ceq_loop with (Q := rpb) (QT := rpb);
    [intros; apply (print_next_sim HR); auto|intros; apply print_next_cost_sim; auto|].
  split; auto. apply set_next_sim; auto.
Qed.

Lemma print_prev_line_cost_sim n p' p : rp p' p ->
  ceq (print_prev_line n p') (print_prev_line_cost n p') (print_prev_line_cost n p).
Proof.
  intros Hp. unfold print_prev_line, print_prev_line_cost.
  pose proof (rp_prev Hp) as Hn. inversion Hn as [E1 E2|b' b bs' bs Hb Hbs E1 E2]; [apply ceq_eq|].
  apply ceq_bind_l. apply ceq_loop with (Q := rpb) (QT := rpb);
    [intros; apply (print_prev_sim HR); auto|intros; apply print_prev_cost_sim; auto|].
  split; auto. apply set_prev_sim; auto.
Qed.

(** Seeking. *)
Lemma seek_end_cost_sim n p' p c' c : rp p' p -> rk c' c ->
  ceq (seek_end n p' c') (seek_end_cost n p' c') (seek_end_cost n p c).
Proof.
  intros Hp Hc. unfold seek_end, seek_end_cost.
  pose proof (rp_next Hp) as Hn. inversion Hn as [E1 E2|b' b bs' bs Hb Hbs E1 E2]; [apply ceq_eq|].
  assert (Hp2 : rp (set_next p' bs') (set_next p bs)) by (apply set_next_sim; auto).
  eapply ceq_bind; [apply (expand_last_sim HR); eauto|apply expand_last_cost_sim; auto|].
  intros s' s Hs. apply ceq_bind_l. rewrite (Forall2_length (rb_chunks Hb)).
  apply ceq_loop with (Q := rpb) (QT := rpb); auto; [intros; apply (seek_end_sim_body HR); auto|].
  clear - HR. intros [p' b'] [p b2] [Hp Hb]. simpl in Hp, Hb. cbn [snd]. rewrite (Forall2_length (rb_chunks Hb)).
  destruct (_ <=? _) eqn:E; [apply ceq_eq|].
  apply chunk_cost_sim with (ex' := expand_last n); auto; [intros; apply expand_last_cost_sim; auto|].
  unfold seek_end_body. rewrite (Forall2_length (rb_chunks Hb)), E. find_result.
Qed.

Lemma seek_start_cost_sim n p' p c' c : rp p' p -> rk c' c ->
  ceq (seek_start n p' c') (seek_start_cost n p' c') (seek_start_cost n p c).
Proof.
  intros Hp Hc. unfold seek_start, seek_start_cost.
  pose proof (rp_next Hp) as Hn. inversion Hn as [E1 E2|b' b bs' bs Hb Hbs E1 E2]; [apply ceq_eq|].
  apply ceq_bind_l. apply expand_first_cost_sim; auto. apply set_next_sim; auto.
Qed.

Lemma seek_mark_cost_sim n p' p c' c : rp p' p -> rk c' c ->
  ceq (seek_mark n p' c') (seek_mark_cost n p' c') (seek_mark_cost n p c).
Proof.
  intros Hp Hc. unfold seek_mark, seek_mark_cost.
  pose proof (rp_next Hp) as Hn. inversion Hn as [E1 E2|b' b bs' bs Hb Hbs E1 E2]; [apply ceq_eq|].
  assert (Hp2 : rp (set_next p' bs') (set_next p bs)) by (apply set_next_sim; auto).
  eapply ceq_bind; [apply (expand_first_sim HR); eauto|apply expand_first_cost_sim; auto|].
  intros [q' e'] [q e] [Hq He]. simpl in Hq, He. destruct Hc as [_ HI].
  apply ceq_loop with (Q := rp) (QT := rp); [intros; apply (seek_mark_outer_sim HR); auto| |apply push_next_sim; auto].
  clear - HR HI. intros p' p Hp. unfold seek_mark_outer, seek_mark_outer_cost. apply ceq_add.
  pose proof (rp_next Hp) as Hn. inversion Hn as [E1 E2|b' b bs' bs Hb Hbs E1 E2]; [apply ceq_eq|]. apply ceq_bind_l.
  apply ceq_loop with (Q := rpb) (QT := rsum T shut); [intros; apply (seek_mark_sim_body HR); auto| |split; auto; apply set_next_sim; auto].
  clear - HR. intros [p' b'] [p b] [Hp Hb]. simpl in Hp, Hb.
  apply chunk_cost_sim with (ex' := expand_first n); auto; [intros; apply expand_first_cost_sim; auto|].
  unfold seek_mark_body. find_result.
Qed.

Lemma seek_text_cost_sim n p' p c' c k : rp p' p -> rk c' c ->
  ceq (seek_text n p' c' k) (seek_text_cost n p' c' k) (seek_text_cost n p c k).
Proof.
  intros Hp Hc. unfold seek_text, seek_text_cost.
  pose proof (rp_next Hp) as Hn. inversion Hn as [E1 E2|b' b bs' bs Hb Hbs E1 E2]; [apply ceq_eq|].
  assert (Hp2 : rp (set_next p' bs') (set_next p bs)) by (apply set_next_sim; auto).
  eapply ceq_bind; [apply (expand_first_sim HR); eauto|apply expand_first_cost_sim; auto|].
  intros [q' e'] [q e] [Hq He]. simpl in Hq, He.
  apply ceq_loop with (Q := rp) (QT := rp); [intros; apply (seek_text_outer_sim HR); auto| |apply push_next_sim; auto].
  clear - HR. intros p' p Hp. unfold seek_text_outer, seek_text_outer_cost. apply ceq_add.
  pose proof (rp_next Hp) as Hn. inversion Hn as [E1 E2|b' b bs' bs Hb Hbs E1 E2]; [apply ceq_eq|]. apply ceq_bind_l.
  apply ceq_loop with (Q := rpb) (QT := rsum T shut); [intros; apply (seek_text_sim_body HR); auto| |split; auto; apply set_next_sim; auto].
  clear - HR. intros [p' b'] [p b] [Hp Hb]. simpl in Hp, Hb.
  apply chunk_cost_sim with (ex' := expand_first n); auto; [intros; apply expand_first_cost_sim; auto|].
  unfold seek_text_body. find_result.
Qed.

Lemma scan_cost_sim id' id k cs' cs : lk_id T id' id -> Forall2 rk cs' cs -> scan_cost id' k cs' = scan_cost id k cs.
Proof.
  intros HI. induction 1 as [|c' c l' l Hc _ IH]; simpl; auto. rewrite (@relevant_sim _ _ T shut HR id' id k _ _ HI Hc), IH. reflexivity.
Qed.

Lemma walk_cost_sim id' id k bs' bs : lk_id T id' id -> Forall2 rb bs' bs -> walk_cost id' k bs' = walk_cost id k bs.
Proof.
  intros HI. induction 1 as [|b' b l' l Hb _ IH]; simpl; auto.
  rewrite (@relevant_block_sim _ _ T shut HR id' id k _ _ HI Hb), IH, (@scan_cost_sim id' id k _ _ HI (rb_chunks Hb)). reflexivity.
Qed.

Lemma seek_child_body_cost_sim n id' id k s' s : lk_id T id' id -> rpb s' s ->
  ceq (seek_child_body n id' k s') (seek_child_body_cost n id' k s') (seek_child_body_cost n id k s).
Proof.
  destruct s' as [p' b'], s as [p b]. intros HI [Hp Hb]. simpl in Hp, Hb. unfold seek_child_body_cost. cbn [snd].
  pose proof (rb_chunks Hb) as Hk. inversion Hk as [E1 E2|c' c cs' cs Hc Hcs E1 E2]; [apply ceq_eq|].
  assert (H : (match ck_note c' with CChild i _ => id_eqb (ck_id c') id' && Nat.eqb i k | _ => false end) = false ->
     ceq (seek_child_body n id' k (p', b')) (chunk_cost n (expand_first_cost n) (p', b')) (chunk_cost n (expand_first_cost n) (p, b))).
  { intros Hf. apply chunk_cost_sim with (ex' := expand_first n); auto; [intros; apply expand_first_cost_sim; auto|].
    unfold chunk_result, seek_child_body. rewrite <- E1. destruct (ck_note c'); try exact I; [eexists; reflexivity|].
    rewrite Hf. eexists. reflexivity. }
  destruct Hc as [Hc Hi]. destruct (ck_note c') eqn:N1, (ck_note c) eqn:N2; simpl in Hc; try contradiction; try (apply H; reflexivity).
  destruct Hc as [-> _]. rewrite <- (ls_eq HR _ _ _ _ Hi HI). destruct (_ && _) eqn:E; [apply ceq_eq|]. apply H. reflexivity.
Qed.

Lemma seek_child_outer_cost_sim n id' id k p' p : lk_id T id' id -> rp p' p ->
  ceq (seek_child_outer n id' k p') (seek_child_outer_cost n id' k p') (seek_child_outer_cost n id k p).
Proof.
  intros HI Hp. unfold seek_child_outer, seek_child_outer_cost. rewrite (@walk_cost_sim id' id k _ _ HI (rp_next Hp)). apply ceq_add.
  destruct (@walk_sim _ _ T shut HR id' id k _ _ HI (rp_next Hp) _ _ (rp_prev Hp)) as [W1 W2].
  destruct (walk id' k (pr_prev p') (pr_next p')) as [pv' nx'], (walk id k (pr_prev p) (pr_next p)) as [pv nx]. simpl in W1, W2.
  inversion W2 as [E1 E2|b' b bs' bs Hb Hbs E1 E2]; [apply ceq_eq|]. apply ceq_bind_l.
  apply ceq_loop with (Q := rpb) (QT := rse T shut);
    [intros; apply (seek_child_sim_body HR); auto|intros; apply seek_child_body_cost_sim; auto|].
  split; auto. split; simpl; auto. apply Hp.
Qed.

Lemma seek_child_cost_sim n p' p c' c i : rp p' p -> rk c' c ->
  ceq (seek_child n p' c' i) (seek_child_cost n p' c' i) (seek_child_cost n p c i).
Proof.
  intros Hp Hc. unfold seek_child, seek_child_cost.
  pose proof (rp_next Hp) as Hn. inversion Hn as [E1 E2|b' b bs' bs Hb Hbs E1 E2]; [apply ceq_eq|].
  assert (Hp2 : rp (set_next p' bs') (set_next p bs)) by (apply set_next_sim; auto).
  eapply ceq_bind; [apply (expand_first_sim HR); eauto|apply expand_first_cost_sim; auto|].
  intros [q' e'] [q e] [Hq He]. simpl in Hq, He. destruct Hc as [_ HI].
  apply ceq_loop with (Q := rp) (QT := rpc T shut);
    [intros; apply (seek_child_outer_sim HR); auto|intros; apply seek_child_outer_cost_sim; auto|apply push_next_sim; auto].
Qed.

Lemma seek_path_cost_sim n path : forall p' p c' c, rp p' p -> rk c' c ->
  ceq (seek_path n p' c' path) (seek_path_cost n p' c' path) (seek_path_cost n p c path).
Proof.
  induction path as [|i path IH]; intros p' p c' c Hp Hc; cbn [seek_path seek_path_cost]; [apply ceq_eq|]. apply ceq_add.
  eapply ceq_bind; [apply (seek_child_sim HR); eauto|apply seek_child_cost_sim; auto|].
  intros [q' e'] [q e] [Hq He]. apply IH; auto.
Qed.

Lemma seek_cost_sim n p' p d' d path ft st' st : rp p' p -> lk_doc T d' d -> root_style_like T st' st ->
  ceq (seek n p' d' path ft st') (seek_cost n p' d' path ft st') (seek_cost n p d path ft st).
Proof.
  intros Hp Hd Hst. unfold seek, seek_cost.
  eapply ceq_after; [apply (style_sim HR); eauto|]. intros e' e He.
  eapply ceq_after; [apply (chunk_sim HR); eauto|]. intros c' c Hc.
  eapply ceq_bind; [apply (seek_path_sim HR); eauto|apply seek_path_cost_sim; auto|]. clear - HR.
  intros [p' c'] [p c] [Hp Hc]. simpl in Hp, Hc.
  destruct ft; [apply seek_start_cost_sim|apply seek_end_cost_sim|apply seek_mark_cost_sim|apply seek_text_cost_sim]; auto.
Qed.

Lemma pretty_print_cost_sim n d' d w path ft st' st : lk_doc T d' d -> root_style_like T st' st ->
  ceq (pretty_print n d' w path ft st') (pretty_print_cost n d' w path ft st') (pretty_print_cost n d w path ft st).
Proof.
  intros Hd Hst. unfold pretty_print, pretty_print_cost.
  eapply ceq_after; [apply printer_new_sim|]. intros p0' p0 Hp0.
  eapply ceq_bind; [apply (seek_sim HR); eauto|apply seek_cost_sim; auto|]. intros p' p Hp.
  pose proof (print_next_line_cost_sim n Hp) as H. destruct (pr_next p') eqn:E.
  - right. unfold print_next_line_cost. pose proof (rp_next Hp) as Hn. rewrite E in Hn. inversion Hn. rewrite E. reflexivity.
  - apply ceq_bind_l. exact H.
Qed.

Lemma take_up_cost_sim n k : forall p' p, rp p' p ->
  ceq (take_lines (up_next n) k p') (take_lines_cost (up_next n) (print_prev_line_cost n) k p')
    (take_lines_cost (up_next n) (print_prev_line_cost n) k p).
Proof.
  induction k as [|k IH]; intros p' p Hp; cbn [take_lines take_lines_cost]; [apply ceq_eq|].
  eapply ceq_bind; [apply (print_prev_line_sim HR); eauto|apply print_prev_line_cost_sim; auto|].
  intros [q' ol'] [q ol] [Hq E]. simpl in Hq, E. destruct ol', ol; try contradiction; [|apply ceq_eq].
  apply ceq_bind_l. apply IH; auto.
Qed.

Lemma take_down_cost_sim n k : forall p' p, rp p' p ->
  ceq (take_lines (down_next n) k p') (take_lines_cost (down_next n) (print_next_line_cost n) k p')
    (take_lines_cost (down_next n) (print_next_line_cost n) k p).
Proof.
  induction k as [|k IH]; intros p' p Hp; cbn [take_lines take_lines_cost]; [apply ceq_eq|].
  eapply ceq_bind; [apply (print_next_line_sim HR); eauto|apply print_next_line_cost_sim; auto|].
  intros [q' ol'] [q ol] [Hq E]. simpl in Hq, E. destruct ol', ol; try contradiction; [|apply ceq_eq].
  apply ceq_bind_l. apply IH; auto.
Qed.

Lemma window_cost_sim n d' d w path ft st' st ku kd : lk_doc T d' d -> root_style_like T st' st ->
  ceq (window n d' w path ft st' ku kd) (window_cost n d' w path ft st' ku kd) (window_cost n d w path ft st ku kd).
Proof.
  intros Hd Hst. unfold window, window_cost.
  eapply ceq_bind; [apply (pretty_print_sim HR); eauto|apply pretty_print_cost_sim; auto|].
  intros [[up' fl'] down'] [[up fl] down] (H1 & H2 & H3). simpl in H1, H2, H3.
  eapply ceq_bind; [apply (take_up_sim HR); eauto|apply take_up_cost_sim; auto|].
  intros ups' ups Hu. apply ceq_bind_l. apply take_down_cost_sim; auto.
Qed.

Lemma to_string_cost_sim n d' d w : lk_doc T d' d ->
  ceq (pretty_print_to_string n d' w) (to_string_cost n d' w) (to_string_cost n d w).
Proof.
  intros Hd. unfold pretty_print_to_string, to_string_cost.
  eapply ceq_bind; [apply (pretty_print_sim HR); [eauto|intros s1 s2 Hs12; exact Hs12]|apply pretty_print_cost_sim; [auto|intros s1 s2 Hs12; exact Hs12]|].
  intros [[up' fl'] down'] [[up fl] down] (H1 & [H2 H2'] & H3). simpl in H1, H2, H2', H3.
  apply ceq_loop with (Q := fun (s' : @printer pd1 * str) (s : @printer pd2 * str) => rp (fst s') (fst s) /\ snd s' = snd s) (QT := eq).
  - intros; apply (to_string_body_sim HR); auto.
  - clear - HR. intros [p' x'] [p x] [Hp E]. simpl in Hp, E. apply ceq_add. unfold to_string_body. apply ceq_bind_l.
    apply print_next_line_cost_sim; auto.
  - split; auto. simpl. unfold focused_to_string. apply (text_like (T := T)). apply Forall2_app; auto.
Qed.

End SimCost.
