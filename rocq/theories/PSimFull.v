(** Full prints of documents that behave alike (for C59). *)
From Verif Require Export PSim SpecPrint.
From Verif Require Import PMono.

Set Implicit Arguments.

Section PSimFull.
Context {pd1 pd2 : PrettyDoc} {env : Env}.
Variable T : likeness pd1 pd2.
Variable shut : @D pd1 -> Prop.
Hypothesis HR : lockstep T shut.
Notation rr := (PSim.rr T).
Notation rp := (PSim.rp T shut).

(** If the first gives a result with enough fuel, so does the second. *)
Lemma rr_ev {A B} (Q : A -> B -> Prop) (f' : nat -> @pres pd1 A) (f : nat -> @pres pd2 B) a' :
  (forall n, rr Q (f' n) (f n)) -> (forall n m, n <= m -> fle (f n) (f m)) -> ev f' (Ok a') ->
  exists a, ev f (Ok a) /\ Q a' a.
Proof.
  intros Hs Hm (N & HN). pose proof (Hs N) as H. rewrite (HN N (le_n _)) in H. simpl in H. destruct H as (a & E & Ha).
  exists a. split; [|exact Ha]. exists N. intros n Hn. destruct (Hm N n Hn) as [E'|E']; congruence.
Qed.

Lemma collect_sim (up : bool) n p' p : rp p' p ->
  rr (Forall2 (line_like T)) (collect n (if up then up_next n else down_next n) p') (collect n (if up then up_next n else down_next n) p).
Proof.
  intros Hp. unfold collect.
  apply (@loop_steps pd1 pd2 T _ _ _ _ (fun (s' : @printer pd1 * list (@line pd1)) (s : @printer pd2 * list (@line pd2)) =>
    rp (fst s') (fst s) /\ Forall2 (line_like T) (snd s') (snd s)) (Forall2 (line_like T))); [|split; [exact Hp|constructor]].
  clear p' p Hp. intros [p' a'] [p a] [Hp Ha]. simpl in Hp, Ha. unfold collect_body.
  apply (@rr_bind pd1 pd2 T _ _ _ _ (PSim.rpl T shut)).
  - destruct up; [apply (print_prev_line_sim HR); exact Hp|apply (print_next_line_sim HR); exact Hp].
  - intros [q' ol'] [q ol] [Hq E]. simpl in Hq, E. destruct ol' as [l'|], ol as [l|]; try contradiction; apply rr_ok; simpl; auto.
    split; auto. apply Forall2_app; auto.
Qed.

Lemma collect_mono (up : bool) (p : @printer pd2) n m : n <= m ->
  fle (collect n (if up then up_next n else down_next n) p) (collect m (if up then up_next m else down_next m) p).
Proof.
  intros H. unfold collect. apply fle_loop; [exact H|]. intros [q a]. unfold collect_body. apply fle_bind.
  - destruct up; [apply (print_prev_line_mono H)|apply (print_next_line_mono H)].
  - intros [q' ol]. apply fle_refl.
Qed.

Lemma printed_sim d' d w path ft st' st ups' fl' downs' : lk_doc T d' d -> root_style_like T st' st ->
  printed d' w path ft st' ups' fl' downs' ->
  exists ups fl downs, printed d w path ft st ups fl downs /\
    Forall2 (line_like T) ups' ups /\ focused_like T fl' fl /\ Forall2 (line_like T) downs' downs.
Proof.
  intros Hd Hst (up' & down' & H1 & H2 & H3).
  destruct (@rr_ev _ _ _ _ (fun n => pretty_print n d w path ft st) _ (fun n => pretty_print_sim HR n d' d w path ft Hd Hst)
    (fun n m H => pretty_print_mono H d w path ft st) H1) as ([[up fl] down] & E & R1 & R2 & R3).
  simpl in R1, R2, R3.
  destruct (@rr_ev _ _ _ _ (fun n => collect n (up_next n) up) _ (fun n => collect_sim true n R1)
    (fun n m H => collect_mono true up H) H2) as (ups & E2 & Hu).
  destruct (@rr_ev _ _ _ _ (fun n => collect n (down_next n) down) _ (fun n => collect_sim false n R3)
    (fun n m H => collect_mono false down H) H3) as (downs & E3 & Hw).
  exists ups, fl, downs. split; [exists up, down; auto|]. auto.
Qed.
End PSimFull.
