(** More fuel never changes a result: it can only turn "out of fuel" into one. *)
From Verif Require Export SpecMask PFuel.

Set Implicit Arguments.

Section PMono.
Context {pd : PrettyDoc} {env : Env}.

Definition fle {X A} (x y : res X A) : Prop := x = OutOfFuel \/ x = y.

Lemma fle_refl {X A} (x : res X A) : fle x x.
Proof. right. reflexivity. Qed.

Lemma fle_bind {X A B} (x y : res X A) (f g : A -> res X B) : fle x y -> (forall a, fle (f a) (g a)) ->
  fle (bind x f) (bind y g).
Proof.
  intros [->| ->] H; [left; reflexivity|]. destruct y as [a|e]; simpl; [apply H|right; reflexivity].
Qed.

Lemma fle_loop {X S R} n : forall m (f g : S -> res X (step S R)), n <= m -> (forall s, fle (f s) (g s)) ->
  forall s, fle (loop n f s) (loop m g s).
Proof.
  induction n as [|n IH]; intros m f g Hm H s; [left; reflexivity|].
  destruct m as [|m]; [lia|]. simpl. destruct (H s) as [->| ->]; [left; reflexivity|].
  destruct (g s) as [[s'|r]|e]; try (right; reflexivity). apply IH; auto. lia.
Qed.

Variables n m : nat.
Hypothesis Hnm : n <= m.

Ltac mono := repeat match goal with
  | |- fle ?x ?x => apply fle_refl
  | |- fle (bind _ _) (bind _ _) => apply fle_bind; [|intros]
  | |- fle (loop _ _ _) (loop _ _ _) => apply fle_loop; [assumption|intros]
  | |- context[let '(_, _) := ?x in _] => destruct x
  | |- fle (match ?x with _ => _ end) _ => destruct x
  | |- fle (if ?x then _ else _) _ => destruct x
  | H : _ |- _ => apply H
  end.

Lemma fits_mono w e c cs : fle (fits n w e c cs) (fits m w e c cs).
Proof. unfold fits. mono. Qed.
Lemma choose_mono p b x y : fle (choose n p b x y) (choose m p b x y).
Proof. pose proof fits_mono. unfold choose. mono. Qed.
Lemma expand_first_mono p b c : fle (expand_first n p b c) (expand_first m p b c).
Proof. unfold expand_first. mono. Qed.
Lemma expand_last_mono p b c : fle (expand_last n p b c) (expand_last m p b c).
Proof. unfold expand_last. mono. Qed.
Lemma print_next_mono s : fle (print_next_body n s) (print_next_body m s).
Proof. pose proof choose_mono. pose proof expand_first_mono. unfold print_next_body. mono. Qed.
Lemma print_next_line_mono p : fle (print_next_line n p) (print_next_line m p).
Proof. pose proof print_next_mono. unfold print_next_line. mono. Qed.
Lemma print_prev_mono s : fle (print_prev_body n s) (print_prev_body m s).
Proof. pose proof choose_mono. pose proof expand_last_mono. unfold print_prev_body. mono. Qed.
Lemma print_prev_line_mono p : fle (print_prev_line n p) (print_prev_line m p).
Proof. pose proof print_prev_mono. unfold print_prev_line. mono. Qed.
Lemma seek_end_body_mono k s : fle (seek_end_body n k s) (seek_end_body m k s).
Proof. pose proof choose_mono. pose proof expand_last_mono. unfold seek_end_body. mono. Qed.
Lemma seek_end_mono p c : fle (seek_end n p c) (seek_end m p c).
Proof. pose proof seek_end_body_mono. pose proof expand_last_mono. unfold seek_end. mono. Qed.
Lemma seek_start_mono p c : fle (seek_start n p c) (seek_start m p c).
Proof. pose proof expand_first_mono. unfold seek_start. mono. Qed.
Lemma seek_mark_body_mono i s : fle (seek_mark_body n i s) (seek_mark_body m i s).
Proof. pose proof choose_mono. pose proof expand_first_mono. unfold seek_mark_body. mono. Qed.
Lemma seek_mark_outer_mono i p : fle (seek_mark_outer n i p) (seek_mark_outer m i p).
Proof. pose proof seek_mark_body_mono. unfold seek_mark_outer. mono. Qed.
Lemma seek_mark_mono p c : fle (seek_mark n p c) (seek_mark m p c).
Proof. pose proof seek_mark_outer_mono. pose proof expand_first_mono. unfold seek_mark. mono. Qed.
Lemma seek_text_body_mono k s : fle (seek_text_body n k s) (seek_text_body m k s).
Proof. pose proof choose_mono. pose proof expand_first_mono. unfold seek_text_body. mono. Qed.
Lemma seek_text_outer_mono k p : fle (seek_text_outer n k p) (seek_text_outer m k p).
Proof. pose proof seek_text_body_mono. unfold seek_text_outer. mono. Qed.
Lemma seek_text_mono p c k : fle (seek_text n p c k) (seek_text m p c k).
Proof. pose proof seek_text_outer_mono. pose proof expand_first_mono. unfold seek_text. mono. Qed.
Lemma seek_child_body_mono i k s : fle (seek_child_body n i k s) (seek_child_body m i k s).
Proof. pose proof choose_mono. pose proof expand_first_mono. unfold seek_child_body. mono. Qed.
Lemma seek_child_outer_mono i k p : fle (seek_child_outer n i k p) (seek_child_outer m i k p).
Proof. pose proof seek_child_body_mono. unfold seek_child_outer. mono. Qed.
Lemma seek_child_mono p c k : fle (seek_child n p c k) (seek_child m p c k).
Proof. pose proof seek_child_outer_mono. pose proof expand_first_mono. unfold seek_child. mono. Qed.
Lemma seek_path_mono path : forall p c, fle (seek_path n p c path) (seek_path m p c path).
Proof.
  induction path as [|k path IH]; intros p c; cbn [seek_path]; [apply fle_refl|].
  apply fle_bind; [apply seek_child_mono|]. intros [p' c']. apply IH.
Qed.
Lemma seek_mono p d path ft st : fle (seek n p d path ft st) (seek m p d path ft st).
Proof.
  pose proof seek_path_mono. pose proof seek_start_mono. pose proof seek_end_mono. pose proof seek_text_mono.
  pose proof seek_mark_mono. unfold seek. mono.
Qed.
Lemma pretty_print_mono d w path ft st : fle (pretty_print n d w path ft st) (pretty_print m d w path ft st).
Proof. pose proof seek_mono. pose proof print_next_line_mono. unfold pretty_print. mono. Qed.
Lemma take_lines_mono f g k : (forall p, fle (f p) (g p)) -> forall p, fle (take_lines f k p) (take_lines g k p).
Proof.
  intros H. induction k as [|k IH]; intros p; cbn [take_lines]; [apply fle_refl|].
  apply fle_bind; [apply H|]. intros [p' [l|]]; [|apply fle_refl]. apply fle_bind; [apply IH|]. intros. apply fle_refl.
Qed.
Lemma window_mono d w path ft st ku kd : fle (window n d w path ft st ku kd) (window m d w path ft st ku kd).
Proof.
  unfold window. apply fle_bind; [apply pretty_print_mono|]. intros [[up fl] down].
  apply fle_bind; [apply take_lines_mono; intros; apply print_prev_line_mono|]. intros ups.
  apply fle_bind; [apply take_lines_mono; intros; apply print_next_line_mono|]. intros downs. apply fle_refl.
Qed.
Lemma to_string_mono d w : fle (pretty_print_to_string n d w) (pretty_print_to_string m d w).
Proof.
  unfold pretty_print_to_string. apply fle_bind; [apply pretty_print_mono|]. intros [[up fl] down].
  apply fle_loop; auto. intros [p s]. unfold to_string_body, down_next.
  apply fle_bind; [apply print_next_line_mono|]. intros [p' ol]. apply fle_refl.
Qed.
End PMono.

(** A result that is reached with enough fuel is the only result. *)
Lemma window_result {pd : PrettyDoc} {env : Env} d w path ft st ku kd (r : pres _) :
  ev (fun n => window n d w path ft st ku kd) r ->
  forall n, window n d w path ft st ku kd = OutOfFuel \/ window n d w path ft st ku kd = r.
Proof.
  intros (N & H) n. destruct (window_mono (n := n) (m := Nat.max n N) ltac:(lia) d w path ft st ku kd) as [E|E]; [left; exact E|].
  right. rewrite E. apply H. lia.
Qed.
