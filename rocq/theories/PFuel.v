(** Results "for all sufficiently large fuel", which include termination. *)
From Verif Require Export Base.

Set Implicit Arguments.

(** [ev f r]: with any sufficiently large fuel, [f] returns [r]. *)
Definition ev {A : Type} (f : nat -> A) (r : A) : Prop :=
  exists N, forall n, N <= n -> f n = r.

Lemma ev_const {A} (r : A) : ev (fun _ => r) r.
Proof. exists 0. reflexivity. Qed.

Lemma ev_ext {A} (f g : nat -> A) r : (forall n, f n = g n) -> ev f r -> ev g r.
Proof. intros E [N H]. exists N. intros n Hn. rewrite <- E. auto. Qed.

Lemma ev_fun {A} (f g : nat -> A) r : ev f r -> ev g r -> ev (fun n => f n) r.
Proof. auto. Qed.

Lemma ev_det {A} (f : nat -> A) r1 r2 : ev f r1 -> ev f r2 -> r1 = r2.
Proof.
  intros [N1 H1] [N2 H2].
  rewrite <- (H1 (N1 + N2)) by lia. rewrite <- (H2 (N1 + N2)) by lia. reflexivity.
Qed.

Lemma ev_bind_ok {X A B} (f : nat -> res X A) (g : nat -> A -> res X B) a r :
  ev f (Ok a) -> ev (fun n => g n a) r -> ev (fun n => bind (f n) (g n)) r.
Proof.
  intros [N1 H1] [N2 H2]. exists (N1 + N2). intros n Hn.
  rewrite H1 by lia. simpl. apply H2. lia.
Qed.

Lemma ev_bind_fail {X A B} (f : nat -> res X A) (g : nat -> A -> res X B) e :
  ev f (Fail e) -> ev (fun n => bind (f n) (g n)) (Fail e).
Proof.
  intros [N1 H1]. exists N1. intros n Hn. rewrite H1 by lia. reflexivity.
Qed.

Lemma ev_bind_const {X A B} (x : res X A) (g : nat -> A -> res X B) a r :
  x = Ok a -> ev (fun n => g n a) r -> ev (fun n => bind x (g n)) r.
Proof. intros -> H. exact H. Qed.

(** A loop whose body may itself use fuel. *)
Definition loops {X S R} (body : nat -> S -> res X (step S R)) (s : S) (r : res X R) : Prop :=
  exists N, forall n m, N <= n -> N <= m -> loop m (body n) s = r.

Lemma loops_ev {X S R} (body : nat -> S -> res X (step S R)) s r :
  loops body s r -> ev (fun n => loop n (body n) s) r.
Proof. intros [N H]. exists N. intros. apply H; lia. Qed.

Lemma loops_done {X S R} (body : nat -> S -> res X (step S R)) s r :
  ev (fun n => body n s) (Ok (Done r)) -> loops body s (Ok r).
Proof.
  intros [N H]. exists (Datatypes.S N). intros n m Hn Hm.
  destruct m as [|m]; [lia|]. simpl. rewrite H by lia. reflexivity.
Qed.

Lemma loops_fail {X S R} (body : nat -> S -> res X (step S R)) s f :
  ev (fun n => body n s) (Fail f) -> loops body s (Fail f).
Proof.
  intros [N H]. exists (Datatypes.S N). intros n m Hn Hm.
  destruct m as [|m]; [lia|]. simpl. rewrite H by lia. reflexivity.
Qed.

Lemma loops_next {X S R} (body : nat -> S -> res X (step S R)) s s' r :
  ev (fun n => body n s) (Ok (Next s')) -> loops body s' r -> loops body s r.
Proof.
  intros [N1 H1] [N2 H2]. exists (Datatypes.S (N1 + N2)). intros n m Hn Hm.
  destruct m as [|m]; [lia|]. simpl. rewrite H1 by lia. apply H2; lia.
Qed.

(** A loop whose body does not use fuel. *)
Lemma loops_ev_const {X S R} (body : S -> res X (step S R)) s r :
  loops (fun _ => body) s r -> ev (fun n => loop n body s) r.
Proof. intros H. apply (loops_ev H). Qed.

(** Closes [ev f r] when [f] does not depend on the fuel. *)
Ltac ev_now := exists 0; intros; reflexivity.
