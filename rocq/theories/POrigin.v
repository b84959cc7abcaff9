(** Whatever is in the printer comes from evaluated notations. *)
From Verif Require Export SpecOrigin SpecIter.

Set Implicit Arguments.

Section Kept.
Context {pd : PrettyDoc} {env : Env}.
Variable okd : delayed -> Prop.
Variable okg : segment -> Prop.

Definition seg_of (t : textual) : segment := Segment (tx_str t) (tx_width t) (tx_style t).

Section Texts.
Variable okt : textual -> Prop.
Definition ok_c (c : cnote) : Prop :=
  match c with
  | CConcat a b | CChoice a b => okd a /\ okd b
  | CChild _ d => okd d
  | CTextual t => okt t
  | CNewline ind => Forall okg ind
  | _ => True
  end.
Definition ok_k (k : chunk) : Prop := ok_c (ck_note k).
Definition ok_b (b : block) : Prop := Forall ok_k (bl_chunks b) /\ Forall okg (bl_segments b).
Definition ok_p (p : printer) : Prop := Forall ok_b (pr_prev p) /\ Forall ok_b (pr_next p).
Definition ok_s (s : printer * block) : Prop := ok_p (fst s) /\ ok_b (snd s).
Definition ok_pc (s : printer * chunk) : Prop := ok_p (fst s) /\ ok_k (snd s).
Definition ok_l (x : printer * option line) : Prop := ok_p (fst x) /\ forall l, snd x = Some l -> Forall okg l.
End Texts.

Definition good {X A} (r : res X A) (J : A -> Prop) : Prop := forall a, r = Ok a -> J a.

Lemma good_loop {X S R} (body : S -> res X (step S R)) (I : S -> Prop) (J : R -> Prop) :
  (forall s, I s -> good (body s) (fun x => match x with Next s' => I s' | Done r => J r end)) ->
  forall n s, I s -> good (loop n body s) J.
Proof.
  intros Hb. induction n as [|n IH]; intros s Hs r Hr; [discriminate|]. cbn [loop] in Hr.
  pose proof (Hb _ Hs) as H. destruct (body s) as [[s'|r']|f]; [|injection Hr as <-; exact (H _ eq_refl)|discriminate].
  exact (IH _ (H _ eq_refl) _ Hr).
Qed.
Lemma good_bind {X A B} (x : res X A) (f : A -> res X B) (J : A -> Prop) (J2 : B -> Prop) :
  good x J -> (forall a, J a -> good (f a) J2) -> good (bind x f) J2.
Proof. intros H Hf b. destruct x as [a|]; cbn [bind]; [|discriminate]. exact (Hf a (H a eq_refl) b). Qed.
Lemma good_ok {X A} (a : A) (J : A -> Prop) : J a -> good (Ok a : res X A) J.
Proof. intros H ? [= <-]. exact H. Qed.
Lemma good_fail {X A} f (J : A -> Prop) : good (Fail f : res X A) J.
Proof. intros ?; discriminate. Qed.
Lemma good_imp {X A} (r : res X A) (J J2 : A -> Prop) : good r J -> (forall a, J a -> J2 a) -> good r J2.
Proof. intros H Hj a Ha. auto. Qed.

(** [okt0]: texts as they are evaluated. *)
Variable okt0 : textual -> Prop.
Hypothesis Heval : forall d c, okd d -> eval d = Ok c -> ok_c okt0 c.

Section Run.
Variable okt : textual -> Prop.
Hypothesis H0 : forall t, okt0 t -> okt t.
Hypothesis Hseg : forall t, okt t -> okg (seg_of t).

Notation okc := (ok_c okt). Notation okk := (ok_k okt). Notation okb := (ok_b okt).
Notation okp := (ok_p okt). Notation oks := (ok_s okt). Notation okpc := (ok_pc okt). Notation okl := (ok_l okt).

Lemma eval_good d : okd d -> good (eval d) okc.
Proof. intros H c Hc. pose proof (Heval H Hc) as Q. destruct c; simpl in *; auto. Qed.
Lemma new_good d : okd d -> good (chunk_new d) okk.
Proof.
  intros H. unfold chunk_new. destruct (lift _); cbn [bind]; [|apply good_fail]. eapply good_bind; [exact (eval_good H)|].
  intros c Hc. apply good_ok. exact Hc.
Qed.
Lemma push_next_good p b : okp p -> okb b -> okp (push_next p b).
Proof. intros [H1 H2] Hb. split; simpl; auto. Qed.
Lemma push_prev_good p b : okp p -> okb b -> okp (push_prev p b).
Proof. intros [H1 H2] Hb. split; simpl; auto. Qed.
Lemma next_good p b bs : okp p -> pr_next p = b :: bs -> oks (set_next p bs, b).
Proof. intros [H1 H2] Hn. rewrite Hn in H2. inversion H2; subst. split; [split|]; auto. Qed.
Lemma prev_good p b bs : okp p -> pr_prev p = b :: bs -> oks (set_prev p bs, b).
Proof. intros [H1 H2] Hn. rewrite Hn in H1. inversion H1; subst. split; [split|]; auto. Qed.
Lemma block_good ind cs : Forall okg ind -> Forall okk cs -> good (block_new ind cs) okb.
Proof.
  intros Hi Hc. unfold block_new. destruct (sum16 _ _); cbn [bind]; [|apply good_fail]. apply good_ok. split; [exact Hc|].
  cbn [bl_segments]. apply Forall_rev. exact Hi.
Qed.
Lemma push_text_good b t : okb b -> okt t -> good (push_text b t) okb.
Proof.
  intros [H1 H2] Ht. unfold push_text. destruct (bl_at_eol b); [apply good_fail|]. destruct (add16 _ _ _); cbn [bind]; [|apply good_fail].
  apply good_ok. split; [exact H1|]. cbn [bl_segments]. apply Forall_app. split; [exact H2|]. constructor; auto. apply (Hseg Ht).
Qed.
Lemma set_chunks_good b cs : okb b -> Forall okk cs -> okb (set_chunks b cs).
Proof. intros [H1 H2] H. split; auto. Qed.
Lemma set_eol_good b : okb b -> okb (set_eol b).
Proof. intros [H1 H2]. split; auto. Qed.

Lemma choose_good n p b d1 d2 : okd d1 -> okd d2 -> good (choose n p b d1 d2) okk.
Proof.
  intros H1 H2. unfold choose. eapply good_bind; [exact (new_good H1)|]. intros c Hc.
  destruct (if _ : bool then _ else _) as [[|]|]; cbn [bind]; [apply good_ok; exact Hc|exact (new_good H2)|apply good_fail].
Qed.

Lemma first_body_good s : Forall okk (fst (fst s)) /\ okp (snd (fst s)) /\ okb (snd s) ->
  good (expand_first_body s) (fun x => match x with Next s' => Forall okk (fst (fst s')) /\ okp (snd (fst s')) /\ okb (snd s') | Done r => oks r end).
Proof.
  destruct s as [[stack p] b]. cbn [fst snd]. intros (Hs & Hp & Hb). unfold expand_first_body.
  destruct stack as [|c stack]; [apply good_ok; split; assumption|]. inversion Hs as [|? ? Hc Hst]; subst.
  assert (Hk : Forall okk (c :: bl_chunks b)) by (constructor; [exact Hc|apply Hb]).
  unfold ok_k in Hc. destruct (ck_note c) as [| |ind|t|d1 d2|d1 d2|i d|] eqn:En; cbn [ok_c] in Hc;
    try (apply good_ok; cbn [fst snd]; split; [exact Hst|split; [exact Hp|first [exact Hb|apply set_chunks_good; assumption]]]; fail).
  - eapply good_bind; [apply block_good; [exact Hc|apply Hb]|]. intros nb Hnb. apply good_ok. cbn [fst snd].
    split; [exact Hst|]. split; [apply push_next_good; assumption|apply set_chunks_good; [exact Hb|constructor]].
  - destruct Hc as [H1 H2]. eapply good_bind; [exact (new_good H1)|]. intros c1 Hc1. eapply good_bind; [exact (new_good H2)|]. intros c2 Hc2.
    apply good_ok. cbn [fst snd]. split; [|split; assumption]. constructor; [exact Hc2|]. constructor; assumption.
Qed.
Lemma first_good n p b c : okp p -> okb b -> okk c -> good (expand_first n p b c) oks.
Proof.
  intros Hp Hb Hc. unfold expand_first. eapply good_loop; [exact first_body_good|]. cbn [fst snd]. split; [constructor; auto|]. split; assumption.
Qed.

Lemma last_body_good s : Forall okk (fst (fst (fst s))) /\ Forall okk (snd (fst (fst s))) /\ okp (snd (fst s)) /\ okb (snd s) ->
  good (expand_last_body s) (fun x => match x with
    | Next s' => Forall okk (fst (fst (fst s'))) /\ Forall okk (snd (fst (fst s'))) /\ okp (snd (fst s')) /\ okb (snd s')
    | Done r => Forall okk (fst (fst r)) /\ okp (snd (fst r)) /\ okb (snd r) end).
Proof.
  destruct s as [[[chunks stack] p] b]. cbn [fst snd]. intros (Hu & Hs & Hp & Hb). unfold expand_last_body.
  destruct stack as [|c stack]; [apply good_ok; cbn [fst snd]; auto|]. inversion Hs as [|? ? Hc Hst]; subst.
  assert (Hk : Forall okk (c :: chunks)) by (constructor; assumption).
  unfold ok_k in Hc. destruct (ck_note c) as [| |ind|t|d1 d2|d1 d2|i d|] eqn:En; cbn [ok_c] in Hc;
    try (apply good_ok; cbn [fst snd]; split; [first [exact Hu|exact Hk]|split; [exact Hst|split; assumption]]; fail).
  - cbv zeta. eapply good_bind; [apply block_good; [exact Hc|apply Hb]|]. intros nb Hnb. apply good_ok. cbn [fst snd].
    split; [constructor|]. split; [exact Hst|]. split; [|exact Hnb]. apply push_prev_good; [exact Hp|]. split; cbn [bl_chunks bl_segments]; [apply Forall_rev; exact Hu|apply Hb].
  - destruct Hc as [H1 H2]. eapply good_bind; [exact (new_good H2)|]. intros c2 Hc2. eapply good_bind; [exact (new_good H1)|]. intros c1 Hc1.
    apply good_ok. cbn [fst snd]. split; [exact Hu|]. split; [|split; assumption]. constructor; [exact Hc1|]. constructor; assumption.
Qed.
Lemma last_good n p b c : okp p -> okb b -> okk c -> good (expand_last n p b c) oks.
Proof.
  intros Hp Hb Hc. unfold expand_last. eapply good_bind; [eapply good_loop; [exact last_body_good|]|].
  - cbn [fst snd]. split; [constructor|]. split; [constructor; auto|]. split; assumption.
  - intros [[ch p'] b'] (Q1 & Q2 & Q3). cbn [fst snd] in *. apply good_ok. split; [exact Q2|]. cbn [snd].
    apply set_chunks_good; [exact Q3|]. apply Forall_app. split; [apply Forall_rev; exact Q1|apply Q3].
Qed.

(** One chunk taken off a block: the part that all loops share. *)
Lemma chunk_good p b0 c cs : oks (p, b0) -> bl_chunks b0 = c :: cs -> okk c /\ okp p /\ okb (set_chunks b0 cs) /\ oks (p, set_chunks b0 cs) /\ oks (p, set_eol (set_chunks b0 cs)).
Proof.
  intros [Hp Hb] E. cbn [fst snd] in *. destruct Hb as [Hb1 Hb2]. rewrite E in Hb1. inversion Hb1; subst.
  assert (okb (set_chunks b0 cs)) by (split; assumption).
  split; [assumption|]. split; [exact Hp|]. split; [assumption|]. split; split; try assumption.
Qed.

Ltac chunk_start p b0 Hs :=
  let c := fresh "c" in let cs := fresh "cs" in let Eb := fresh "Eb" in let En := fresh "En" in
  destruct (bl_chunks b0) as [|c cs] eqn:Eb; [|
  destruct (chunk_good Hs Eb) as (Hc & Hp & Hb & F1 & F2); cbv zeta; unfold ok_k in Hc;
  destruct (ck_note c) as [| |ind|t|d1 d2|d1 d2|i d|] eqn:En; cbn [ok_c] in Hc; try (apply good_fail)].
Ltac text_step Hb Hc Hp := eapply good_bind; [apply push_text_good; [exact Hb|exact Hc]|]; intros ? ?; apply good_ok; split; [exact Hp|assumption].
Ltac choice_step Hc Hp Hb ex := eapply good_bind; [exact (choose_good _ _ _ (proj1 Hc) (proj2 Hc))|]; intros ? ?; eapply good_bind; [apply ex; [exact Hp|exact Hb|assumption]|]; intros ? ?; apply good_ok; assumption.
Ltac child_step Hc Hp Hb ex := eapply good_bind; [exact (new_good Hc)|]; intros ? ?; eapply good_bind; [apply ex; [exact Hp|exact Hb|assumption]|]; intros ? ?; apply good_ok; assumption.

Lemma next_body_good n s : oks s -> good (print_next_body n s) (fun x => match x with Next s' => oks s' | Done r => oks r end).
Proof.
  destruct s as [p b0]. intros Hs. unfold print_next_body. chunk_start p b0 Hs.
  - apply good_ok. exact Hs.
  - apply good_ok. exact F2.
  - text_step Hb Hc Hp.
  - choice_step Hc Hp Hb first_good.
  - child_step Hc Hp Hb first_good.
  - apply good_ok. exact F1.
Qed.
Lemma prev_body_good n s : oks s -> good (print_prev_body n s) (fun x => match x with Next s' => oks s' | Done r => oks r end).
Proof.
  destruct s as [p b0]. intros Hs. unfold print_prev_body. chunk_start p b0 Hs.
  - apply good_ok. exact Hs.
  - apply good_ok. exact F2.
  - text_step Hb Hc Hp.
  - choice_step Hc Hp Hb last_good.
  - child_step Hc Hp Hb last_good.
  - apply good_ok. exact F1.
Qed.
Lemma end_body_good n k s : oks s -> good (seek_end_body n k s) (fun x => match x with Next s' => oks s' | Done r => oks r end).
Proof.
  destruct s as [p b0]. intros Hs. unfold seek_end_body. destruct (Nat.leb _ k); [apply good_ok; exact Hs|]. chunk_start p b0 Hs.
  - apply good_fail.
  - apply good_ok. exact F2.
  - text_step Hb Hc Hp.
  - choice_step Hc Hp Hb last_good.
  - child_step Hc Hp Hb last_good.
  - apply good_ok. exact F1.
Qed.
Definition ok_m (r : printer + printer * block) : Prop := match r with inl p => okp p | inr s => oks s end.
Lemma mark_body_good n id s : oks s -> good (seek_mark_body n id s) (fun x => match x with Next s' => oks s' | Done r => ok_m r end).
Proof.
  destruct s as [p b0]. intros Hs. unfold seek_mark_body. chunk_start p b0 Hs.
  - apply good_ok. exact Hs.
  - apply good_ok. exact F2.
  - text_step Hb Hc Hp.
  - choice_step Hc Hp Hb first_good.
  - child_step Hc Hp Hb first_good.
  - destruct (id_eqb _ _); apply good_ok; [apply push_next_good; assumption|exact F1].
Qed.
Definition ok_e (r : seek_child_end) : Prop :=
  match r with ScFound p d => okp p /\ okd d | ScBreak p | ScExhausted p => okp p end.
Lemma child_body_good n id k s : oks s -> good (seek_child_body n id k s) (fun x => match x with Next s' => oks s' | Done r => ok_e r end).
Proof.
  destruct s as [p b0]. intros Hs. unfold seek_child_body. chunk_start p b0 Hs.
  - apply good_ok. apply Hs.
  - apply good_ok. exact F2.
  - text_step Hb Hc Hp.
  - eapply good_bind; [exact (choose_good _ _ _ (proj1 Hc) (proj2 Hc))|]. intros x Hx.
    eapply good_bind; [apply first_good; [exact Hp|exact Hb|exact Hx]|]. intros [p' b'] [Q1 Q2]. apply good_ok. apply push_next_good; assumption.
  - destruct (_ && _).
    + apply good_ok. split; [apply push_next_good; assumption|exact Hc].
    + eapply good_bind; [exact (new_good Hc)|]. intros x Hx.
      eapply good_bind; [apply first_good; [exact Hp|exact Hb|exact Hx]|]. intros [p' b'] [Q1 Q2]. apply good_ok. apply push_next_good; assumption.
  - apply good_ok. exact F1.
Qed.

Lemma block_print_good b : okb b -> good (block_print b) (Forall okg).
Proof. intros [H1 H2]. unfold block_print. destruct (bl_chunks b); [apply good_ok; exact H2|apply good_fail]. Qed.
Lemma next_line_good n p : okp p -> good (print_next_line n p) okl.
Proof.
  intros Hp. unfold print_next_line. destruct (pr_next p) as [|b bs] eqn:En; [apply good_ok; split; [exact Hp|discriminate]|].
  eapply good_bind; [eapply good_loop; [exact (next_body_good n)|exact (next_good Hp En)]|]. intros [p' b'] [Q1 Q2].
  eapply good_bind; [exact (block_print_good Q2)|]. intros l Hl. apply good_ok. split; [exact Q1|]. intros ? [= <-]. exact Hl.
Qed.
Lemma prev_line_good n p : okp p -> good (print_prev_line n p) okl.
Proof.
  intros Hp. unfold print_prev_line. destruct (pr_prev p) as [|b bs] eqn:En; [apply good_ok; split; [exact Hp|discriminate]|].
  eapply good_bind; [eapply good_loop; [exact (prev_body_good n)|exact (prev_good Hp En)]|]. intros [p' b'] [Q1 Q2].
  eapply good_bind; [exact (block_print_good Q2)|]. intros l Hl. apply good_ok. split; [exact Q1|]. intros ? [= <-]. exact Hl.
Qed.

Lemma start_good n p c : okpc (p, c) -> good (seek_start n p c) okp.
Proof.
  intros [Hp Hc]. unfold seek_start. destruct (pr_next p) as [|b bs] eqn:En; [apply good_fail|]. destruct (next_good Hp En) as [G1 G2].
  eapply good_bind; [apply first_good; [exact G1|exact G2|exact Hc]|]. intros [p' b'] [Q1 Q2]. apply good_ok. apply push_next_good; assumption.
Qed.
Lemma end_good n p c : okpc (p, c) -> good (seek_end n p c) okp.
Proof.
  intros [Hp Hc]. unfold seek_end. destruct (pr_next p) as [|b bs] eqn:En; [apply good_fail|]. destruct (next_good Hp En) as [G1 G2].
  cbv zeta. eapply good_bind; [apply last_good; [exact G1|exact G2|exact Hc]|]. intros s Hs.
  eapply good_bind; [eapply good_loop; [exact (end_body_good n _)|exact Hs]|]. intros [p' b'] [Q1 Q2]. apply good_ok. apply push_next_good; assumption.
Qed.
Lemma mark_good n p c : okpc (p, c) -> good (seek_mark n p c) okp.
Proof.
  intros [Hp Hc]. unfold seek_mark. destruct (pr_next p) as [|b bs] eqn:En; [apply good_fail|]. destruct (next_good Hp En) as [G1 G2].
  eapply good_bind; [apply first_good; [exact G1|exact G2|exact Hc]|]. intros [p' b'] [Q1 Q2]. cbn [fst snd] in *.
  eapply good_loop with (I := okp); [|apply push_next_good; assumption]. intros p1 Hp1. unfold seek_mark_outer.
  destruct (pr_next p1) as [|b1 bs1] eqn:En1; [apply good_fail|].
  eapply good_bind; [eapply good_loop; [exact (mark_body_good n _)|exact (next_good Hp1 En1)]|].
  intros [p2|[p2 b2]] Hr; apply good_ok; [exact Hr|]. destruct Hr. apply push_prev_good; assumption.
Qed.

Lemma walk_good id k next : forall prev, Forall okb prev -> Forall okb next ->
  Forall okb (fst (walk id k prev next)) /\ Forall okb (snd (walk id k prev next)).
Proof.
  induction next as [|b next IH]; intros prev H1 H2; simpl; auto. inversion H2; subst.
  destruct (contains_relevant_chunk id k b); simpl; auto.
Qed.
Lemma child_outer_good n id k p : okp p -> good (seek_child_outer n id k p) (fun x => match x with Next p' => okp p' | Done r => okpc r end).
Proof.
  intros [Hp1 Hp2]. unfold seek_child_outer. destruct (@walk_good id k (pr_next p) (pr_prev p) Hp1 Hp2) as [W1 W2].
  destruct (walk id k (pr_prev p) (pr_next p)) as [prev [|b bs]]; cbn [fst snd] in *; [apply good_fail|]. inversion W2; subst.
  assert (Hs : oks (Printer (pr_width p) prev bs, b)) by (split; [split|]; assumption).
  eapply good_bind; [eapply good_loop; [exact (child_body_good n id k)|exact Hs]|]. intros [p' d|p'|p'] Hr; cbn [ok_e] in Hr; try (apply good_ok; exact Hr).
  destruct Hr as [Q1 Q2]. eapply good_bind; [exact (new_good Q2)|]. intros x Hx. apply good_ok. split; assumption.
Qed.
Lemma child_good n p c k : okpc (p, c) -> good (seek_child n p c k) okpc.
Proof.
  intros [Hp Hc]. unfold seek_child. destruct (pr_next p) as [|b bs] eqn:En; [apply good_fail|]. destruct (next_good Hp En) as [G1 G2].
  eapply good_bind; [apply first_good; [exact G1|exact G2|exact Hc]|]. intros [p' b'] [Q1 Q2].
  eapply good_loop; [exact (child_outer_good n (ck_id c) k)|]. apply push_next_good; assumption.
Qed.
Lemma path_good n path : forall p c, okpc (p, c) -> good (seek_path n p c path) okpc.
Proof.
  induction path as [|i path IH]; intros p c H; cbn [seek_path]; [apply good_ok; exact H|].
  eapply good_bind; [apply child_good; exact H|]. intros [p1 c1] H1. apply IH. exact H1.
Qed.

(** After errors. *)
Definition goodl {L X A} (r : L * res X A) (I : L -> Prop) (J : A -> Prop) : Prop := I (fst r) /\ good (snd r) J.
Lemma goodl_loop {X S R L} (body : S -> L * res X (step S R)) (left : S -> L) (Q : L -> Prop) (I : S -> Prop) (J : R -> Prop) :
  (forall s, I s -> Q (left s)) ->
  (forall s, I s -> goodl (body s) Q (fun x => match x with Next s' => I s' | Done r => J r end)) ->
  forall n s, I s -> goodl (loop_left n body left s) Q J.
Proof.
  intros Hl Hb. induction n as [|n IH]; intros s Hs; [split; [exact (Hl s Hs)|apply good_fail]|]. cbn [loop_left].
  destruct (Hb _ Hs) as [H1 H2]. destruct (body s) as [l [[s'|r]|f]]; cbn [fst snd] in *.
  - apply IH. exact (H2 _ eq_refl).
  - split; [exact H1|]. apply good_ok. exact (H2 _ eq_refl).
  - split; [exact H1|apply good_fail].
Qed.
Lemma first_left_good n p b c : okp p -> okb b -> okk c -> goodl (expand_first_left n p b c) okp oks.
Proof.
  intros Hp Hb Hc. unfold expand_first_left.
  eapply goodl_loop with (I := fun s => Forall okk (fst (fst s)) /\ okp (snd (fst s)) /\ okb (snd s)).
  - intros s Hs. apply Hs.
  - intros s Hs. split; [apply Hs|apply first_body_good; exact Hs].
  - cbn [fst snd]. split; [constructor; auto|]. split; assumption.
Qed.
Lemma last_left_good n p b c : okp p -> okb b -> okk c -> goodl (expand_last_left n p b c) okp oks.
Proof.
  intros Hp Hb Hc. unfold expand_last_left.
  match goal with |- context [loop_left ?a ?b ?c ?d] => assert (H : goodl (loop_left a b c d) okp (fun r => Forall okk (fst (fst r)) /\ okp (snd (fst r)) /\ okb (snd r))) end.
  { eapply goodl_loop with (I := fun s => Forall okk (fst (fst (fst s))) /\ Forall okk (snd (fst (fst s))) /\ okp (snd (fst s)) /\ okb (snd s)).
    - intros s Hs. apply Hs.
    - intros s Hs. split; [apply Hs|apply last_body_good; exact Hs].
    - cbn [fst snd]. split; [constructor|]. split; [constructor; auto|]. split; assumption. }
  destruct (loop_left _ _ _ _) as [q r]. destruct H as [H1 H2]. cbn [fst snd] in *. split; [exact H1|]. cbn [snd].
  eapply good_bind; [exact H2|]. intros [[ch p'] b'] (Q1 & Q2 & Q3). cbn [fst snd] in *. apply good_ok. split; [exact Q2|]. cbn [snd].
  apply set_chunks_good; [exact Q3|]. apply Forall_app. split; [apply Forall_rev; exact Q1|apply Q3].
Qed.
Ltac left_step Hp Hb ex :=
  match goal with |- context [ex ?n ?p ?b ?x] => idtac end.
Lemma next_body_left_good n s : oks s -> goodl (print_next_body_left n s) okp (fun x => match x with Next s' => oks s' | Done r => oks r end).
Proof.
  destruct s as [p b0]. intros Hs. unfold print_next_body_left.
  destruct (bl_chunks b0) as [|c cs] eqn:Eb; [split; [apply Hs|apply good_ok; exact Hs]|].
  destruct (chunk_good Hs Eb) as (Hc & Hp & Hb & F1 & F2). cbv zeta. unfold ok_k in Hc.
  destruct (ck_note c) as [| |ind|t|d1 d2|d1 d2|i d|] eqn:En; cbn [ok_c] in Hc; try (split; [exact Hp|first [apply good_fail|apply good_ok; assumption]]; fail).
  - split; [exact Hp|]. cbn [snd]. text_step Hb Hc Hp.
  - pose proof (@choose_good n p (set_chunks b0 cs) d1 d2 (proj1 Hc) (proj2 Hc)) as Hx.
    destruct (choose _ _ _ _ _) as [x|]; [|split; [exact Hp|apply good_fail]].
    destruct (@first_left_good n p _ x Hp Hb (Hx _ eq_refl)) as [Q1 Q2]. destruct (expand_first_left _ _ _ _) as [q r]. split; [exact Q1|].
    eapply good_bind; [exact Q2|]. intros s Hs'. apply good_ok. exact Hs'.
  - pose proof (@new_good d Hc) as Hx. destruct (chunk_new _) as [x|]; [|split; [exact Hp|apply good_fail]].
    destruct (@first_left_good n p _ x Hp Hb (Hx _ eq_refl)) as [Q1 Q2]. destruct (expand_first_left _ _ _ _) as [q r]. split; [exact Q1|].
    eapply good_bind; [exact Q2|]. intros s Hs'. apply good_ok. exact Hs'.
Qed.
Lemma prev_body_left_good n s : oks s -> goodl (print_prev_body_left n s) okp (fun x => match x with Next s' => oks s' | Done r => oks r end).
Proof.
  destruct s as [p b0]. intros Hs. unfold print_prev_body_left.
  destruct (bl_chunks b0) as [|c cs] eqn:Eb; [split; [apply Hs|apply good_ok; exact Hs]|].
  destruct (chunk_good Hs Eb) as (Hc & Hp & Hb & F1 & F2). cbv zeta. unfold ok_k in Hc.
  destruct (ck_note c) as [| |ind|t|d1 d2|d1 d2|i d|] eqn:En; cbn [ok_c] in Hc; try (split; [exact Hp|first [apply good_fail|apply good_ok; assumption]]; fail).
  - split; [exact Hp|]. cbn [snd]. text_step Hb Hc Hp.
  - pose proof (@choose_good n p (set_chunks b0 cs) d1 d2 (proj1 Hc) (proj2 Hc)) as Hx.
    destruct (choose _ _ _ _ _) as [x|]; [|split; [exact Hp|apply good_fail]].
    destruct (@last_left_good n p _ x Hp Hb (Hx _ eq_refl)) as [Q1 Q2]. destruct (expand_last_left _ _ _ _) as [q r]. split; [exact Q1|].
    eapply good_bind; [exact Q2|]. intros s Hs'. apply good_ok. exact Hs'.
  - pose proof (@new_good d Hc) as Hx. destruct (chunk_new _) as [x|]; [|split; [exact Hp|apply good_fail]].
    destruct (@last_left_good n p _ x Hp Hb (Hx _ eq_refl)) as [Q1 Q2]. destruct (expand_last_left _ _ _ _) as [q r]. split; [exact Q1|].
    eapply good_bind; [exact Q2|]. intros s Hs'. apply good_ok. exact Hs'.
Qed.
Notation ok_line ol := (forall l, ol = Some l -> Forall okg l).
Lemma down_left_good n p : okp p -> goodl (down_next_left n p) okp (fun ol => ok_line ol).
Proof.
  intros Hp. unfold down_next_left. destruct (pr_next p) as [|b bs] eqn:En; [split; [exact Hp|apply good_ok; discriminate]|].
  destruct (@goodl_loop _ _ _ _ (print_next_body_left n) fst okp oks oks (fun s Hs => proj1 Hs) (next_body_left_good n) n _ (next_good Hp En)) as [Q1 Q2].
  destruct (loop_left _ _ _ _) as [q r]. split; [exact Q1|]. cbn [snd]. eapply good_bind; [exact Q2|]. intros [p' b'] [_ Hb].
  eapply good_bind; [exact (block_print_good Hb)|]. intros l Hl. apply good_ok. intros ? [= <-]. exact Hl.
Qed.
Lemma up_left_good n p : okp p -> goodl (up_next_left n p) okp (fun ol => ok_line ol).
Proof.
  intros Hp. unfold up_next_left. destruct (pr_prev p) as [|b bs] eqn:En; [split; [exact Hp|apply good_ok; discriminate]|].
  destruct (@goodl_loop _ _ _ _ (print_prev_body_left n) fst okp oks oks (fun s Hs => proj1 Hs) (prev_body_left_good n) n _ (prev_good Hp En)) as [Q1 Q2].
  destruct (loop_left _ _ _ _) as [q r]. split; [exact Q1|]. cbn [snd]. eapply good_bind; [exact Q2|]. intros [p' b'] [_ Hb].
  eapply good_bind; [exact (block_print_good Hb)|]. intros l Hl. apply good_ok. intros ? [= <-]. exact Hl.
Qed.
End Run.

(** Seeking into a text. *)
Variable okt : textual -> Prop.
Hypothesis H0 : forall t, okt0 t -> okt t.
Hypothesis Hseg : forall t, okt t -> okg (seg_of t).

Lemma up_b b : ok_b okt0 b -> ok_b okt b.
Proof. intros [H1 H2]. split; [|exact H2]. eapply Forall_impl; [|exact H1]. intros k Hk. unfold ok_k in *. destruct (ck_note k); simpl in *; auto. Qed.
Lemma up_p p : ok_p okt0 p -> ok_p okt p.
Proof. intros [H1 H2]. split; (eapply Forall_impl; [|eassumption]; exact up_b). Qed.

Notation seg0 := (fun t (H : okt0 t) => Hseg (H0 H)).
Definition ok_t (r : printer + printer * block) : Prop := match r with inl p => ok_p okt p | inr s => ok_s okt0 s end.
Lemma text_body_good n k s : (forall t, okt0 t -> tx_from_text t = true -> okt (fst (split_at t k)) /\ okt (snd (split_at t k))) ->
  ok_s okt0 s -> good (seek_text_body n k s) (fun x => match x with Next s' => ok_s okt0 s' | Done r => ok_t r end).
Proof.
  intros Hsplit. destruct s as [p b0]. intros Hs. unfold seek_text_body.
  assert (I0 : forall t, okt0 t -> okt0 t) by auto.
  destruct (bl_chunks b0) as [|c cs] eqn:Eb; [apply good_ok; exact Hs|].
  destruct (chunk_good Hs Eb) as (Hc & Hp & Hb & F1 & F2). cbv zeta. unfold ok_k in Hc.
  destruct (ck_note c) as [| |ind|t|d1 d2|d1 d2|i d|] eqn:En; cbn [ok_c] in Hc; try (first [apply good_fail|apply good_ok; assumption]; fail).
  - destruct (tx_from_text t) eqn:Et.
    + destruct (Hsplit t Hc Et) as [S1 S2]. destruct (split_at t k) as [tl tr]. cbn [fst snd] in *.
      eapply good_bind; [eapply (push_text_good Hseg) with (b := set_chunks b0 cs); [apply up_b; exact Hb|exact S1]|].
      intros b Hb'. apply good_ok. cbn [ok_t]. apply push_next_good; [apply up_p; exact Hp|]. apply set_chunks_good; [exact Hb'|].
      constructor; [exact S2|apply Hb'].
    + eapply good_bind; [apply (push_text_good seg0); [exact Hb|exact Hc]|]. intros b Hb'. apply good_ok. split; assumption.
  - eapply good_bind; [exact (choose_good okt0 I0 n p (set_chunks b0 cs) (proj1 Hc) (proj2 Hc))|]. intros x Hx.
    eapply good_bind; [apply (first_good I0); [exact Hp|exact Hb|exact Hx]|]. intros s Hs'. apply good_ok. exact Hs'.
  - eapply good_bind; [exact (new_good okt0 I0 Hc)|]. intros x Hx.
    eapply good_bind; [apply (first_good I0); [exact Hp|exact Hb|exact Hx]|]. intros s Hs'. apply good_ok. exact Hs'.
Qed.
Lemma text_good n p c k : (forall t, okt0 t -> tx_from_text t = true -> okt (fst (split_at t k)) /\ okt (snd (split_at t k))) ->
  ok_pc okt0 (p, c) -> good (seek_text n p c k) (ok_p okt).
Proof.
  intros Hsplit [Hp Hc]. unfold seek_text. assert (I0 : forall t, okt0 t -> okt0 t) by auto.
  destruct (pr_next p) as [|b bs] eqn:En; [apply good_fail|]. destruct (next_good Hp En) as [G1 G2].
  eapply good_bind; [apply (first_good I0); [exact G1|exact G2|exact Hc]|]. intros [p' b'] [Q1 Q2]. cbn [fst snd] in *.
  eapply good_loop with (I := ok_p okt0); [|apply push_next_good; assumption]. intros p1 Hp1. unfold seek_text_outer.
  destruct (pr_next p1) as [|b1 bs1] eqn:En1; [apply good_fail|].
  eapply good_bind; [eapply good_loop; [exact (fun s Hs => text_body_good n Hsplit Hs)|exact (next_good Hp1 En1)]|].
  intros [p2|[p2 b2]] Hr; apply good_ok; [exact Hr|]. destruct Hr. apply push_prev_good; assumption.
Qed.

Variable doc : D.
Variable st : option Sty.
Hypothesis Hroot : forall d, with_optional_style doc st = Ok d -> okd d.
Variable ft : focus_target.
Hypothesis Hsplit : forall k, ft = FText k -> forall t, okt0 t -> tx_from_text t = true -> okt (fst (split_at t k)) /\ okt (snd (split_at t k)).

Lemma seek_good n p path : ok_p okt0 p -> good (seek n p doc path ft st) (ok_p okt).
Proof.
  intros Hp. unfold seek. assert (I0 : forall t, okt0 t -> okt0 t) by auto.
  destruct (with_optional_style doc st) as [d|] eqn:Ed; cbn [bind]; [|apply good_fail].
  eapply good_bind; [exact (new_good okt0 I0 (Hroot eq_refl))|]. intros c Hc.
  eapply good_bind; [apply (path_good I0 seg0 n path); split; assumption|]. intros [p1 c1] H1.
  destruct ft as [| | |k].
  - eapply good_imp; [exact (start_good I0 n H1)|exact up_p].
  - eapply good_imp; [exact (end_good I0 seg0 n H1)|exact up_p].
  - eapply good_imp; [exact (mark_good I0 seg0 n H1)|exact up_p].
  - exact (text_good n (Hsplit eq_refl) H1).
Qed.

Theorem pretty_print_good n w path up fl down : pretty_print n doc w path ft st = Ok (up, fl, down) ->
  ok_p okt up /\ ok_p okt down /\ Forall okg (left_segments fl) /\ Forall okg (right_segments fl).
Proof.
  unfold pretty_print, printer_new. destruct (block_new [] []) as [b|] eqn:Eb; cbn [bind]; [|discriminate].
  assert (Hp : ok_p okt0 (Printer w [] [b])).
  { split; simpl; auto. constructor; auto. exact (block_good (Forall_nil _) (Forall_nil _) Eb). }
  destruct (seek n (Printer w [] [b]) doc path ft st) as [p|] eqn:Es; cbn [bind]; [|discriminate].
  pose proof (seek_good n path Hp Es) as Hp'. destruct (pr_next p) as [|b1 bs] eqn:En; [discriminate|].
  destruct (print_next_line n p) as [[p' [ln|]]|] eqn:El; cbn [bind]; try discriminate.
  destruct (_ <=? _); [|discriminate]. intros [= <- <- <-]. destruct (next_line_good H0 Hseg n Hp' El) as [[Q1 Q2] Q3].
  specialize (Q3 ln eq_refl). cbn [fst] in *. split; [split; simpl; auto|]. split; [split; simpl; auto|]. cbn [left_segments right_segments].
  rewrite <- (firstn_skipn (length (bl_segments b1)) ln) in Q3. apply Forall_app in Q3. exact Q3.
Qed.
End Kept.
