(** If one evaluation makes at most [E] calls, then printing makes at most
    [2 * (E + q)] calls per iteration. *)
From Verif Require Export Calls.

Set Implicit Arguments.

Section PCalls.
Context {pd : PrettyDoc} {env : Env}.
Variables q E : nat.
Variable fine : delayed -> Prop.

Definition fine_c (c : cnote) : Prop :=
  match c with
  | CConcat a b | CChoice a b => fine a /\ fine b
  | CChild _ d => fine d
  | _ => True
  end.

Hypothesis Hcalls : forall d, fine d -> eval_calls q d <= E.
Hypothesis Hfine : forall d c, fine d -> eval d = Ok c -> fine_c c.

Notation M := (2 * (E + q)).

Definition fine_k (k : chunk) : Prop := fine_c (ck_note k).
Definition fine_b (b : block) : Prop := Forall fine_k (bl_chunks b).
Definition fine_p (p : printer) : Prop := Forall fine_b (pr_prev p) /\ Forall fine_b (pr_next p).
Definition fine_s (s : printer * block) : Prop := fine_p (fst s) /\ fine_b (snd s).
Definition fine_pc (s : printer * chunk) : Prop := fine_p (fst s) /\ fine_k (snd s).

(** At most [M] calls per iteration, and good results. *)
Definition rat {X A} (calls cost : nat) (r : res X A) (J : A -> Prop) : Prop :=
  calls <= M * cost /\ forall a, r = Ok a -> J a.

Lemma rat_loop {X S R} (bc bk : S -> nat) (body : S -> res X (step S R)) (I : S -> Prop) (J : R -> Prop) :
  (forall s, I s -> rat (bc s) (bk s) (body s) (fun x => match x with Next s' => I s' | Done r => J r end)) ->
  forall n s, I s -> rat (loop_cost bc n body s) (loop_cost bk n body s) (loop n body s) J.
Proof.
  intros Hb. induction n as [|n IH]; intros s Hs; [split; [simpl; lia|discriminate]|].
  destruct (Hb _ Hs) as [H1 H2]. unfold rat. simpl loop_cost. cbn [loop].
  destruct (body s) as [[s'|r]|f]; [|split; [lia|intros ? [= <-]; apply (H2 _ eq_refl)]|split; [lia|discriminate]].
  destruct (IH _ (H2 _ eq_refl)) as [H3 H4]. split; [lia|exact H4].
Qed.

Lemma rat_bind {X A B} c k (x : res X A) c2 k2 (f : A -> res X B) (J : A -> Prop) (J2 : B -> Prop) :
  rat c k x J -> (forall a, J a -> rat (c2 a) (k2 a) (f a) J2) ->
  rat (c + after x c2) (k + after x k2) (bind x f) J2.
Proof.
  intros [H1 H2] Hf. destruct x as [a|e]; simpl; [|split; [lia|discriminate]].
  destruct (Hf a (H2 a eq_refl)) as [H3 H4]. split; [lia|exact H4].
Qed.

Lemma new_calls d : fine d -> chunk_new_calls q d <= E + q.
Proof.
  intros H. unfold chunk_new_calls. destruct (lift _); simpl; [|lia]. pose proof (Hcalls H). lia.
Qed.

Lemma new_fine d k : fine d -> chunk_new d = Ok k -> fine_k k.
Proof.
  intros H. unfold chunk_new. destruct (lift _); simpl; [|discriminate].
  destruct (eval d) as [c|] eqn:Ec; simpl; [|discriminate]. intros [= <-]. apply (Hfine H Ec).
Qed.

Lemma push_next_fine p b : fine_p p -> fine_b b -> fine_p (push_next p b).
Proof. intros [H1 H2] Hb. split; simpl; auto. Qed.
Lemma push_prev_fine p b : fine_p p -> fine_b b -> fine_p (push_prev p b).
Proof. intros [H1 H2] Hb. split; simpl; auto. Qed.
Lemma next_fine p b bs : fine_p p -> pr_next p = b :: bs -> fine_s (set_next p bs, b).
Proof. intros [H1 H2] Hn. rewrite Hn in H2. inversion H2; subst. split; [split|]; auto. Qed.
Lemma prev_fine p b bs : fine_p p -> pr_prev p = b :: bs -> fine_s (set_prev p bs, b).
Proof. intros [H1 H2] Hn. rewrite Hn in H1. inversion H1; subst. split; [split|]; auto. Qed.
Lemma block_fine ind cs b : Forall fine_k cs -> block_new ind cs = Ok b -> fine_b b.
Proof. unfold block_new. destruct (sum16 _ _); simpl; [|discriminate]. intros H [= <-]. exact H. Qed.
Lemma push_text_fine b t b' : fine_b b -> push_text b t = Ok b' -> fine_b b'.
Proof.
  unfold push_text. destruct (bl_at_eol b); [discriminate|]. destruct (add16 _ _ _); simpl; [|discriminate].
  intros H [= <-]. exact H.
Qed.
Hint Resolve push_next_fine push_prev_fine push_text_fine : fine.

(** ** fits *)
Lemma fits_rat n w eol c cs : fine_c c -> Forall fine_k cs ->
  rat (fits_calls q n w eol c cs) (fits_cost n w eol c cs) (fits n w eol c cs) (fun _ => True).
Proof.
  intros Hc Hcs. unfold fits_calls, fits_cost, fits.
  apply rat_loop with (I := fun s => Forall fine_c (snd (fst s)) /\ Forall fine_k (snd s)); [|simpl; auto].
  clear n w eol c cs Hc Hcs. intros [[[rem e] ns] ks] [Hn Hk]. cbn [fst snd] in *.
  assert (H : forall c ns ks, fine_c c -> Forall fine_c ns -> Forall fine_k ks ->
    rat (match c with
         | CChild _ d | CChoice _ d => eval_calls q d
         | CConcat d1 d2 => eval_calls q d2 + after (eval d2) (fun _ => eval_calls q d1)
         | _ => 0
         end) 1 (match c with
        | CEmpty | CFocusMark => Ok (Next (rem, e, ns, ks))
        | CTextual t =>
            if e then Ok (Done false)
            else if (tx_width t <=? rem)%N
            then Ok (Next ((rem - tx_width t)%N, e, ns, ks))
            else Ok (Done false)
        | CEndOfLine => Ok (Next (rem, true, ns, ks))
        | CNewline _ => Ok (Done true)
        | CChild _ d => c <- eval d ;; Ok (Next (rem, e, c :: ns, ks))
        | CConcat d1 d2 =>
            c2 <- eval d2 ;;
            c1 <- eval d1 ;;
            Ok (Next (rem, e, c1 :: c2 :: ns, ks))
        | CChoice _ d2 => c <- eval d2 ;; Ok (Next (rem, e, c :: ns, ks))
        end) (fun x => match x with Next s' => Forall fine_c (snd (fst s')) /\ Forall fine_k (snd s') | Done r => True end)).
  { clear - Hcalls Hfine. intros c ns ks Hc Hn Hk. unfold rat. destruct c as [| |ind|t|d1 d2|d1 d2|i d|]; simpl in Hc; try (split; [lia|intros ? [= <-]; simpl; auto; fail]).
    - split; [lia|]. destruct e; [intros ? [= <-]; auto|]. destruct (_ <=? _)%N; intros ? [= <-]; simpl; auto.
    - destruct Hc as [H1 H2]. pose proof (Hcalls H1). pose proof (Hcalls H2).
      destruct (eval d2) as [c2|] eqn:E2; simpl; [|split; [lia|discriminate]].
      destruct (eval d1) as [c1|] eqn:E1; simpl; (split; [lia|]); [|discriminate].
      intros ? [= <-]. simpl. split; auto. constructor; [apply (Hfine H1 E1)|]. constructor; auto. apply (Hfine H2 E2).
    - destruct Hc as [H1 H2]. pose proof (Hcalls H2). split; [lia|].
      destruct (eval d2) as [c2|] eqn:E2; simpl; [|discriminate]. intros ? [= <-]. simpl. split; auto. constructor; auto. apply (Hfine H2 E2).
    - pose proof (Hcalls Hc). split; [lia|].
      destruct (eval d) as [c2|] eqn:E2; simpl; [|discriminate]. intros ? [= <-]. simpl. split; auto. constructor; auto. apply (Hfine Hc E2). }
  unfold fits_body_calls, fits_body. destruct ns as [|n ns].
  - destruct ks as [|k ks]; [split; [lia|intros ? [= <-]; auto]|]. inversion Hk; subst. apply H; auto.
  - inversion Hn; subst. apply H; auto.
Qed.

(** ** choose *)
Lemma choose_rat n p b d1 d2 : fine d1 -> fine d2 -> fine_b b ->
  choose_calls q n p b d1 d2 <= M + M * choose_cost n p b d1 d2 /\ forall x, choose n p b d1 d2 = Ok x -> fine_k x.
Proof.
  intros H1 H2 Hb. unfold choose_calls, choose_cost, choose.
  pose proof (new_calls H1). pose proof (new_calls H2).
  destruct (chunk_new d1) as [c1|] eqn:E1; cbn [after bind]; [|split; [lia|discriminate]].
  pose proof (new_fine H1 E1) as Hc1.
  destruct (bl_prefix_len b <=? pr_width p)%N; cbn [bind].
  - destruct (@fits_rat n (pr_width p - bl_prefix_len b)%N (bl_at_eol b) (ck_note c1) (bl_chunks b) Hc1 Hb) as [Hf _].
    destruct (fits n (pr_width p - bl_prefix_len b)%N (bl_at_eol b) (ck_note c1) (bl_chunks b)) as [[|]|]; cbn [after bind]; (split; [lia|]).
    + intros x [= <-]. exact Hc1.
    + intros x Hx. eapply new_fine; eauto.
    + discriminate.
  - split; [lia|]. intros x Hx. eapply new_fine; eauto.
Qed.

(** ** Expanding *)
Lemma first_rat n p b c : fine_p p -> fine_b b -> fine_k c ->
  rat (expand_first_calls q n p b c) (expand_first_cost n p b c) (expand_first n p b c) fine_s.
Proof.
  intros Hp Hb Hc. unfold expand_first_calls, expand_first_cost, expand_first.
  apply rat_loop with (I := fun s => Forall fine_k (fst (fst s)) /\ fine_p (snd (fst s)) /\ fine_b (snd s)); [|simpl; auto].
  clear - Hcalls Hfine. intros [[stack p] b] (Hs & Hp & Hb). cbn [fst snd] in *. unfold first_body_calls, expand_first_body.
  destruct stack as [|c stack]; [split; [lia|intros ? [= <-]; split; auto]|]. inversion Hs as [|? ? Hc Hst]; subst.
  unfold fine_k in Hc. destruct (ck_note c) as [| |ind|t|d1 d2|d1 d2|i d|] eqn:En;
    try (split; [lia|intros ? [= <-]; cbn [fst snd]; repeat split; auto; try apply Hp; constructor; auto; unfold fine_k; rewrite En; auto; fail]).
  - split; [lia|]. destruct (block_new _ _) as [nb|] eqn:Eb; simpl; [|discriminate]. intros ? [= <-]. cbn [fst snd].
    split; auto. split; [apply push_next_fine; auto; eapply block_fine; [exact Hb|exact Eb]|constructor].
  - destruct Hc as [H1 H2]. pose proof (new_calls H1). pose proof (new_calls H2).
    destruct (chunk_new d1) as [c1|] eqn:E1; cbn [after bind]; [|split; [lia|discriminate]].
    split; [lia|]. destruct (chunk_new d2) as [c2|] eqn:E2; cbn [bind]; [|discriminate]. intros ? [= <-]. cbn [fst snd].
    split; auto. constructor; [eapply new_fine; [exact H2|exact E2]|]. constructor; auto. eapply new_fine; [exact H1|exact E1].
Qed.

Lemma last_rat n p b c : fine_p p -> fine_b b -> fine_k c ->
  rat (expand_last_calls q n p b c) (expand_last_cost n p b c) (expand_last n p b c) fine_s.
Proof.
  intros Hp Hb Hc. unfold expand_last_calls, expand_last_cost, expand_last.
  assert (H : rat (loop_cost (last_body_calls q) n expand_last_body ([], [c], p, b)) (loop_cost (fun _ => 1) n expand_last_body ([], [c], p, b))
    (loop n expand_last_body ([], [c], p, b)) (fun s => Forall fine_k (fst (fst s)) /\ fine_p (snd (fst s)) /\ fine_b (snd s))).
  { apply rat_loop with (I := fun s => Forall fine_k (fst (fst (fst s))) /\ Forall fine_k (snd (fst (fst s))) /\ fine_p (snd (fst s)) /\ fine_b (snd s)); [|simpl; auto].
    clear - Hcalls Hfine. intros [[[chunks stack] p] b] (Hu & Hs & Hp & Hb). cbn [fst snd] in *. unfold last_body_calls, expand_last_body.
    destruct stack as [|c stack]; [split; [lia|intros ? [= <-]; split; auto]|]. inversion Hs as [|? ? Hc Hst]; subst.
    unfold fine_k in Hc. destruct (ck_note c) as [| |ind|t|d1 d2|d1 d2|i d|] eqn:En;
      try (split; [lia|intros ? [= <-]; cbn [fst snd]; repeat split; auto; try apply Hp; constructor; auto; unfold fine_k; rewrite En; auto; fail]).
    - split; [lia|]. cbv zeta. destruct (block_new _ _) as [nb|] eqn:Eb; simpl; [|discriminate]. intros ? [= <-]. cbn [fst snd].
      split; auto. split; auto. split; [apply push_prev_fine; auto; apply Forall_rev; auto|eapply block_fine; [exact Hb|exact Eb]].
    - destruct Hc as [H1 H2]. pose proof (new_calls H1). pose proof (new_calls H2).
      destruct (chunk_new d2) as [c2|] eqn:E2; cbn [after bind]; [|split; [lia|discriminate]].
      split; [lia|]. destruct (chunk_new d1) as [c1|] eqn:E1; cbn [bind]; [|discriminate]. intros ? [= <-]. cbn [fst snd].
      split; auto. split; auto. constructor; [eapply new_fine; [exact H1|exact E1]|]. constructor; auto. eapply new_fine; [exact H2|exact E2]. }
  destruct H as [H1 H2]. split; [exact H1|]. intros a Ha.
  destruct (loop n expand_last_body ([], [c], p, b)) as [[[ch p'] b']|]; cbn [bind] in Ha; [|discriminate]. injection Ha as <-.
  destruct (H2 _ eq_refl) as (Q1 & Q2 & Q3). cbn [fst snd] in *. split; auto. simpl. unfold fine_b. simpl. apply Forall_app. split; auto. apply Forall_rev. auto.
Qed.

(** ** Taking the next chunk off a block *)
Section Chunks.
Variable ex : printer -> block -> chunk -> pres (printer * block).
Variables exc exk : printer -> block -> chunk -> nat.
Hypothesis Hex : forall p b c, fine_p p -> fine_b b -> fine_k c -> rat (exc p b c) (exk p b c) (ex p b c) fine_s.
Variable n : nat.

Lemma chunk_rat p b0 : fine_s (p, b0) -> chunk_calls q n exc (p, b0) <= M * chunk_cost n exk (p, b0) /\
  forall c cs, bl_chunks b0 = c :: cs ->
  fine_s (p, set_chunks b0 cs) /\ fine_s (p, set_eol (set_chunks b0 cs)) /\
  (forall t b, push_text (set_chunks b0 cs) t = Ok b -> fine_s (p, b)) /\
  (forall i d x s, ck_note c = CChild i d -> chunk_new d = Ok x -> ex p (set_chunks b0 cs) x = Ok s -> fine_s s) /\
  (forall i d, ck_note c = CChild i d -> fine d) /\
  (forall d1 d2 x s, ck_note c = CChoice d1 d2 -> choose n p (set_chunks b0 cs) d1 d2 = Ok x -> ex p (set_chunks b0 cs) x = Ok s -> fine_s s).
Proof.
  intros [Hp Hb]. cbn [fst snd] in *. unfold chunk_calls, chunk_cost, fine_b in *.
  destruct (bl_chunks b0) as [|c cs] eqn:Eb; [split; [lia|discriminate]|]. inversion Hb as [|? ? Hc Hcs]; subst.
  unfold fine_k in Hc. assert (Hb' : fine_b (set_chunks b0 cs)) by exact Hcs.
  split.
  - destruct (ck_note c) as [| |ind|t|d1 d2|d1 d2|i d|] eqn:En; try lia.
    + destruct Hc as [H1 H2]. destruct (@choose_rat n p (set_chunks b0 cs) d1 d2 H1 H2 Hb') as [Hch Hx].
      destruct (choose n p (set_chunks b0 cs) d1 d2) as [x|]; cbn [after]; [|lia].
      destruct (@Hex p _ x Hp Hb' (Hx _ eq_refl)). lia.
    + pose proof (new_calls Hc). destruct (chunk_new d) as [x|] eqn:Ex; cbn [after]; [|lia].
      destruct (@Hex p _ x Hp Hb' (new_fine Hc Ex)). lia.
  - intros c' cs' [= <- <-]. split; [split; auto|]. split; [split; auto|]. split; [intros t b Ht; split; auto; eapply push_text_fine; eauto|].
    split; [|split].
    + intros i d x s En Ex Es. rewrite En in Hc. simpl in Hc. destruct (@Hex p _ x Hp Hb' (new_fine Hc Ex)) as [_ H]. auto.
    + intros i d En. rewrite En in Hc. exact Hc.
    + intros d1 d2 x s En Ex Es. rewrite En in Hc. destruct Hc as [H1 H2].
      destruct (@choose_rat n p (set_chunks b0 cs) d1 d2 H1 H2 Hb') as [_ Hx].
      destruct (@Hex p _ x Hp Hb' (Hx _ Ex)) as [_ H]. auto.
Qed.
End Chunks.

Ltac chunk_cases p b0 Hf Hc :=
  let c := fresh "c" in let cs := fresh "cs" in let Eb := fresh "Eb" in let En := fresh "En" in
  let H1 := fresh "F1" in let H2 := fresh "F2" in let H3 := fresh "F3" in let H4 := fresh "F4" in let H5 := fresh "F5" in let H6 := fresh "F6" in
  destruct (bl_chunks b0) as [|c cs] eqn:Eb; [intros ? [= <-]; auto|];
  destruct (Hf c cs eq_refl) as (H1 & H2 & H3 & H4 & H5 & H6); clear Hf; cbv zeta;
  destruct (ck_note c) eqn:En; try discriminate.

Lemma next_body_rat n s : fine_s s ->
  rat (chunk_calls q n (expand_first_calls q n) s) (chunk_cost n (expand_first_cost n) s) (print_next_body n s)
    (fun x => match x with Next s' => fine_s s' | Done r => fine_s r end).
Proof.
  destruct s as [p b0]. intros Hs. destruct (@chunk_rat (expand_first n) _ _ (first_rat n) n p b0 Hs) as [Hc Hf]. split; [exact Hc|].
  unfold print_next_body. chunk_cases p b0 Hf Hc.
  - intros ? [= <-]; auto.
  - destruct (push_text _ _) as [b|] eqn:Et; simpl; [|discriminate]. intros ? [= <-]; eauto.
  - destruct (choose _ _ _ _ _) as [x|] eqn:Ex; simpl; [|discriminate]. destruct (expand_first _ _ _ _) as [s|] eqn:Es; simpl; [|discriminate]. intros ? [= <-]; eauto.
  - destruct (chunk_new _) as [x|] eqn:Ex; simpl; [|discriminate]. destruct (expand_first _ _ _ _) as [s|] eqn:Es; simpl; [|discriminate]. intros ? [= <-]; eauto.
  - intros ? [= <-]; auto.
Qed.

Lemma prev_body_rat n s : fine_s s ->
  rat (chunk_calls q n (expand_last_calls q n) s) (chunk_cost n (expand_last_cost n) s) (print_prev_body n s)
    (fun x => match x with Next s' => fine_s s' | Done r => fine_s r end).
Proof.
  destruct s as [p b0]. intros Hs. destruct (@chunk_rat (expand_last n) _ _ (last_rat n) n p b0 Hs) as [Hc Hf]. split; [exact Hc|].
  unfold print_prev_body. chunk_cases p b0 Hf Hc.
  - intros ? [= <-]; auto.
  - destruct (push_text _ _) as [b|] eqn:Et; simpl; [|discriminate]. intros ? [= <-]; eauto.
  - destruct (choose _ _ _ _ _) as [x|] eqn:Ex; simpl; [|discriminate]. destruct (expand_last _ _ _ _) as [s|] eqn:Es; simpl; [|discriminate]. intros ? [= <-]; eauto.
  - destruct (chunk_new _) as [x|] eqn:Ex; simpl; [|discriminate]. destruct (expand_last _ _ _ _) as [s|] eqn:Es; simpl; [|discriminate]. intros ? [= <-]; eauto.
  - intros ? [= <-]; auto.
Qed.

Lemma end_body_rat n k s : fine_s s ->
  rat (if Nat.leb (length (bl_chunks (snd s))) k then 0 else chunk_calls q n (expand_last_calls q n) s)
    (if Nat.leb (length (bl_chunks (snd s))) k then 1 else chunk_cost n (expand_last_cost n) s) (seek_end_body n k s)
    (fun x => match x with Next s' => fine_s s' | Done r => fine_s r end).
Proof.
  destruct s as [p b0]. intros Hs. unfold seek_end_body. cbn [snd]. destruct (Nat.leb _ k); [split; [lia|intros ? [= <-]; auto]|].
  destruct (@chunk_rat (expand_last n) _ _ (last_rat n) n p b0 Hs) as [Hc Hf]. split; [exact Hc|].
  destruct (bl_chunks b0) as [|c cs] eqn:Eb; [discriminate|].
  destruct (Hf c cs eq_refl) as (F1 & F2 & F3 & F4 & F5 & F6). cbv zeta. destruct (ck_note c) eqn:En; try discriminate.
  - intros ? [= <-]; auto.
  - destruct (push_text _ _) as [b|] eqn:Et; simpl; [|discriminate]. intros ? [= <-]; eauto.
  - destruct (choose _ _ _ _ _) as [x|] eqn:Ex; simpl; [|discriminate]. destruct (expand_last _ _ _ _) as [s|] eqn:Es; simpl; [|discriminate]. intros ? [= <-]; eauto.
  - destruct (chunk_new _) as [x|] eqn:Ex; simpl; [|discriminate]. destruct (expand_last _ _ _ _) as [s|] eqn:Es; simpl; [|discriminate]. intros ? [= <-]; eauto.
  - intros ? [= <-]; auto.
Qed.

Definition fine_m (r : printer + printer * block) : Prop := match r with inl p => fine_p p | inr s => fine_s s end.

Lemma mark_body_rat n id s : fine_s s ->
  rat (chunk_calls q n (expand_first_calls q n) s) (chunk_cost n (expand_first_cost n) s) (seek_mark_body n id s)
    (fun x => match x with Next s' => fine_s s' | Done r => fine_m r end).
Proof.
  destruct s as [p b0]. intros Hs. destruct (@chunk_rat (expand_first n) _ _ (first_rat n) n p b0 Hs) as [Hc Hf]. split; [exact Hc|].
  unfold seek_mark_body. chunk_cases p b0 Hf Hc.
  - intros ? [= <-]; auto.
  - destruct (push_text _ _) as [b|] eqn:Et; simpl; [|discriminate]. intros ? [= <-]; eauto.
  - destruct (choose _ _ _ _ _) as [x|] eqn:Ex; simpl; [|discriminate]. destruct (expand_first _ _ _ _) as [s|] eqn:Es; simpl; [|discriminate]. intros ? [= <-]; eauto.
  - destruct (chunk_new _) as [x|] eqn:Ex; simpl; [|discriminate]. destruct (expand_first _ _ _ _) as [s|] eqn:Es; simpl; [|discriminate]. intros ? [= <-]; eauto.
  - destruct (id_eqb _ _); intros ? [= <-]; auto. simpl. destruct F1. apply push_next_fine; auto.
Qed.

Lemma text_body_rat n k s : fine_s s ->
  rat (chunk_calls q n (expand_first_calls q n) s) (chunk_cost n (expand_first_cost n) s) (seek_text_body n k s)
    (fun x => match x with Next s' => fine_s s' | Done r => fine_m r end).
Proof.
  destruct s as [p b0]. intros Hs. destruct (@chunk_rat (expand_first n) _ _ (first_rat n) n p b0 Hs) as [Hc Hf]. split; [exact Hc|].
  unfold seek_text_body. chunk_cases p b0 Hf Hc.
  - intros ? [= <-]; auto.
  - destruct (tx_from_text t).
    + destruct (split_at t k) as [tl tr]. destruct (push_text _ tl) as [b|] eqn:Et; simpl; [|discriminate]. intros ? [= <-]. simpl.
      destruct (F3 _ _ Et) as [G1 G2]. apply push_next_fine; auto. constructor; [exact I|exact G2].
    + destruct (push_text _ _) as [b|] eqn:Et; simpl; [|discriminate]. intros ? [= <-]; eauto.
  - destruct (choose _ _ _ _ _) as [x|] eqn:Ex; simpl; [|discriminate]. destruct (expand_first _ _ _ _) as [s|] eqn:Es; simpl; [|discriminate]. intros ? [= <-]; eauto.
  - destruct (chunk_new _) as [x|] eqn:Ex; simpl; [|discriminate]. destruct (expand_first _ _ _ _) as [s|] eqn:Es; simpl; [|discriminate]. intros ? [= <-]; eauto.
  - intros ? [= <-]; auto.
Qed.

Definition fine_e (r : seek_child_end) : Prop :=
  match r with ScFound p d => fine_p p /\ fine d | ScBreak p | ScExhausted p => fine_p p end.

Lemma child_body_rat n id k s : fine_s s ->
  rat (seek_child_body_calls q n id k s) (seek_child_body_cost n id k s) (seek_child_body n id k s)
    (fun x => match x with Next s' => fine_s s' | Done r => fine_e r end).
Proof.
  destruct s as [p b0]. intros Hs. destruct (@chunk_rat (expand_first n) _ _ (first_rat n) n p b0 Hs) as [Hc Hf].
  unfold seek_child_body_calls, seek_child_body_cost, seek_child_body. cbn [snd].
  destruct (bl_chunks b0) as [|c cs] eqn:Eb; [split; [lia|intros ? [= <-]; apply Hs]|].
  destruct (Hf c cs eq_refl) as (F1 & F2 & F3 & F4 & F5 & F6). cbv zeta. destruct (ck_note c) eqn:En; try (split; [exact Hc|]; try discriminate).
  - intros ? [= <-]; auto.
  - destruct (push_text _ _) as [b|] eqn:Et; simpl; [|discriminate]. intros ? [= <-]; eauto.
  - destruct (choose _ _ _ _ _) as [x|] eqn:Ex; simpl; [|discriminate]. destruct (expand_first _ _ _ _) as [[p' b']|] eqn:Es; simpl; [|discriminate]. intros ? [= <-].
    destruct (F6 _ _ _ _ eq_refl Ex Es). apply push_next_fine; auto.
  - destruct (_ && _).
    + split; [lia|]. intros ? [= <-]. destruct F1. split; [apply push_next_fine; auto|eauto].
    + split; [exact Hc|]. destruct (chunk_new _) as [x|] eqn:Ex; simpl; [|discriminate]. destruct (expand_first _ _ _ _) as [[p' b']|] eqn:Es; simpl; [|discriminate].
      intros ? [= <-]. destruct (F4 _ _ _ _ eq_refl Ex Es). apply push_next_fine; auto.
  - intros ? [= <-]; auto.
Qed.

(** ** Lines *)
Definition fine_l (x : printer * option line) : Prop := fine_p (fst x).

Lemma next_line_rat n p : fine_p p ->
  rat (print_next_line_calls q n p) (print_next_line_cost n p) (print_next_line n p) fine_l.
Proof.
  intros Hp. unfold print_next_line_calls, print_next_line_cost, print_next_line.
  destruct (pr_next p) as [|b bs] eqn:En; [split; [lia|intros ? [= <-]; exact Hp]|].
  destruct (@rat_loop _ _ _ _ _ (print_next_body n) fine_s fine_s (next_body_rat n) n _ (next_fine Hp En)) as [H1 H2].
  split; [exact H1|]. destruct (loop _ _ _) as [[p' b']|]; simpl; [|discriminate]. destruct (block_print b'); simpl; [|discriminate].
  intros ? [= <-]. apply (H2 _ eq_refl).
Qed.

Lemma prev_line_rat n p : fine_p p ->
  rat (print_prev_line_calls q n p) (print_prev_line_cost n p) (print_prev_line n p) fine_l.
Proof.
  intros Hp. unfold print_prev_line_calls, print_prev_line_cost, print_prev_line.
  destruct (pr_prev p) as [|b bs] eqn:En; [split; [lia|intros ? [= <-]; exact Hp]|].
  destruct (@rat_loop _ _ _ _ _ (print_prev_body n) fine_s fine_s (prev_body_rat n) n _ (prev_fine Hp En)) as [H1 H2].
  split; [exact H1|]. destruct (loop _ _ _) as [[p' b']|]; simpl; [|discriminate]. destruct (block_print b'); simpl; [|discriminate].
  intros ? [= <-]. apply (H2 _ eq_refl).
Qed.

(** ** Seeking *)
Lemma start_rat n p c : fine_pc (p, c) -> rat (seek_start_calls q n p c) (seek_start_cost n p c) (seek_start n p c) fine_p.
Proof.
  intros [Hp Hc]. cbn [fst snd] in *. unfold seek_start_calls, seek_start_cost, seek_start.
  destruct (pr_next p) as [|b bs] eqn:En; [split; [lia|discriminate]|]. destruct (next_fine Hp En) as [G1 G2]. cbn [fst snd] in *.
  destruct (@first_rat n _ b c G1 G2 Hc) as [H1 H2]. split; [exact H1|].
  destruct (expand_first _ _ _ _) as [[p' b']|]; simpl; [|discriminate]. intros ? [= <-]. destruct (H2 _ eq_refl). apply push_next_fine; auto.
Qed.

Lemma end_rat n p c : fine_pc (p, c) -> rat (seek_end_calls q n p c) (seek_end_cost n p c) (seek_end n p c) fine_p.
Proof.
  intros [Hp Hc]. cbn [fst snd] in *. unfold seek_end_calls, seek_end_cost, seek_end.
  destruct (pr_next p) as [|b bs] eqn:En; [split; [lia|discriminate]|]. destruct (next_fine Hp En) as [G1 G2]. cbn [fst snd] in *.
  apply rat_bind with (J := fine_s); [apply last_rat; auto|]. intros s Hs.
  destruct (@rat_loop _ _ _ _ _ (seek_end_body n (length (bl_chunks b))) fine_s fine_s (end_body_rat n _) n _ Hs) as [H1 H2].
  split; [exact H1|]. destruct (loop _ _ _) as [[p' b']|]; simpl; [|discriminate]. intros ? [= <-]. destruct (H2 _ eq_refl). apply push_next_fine; auto.
Qed.

Lemma mark_rat n p c : fine_pc (p, c) -> rat (seek_mark_calls q n p c) (seek_mark_cost n p c) (seek_mark n p c) fine_p.
Proof.
  intros [Hp Hc]. cbn [fst snd] in *. unfold seek_mark_calls, seek_mark_cost, seek_mark.
  destruct (pr_next p) as [|b bs] eqn:En; [split; [lia|discriminate]|]. destruct (next_fine Hp En) as [G1 G2]. cbn [fst snd] in *.
  apply rat_bind with (J := fine_s); [apply first_rat; auto|]. intros [p1 b1] [Hp1 Hb1].
  apply rat_loop with (I := fine_p); [|apply push_next_fine; auto]. clear - Hcalls Hfine. intros p Hp.
  unfold seek_mark_outer_calls, seek_mark_outer_cost, seek_mark_outer. destruct (pr_next p) as [|b bs] eqn:En; [split; [lia|discriminate]|].
  destruct (@rat_loop _ _ _ _ _ (seek_mark_body n (ck_id c)) fine_s fine_m (mark_body_rat n _) n _ (next_fine Hp En)) as [H1 H2].
  split; [lia|]. destruct (loop _ _ _) as [[p'|[p' b']]|]; simpl; [| |discriminate]; intros ? [= <-]; pose proof (H2 _ eq_refl) as H; simpl in H; auto.
  destruct H. apply push_prev_fine; auto.
Qed.

Lemma text_rat n p c k : fine_pc (p, c) -> rat (seek_text_calls q n p c k) (seek_text_cost n p c k) (seek_text n p c k) fine_p.
Proof.
  intros [Hp Hc]. cbn [fst snd] in *. unfold seek_text_calls, seek_text_cost, seek_text.
  destruct (pr_next p) as [|b bs] eqn:En; [split; [lia|discriminate]|]. destruct (next_fine Hp En) as [G1 G2]. cbn [fst snd] in *.
  apply rat_bind with (J := fine_s); [apply first_rat; auto|]. intros [p1 b1] [Hp1 Hb1].
  apply rat_loop with (I := fine_p); [|apply push_next_fine; auto]. clear - Hcalls Hfine. intros p Hp.
  unfold seek_text_outer_calls, seek_text_outer_cost, seek_text_outer. destruct (pr_next p) as [|b bs] eqn:En; [split; [lia|discriminate]|].
  destruct (@rat_loop _ _ _ _ _ (seek_text_body n k) fine_s fine_m (text_body_rat n _) n _ (next_fine Hp En)) as [H1 H2].
  split; [lia|]. destruct (loop _ _ _) as [[p'|[p' b']]|]; simpl; [| |discriminate]; intros ? [= <-]; pose proof (H2 _ eq_refl) as H; simpl in H; auto.
  destruct H. apply push_prev_fine; auto.
Qed.

Lemma walk_fine id k next : forall prev, Forall fine_b prev -> Forall fine_b next ->
  Forall fine_b (fst (walk id k prev next)) /\ Forall fine_b (snd (walk id k prev next)).
Proof.
  induction next as [|b next IH]; intros prev H1 H2; simpl; auto. inversion H2; subst.
  destruct (contains_relevant_chunk id k b); simpl; auto.
Qed.

Lemma child_outer_rat n id k p : fine_p p ->
  rat (seek_child_outer_calls q n id k p) (seek_child_outer_cost n id k p) (seek_child_outer n id k p)
    (fun x => match x with Next p' => fine_p p' | Done r => fine_pc r end).
Proof.
  intros [Hp1 Hp2]. unfold seek_child_outer_calls, seek_child_outer_cost, seek_child_outer.
  destruct (@walk_fine id k (pr_next p) (pr_prev p) Hp1 Hp2) as [W1 W2].
  destruct (walk id k (pr_prev p) (pr_next p)) as [prev [|b bs]]; cbn [fst snd] in *; [split; [lia|discriminate]|].
  inversion W2; subst.
  assert (Hs : fine_s (Printer (pr_width p) prev bs, b)) by (split; [split|]; auto). cbv zeta.
  destruct (@rat_loop _ _ _ _ _ (seek_child_body n id k) fine_s fine_e (child_body_rat n id k) n _ Hs) as [R1 R2].
  destruct (loop _ _ _) as [[p' d|p'|p']|]; cbn [after bind].
  - destruct (R2 _ eq_refl) as [Q1 Q2]. pose proof (new_calls Q2). split; [lia|].
    destruct (chunk_new d) as [x|] eqn:Ex; simpl; [|discriminate]. intros ? [= <-]. split; auto. eapply new_fine; eauto.
  - split; [lia|]. intros ? [= <-]. apply (R2 _ eq_refl).
  - split; [lia|]. intros ? [= <-]. apply (R2 _ eq_refl).
  - split; [lia|discriminate].
Qed.

Lemma child_rat n p c k : fine_pc (p, c) -> rat (seek_child_calls q n p c k) (seek_child_cost n p c k) (seek_child n p c k) fine_pc.
Proof.
  intros [Hp Hc]. cbn [fst snd] in *. unfold seek_child_calls, seek_child_cost, seek_child.
  destruct (pr_next p) as [|b bs] eqn:En; [split; [lia|discriminate]|]. destruct (next_fine Hp En) as [G1 G2]. cbn [fst snd] in *.
  apply rat_bind with (J := fine_s); [apply first_rat; auto|]. intros [p1 b1] [Hp1 Hb1].
  apply rat_loop with (I := fine_p); [|apply push_next_fine; auto]. intros; apply child_outer_rat; auto.
Qed.

Lemma path_rat n path : forall p c, fine_pc (p, c) -> rat (seek_path_calls q n p c path) (seek_path_cost n p c path) (seek_path n p c path) fine_pc.
Proof.
  induction path as [|i path IH]; intros p c H; simpl; [split; [lia|intros ? [= <-]; auto]|].
  assert (H' : rat (seek_child_calls q n p c i + after (seek_child n p c i) (fun '(p, c) => seek_path_calls q n p c path))
    (seek_child_cost n p c i + after (seek_child n p c i) (fun '(p, c) => seek_path_cost n p c path))
    (bind (seek_child n p c i) (fun '(p, c) => seek_path n p c path)) fine_pc).
  { apply rat_bind with (J := fine_pc); [apply child_rat; auto|]. intros [p1 c1] H1. apply IH. exact H1. }
  destruct H' as [H1 H2]. split; [lia|exact H2].
Qed.

Variable doc : D.
Variable st : option Sty.
Hypothesis Hroot : forall d, with_optional_style doc st = Ok d -> fine d.

Lemma seek_rat n p path ft : fine_p p ->
  seek_calls q n p doc path ft st <= 2 * q + (E + q) + M * seek_cost n p doc path ft st /\
  forall p', seek n p doc path ft st = Ok p' -> fine_p p'.
Proof.
  intros Hp. unfold seek_calls, seek_cost, seek.
  assert (Hr : root_calls q doc <= 2 * q) by (unfold root_calls; destruct (lift _); simpl; lia).
  destruct (with_optional_style doc st) as [d|] eqn:Ed; cbn [after bind]; [|split; [lia|discriminate]].
  pose proof (Hroot eq_refl) as Hd. pose proof (new_calls Hd).
  destruct (chunk_new d) as [c|] eqn:Ec; cbn [after bind]; [|split; [lia|discriminate]].
  match goal with |- ?r + (?k + ?c) <= _ + _ * ?t /\ forall p', ?x = Ok p' -> _ => assert (H' : rat c t x fine_p) end.
  { apply rat_bind with (J := fine_pc); [apply path_rat; split; auto; eapply new_fine; eauto|].
    intros [p1 c1] H1. destruct ft; [apply start_rat|apply end_rat|apply mark_rat|apply text_rat]; auto. }
  destruct H' as [H1 H2]. split; [lia|exact H2].
Qed.

Lemma pretty_print_rat n w path ft :
  pretty_print_calls q n doc w path ft st <= 2 * q + (E + q) + M * pretty_print_cost n doc w path ft st /\
  forall x, pretty_print n doc w path ft st = Ok x -> fine_p (fst (fst x)) /\ fine_p (snd x).
Proof.
  unfold pretty_print_calls, pretty_print_cost, pretty_print, printer_new.
  destruct (block_new [] []) as [b|] eqn:Eb; cbn [after bind]; [|split; [lia|discriminate]].
  assert (Hp : fine_p (Printer w [] [b])).
  { split; simpl; auto. constructor; auto. eapply block_fine; eauto. }
  destruct (@seek_rat n _ path ft Hp) as [H1 H2].
  destruct (seek n (Printer w [] [b]) doc path ft st) as [p|]; cbn [after bind]; [|split; [lia|discriminate]].
  destruct (@next_line_rat n p (H2 _ eq_refl)) as [H3 H4]. split; [lia|].
  destruct (pr_next p); [discriminate|]. destruct (print_next_line n p) as [[p' [ln|]]|]; cbn [bind]; try discriminate.
  destruct (_ <=? _); [|discriminate]. intros x [= <-]. destruct (H4 _ eq_refl) as [Q1 Q2]. split; split; simpl; auto.
Qed.

Lemma take_lines_rat next calls cost k : (forall p, fine_p p -> rat (calls p) (cost p) (next p) fine_l) ->
  forall p, fine_p p -> take_lines_cost next calls k p <= M * take_lines_cost next cost k p.
Proof.
  intros Hn. induction k as [|k IH]; intros p Hp; simpl; [lia|].
  destruct (Hn p Hp) as [H1 H2]. destruct (next p) as [[p' [l|]]|]; cbn [after]; try lia.
  specialize (IH p' (H2 _ eq_refl)). lia.
Qed.

Theorem window_rat n w path ft ku kd :
  window_calls q n doc w path ft st ku kd <= 2 * (E + q) * (window_cost n doc w path ft st ku kd + 2).
Proof.
  unfold window_calls, window_cost. destruct (@pretty_print_rat n w path ft) as [H1 H2].
  destruct (pretty_print n doc w path ft st) as [[[up fl] down]|]; cbn [after]; [|lia].
  destruct (H2 _ eq_refl) as [Hu Hd]. cbn [fst snd] in *.
  pose proof (@take_lines_rat (up_next n) _ _ ku (prev_line_rat n) up Hu) as H3.
  pose proof (@take_lines_rat (down_next n) _ _ kd (next_line_rat n) down Hd) as H4.
  destruct (take_lines (up_next n) ku up); cbn [after]; lia.
Qed.

Theorem to_string_rat n w : st = None ->
  to_string_calls q n doc w <= 2 * (E + q) * (to_string_cost n doc w + 2).
Proof.
  intros Hst. unfold to_string_calls, to_string_cost. destruct (@pretty_print_rat n w [] FStart) as [H1 H2]. rewrite Hst in *.
  destruct (pretty_print n doc w [] FStart None) as [[[up fl] down]|]; cbn [after]; [|lia].
  destruct (H2 _ eq_refl) as [Hu Hd]. cbn [fst snd] in *.
  pose proof (@rat_loop _ _ _ (fun '(p, _) => print_next_line_calls q n p) (fun '(p, _) => 1 + print_next_line_cost n p) (to_string_body n)
    (fun s => fine_p (fst s)) (fun _ => True)) as Hl.
  destruct (Hl) with (n := n) (s := (down, focused_to_string fl)) as [H3 _]; [|exact Hd|lia].
  clear - Hcalls Hfine. intros [p s] Hp. cbn [fst] in Hp. destruct (@next_line_rat n p Hp) as [H1 H2]. split; [lia|].
  unfold to_string_body, down_next. destruct (print_next_line n p) as [[p' [l|]]|]; simpl; [| |discriminate]; intros ? [= <-]; auto.
  apply (H2 _ eq_refl).
Qed.

End PCalls.
