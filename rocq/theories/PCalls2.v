(** How many calls one evaluation makes. *)
From Verif Require Export PCalls1 SpecCalls PElab.

Set Implicit Arguments.

Section Shape.
Context {pd : PrettyDoc}.

Fixpoint no_fold (n : note) : Prop :=
  match n with
  | Flat a | Indent _ _ a | Style _ a => no_fold a
  | Concat a b | Choice a b | Check _ _ a b => no_fold a /\ no_fold b
  | Count a b c => no_fold a /\ no_fold b /\ no_fold c
  | Fold _ _ => False
  | _ => True
  end.

(** [Left] and [Right] occur in the [join] of folds only, and folds are not nested. *)
Fixpoint no_left (n : note) : Prop :=
  match n with
  | Left | Right => False
  | Flat a | Indent _ _ a | Style _ a => no_left a
  | Concat a b | Choice a b | Check _ _ a b => no_left a /\ no_left b
  | Count a b c => no_left a /\ no_left b /\ no_left c
  | Fold first join => no_left first /\ no_fold first /\ no_fold join
  | _ => True
  end.

Lemma bind_ok {X A B} (x : res X A) (f : A -> res X B) b : bind x f = Ok b -> exists a, x = Ok a /\ f a = Ok b.
Proof. destruct x as [a|]; simpl; [eauto|discriminate]. Qed.

Ltac unbind := repeat match goal with H : bind _ _ = Ok _ |- _ => apply bind_ok in H; destruct H as (? & ? & ?) end.

Lemma valid_no_fold (n : note) : forall h ctx h', ctx_fold ctx <> None -> validate_rec n h ctx = Ok h' -> no_fold n.
Proof.
  induction n as [| | | | |a IHa|p l a IHa|a IHa b IHb|a IHa b IHb|c q a IHa b IHb|i|l a IHa| |a IHa b IHb c IHc|a IHa b IHb| |];
    intros h ctx h' Hc Hv; cbn [validate_rec no_fold] in *; auto; eauto.
  - unbind. split; eauto.
  - unbind. split; eauto.
  - unbind. split; eauto.
  - destruct (is_some (ctx_count ctx)); [discriminate|].
    apply bind_ok in Hv. destruct Hv as (h1 & H1 & Hv). apply bind_ok in Hv. destruct Hv as (h2 & H2 & Hv). apply bind_ok in Hv. destruct Hv as (h3 & H3 & Hv).
    split; [|split]; [apply IHa in H1|apply IHb in H2|apply IHc in H3]; auto.
  - destruct (ctx_fold ctx); [discriminate|congruence].
Qed.

Lemma valid_no_left (n : note) : forall h ctx h', ctx_fold ctx <> Some InFoldJoin -> validate_rec n h ctx = Ok h' -> no_left n.
Proof.
  induction n as [| | | | |a IHa|p l a IHa|a IHa b IHb|a IHa b IHb|c q a IHa b IHb|i|l a IHa| |a IHa b IHb c IHc|a IHa b IHb| |];
    intros h ctx h' Hc Hv; cbn [validate_rec no_left] in *; auto; eauto.
  - unbind. split; eauto.
  - unbind. split; eauto.
  - unbind. split; eauto.
  - destruct (is_some (ctx_count ctx)); [discriminate|].
    apply bind_ok in Hv. destruct Hv as (h1 & H1 & Hv). apply bind_ok in Hv. destruct Hv as (h2 & H2 & Hv). apply bind_ok in Hv. destruct Hv as (h3 & H3 & Hv).
    split; [|split]; [apply IHa in H1|apply IHb in H2|apply IHc in H3]; auto.
  - destruct (is_some (ctx_fold ctx)); [discriminate|].
    apply bind_ok in Hv. destruct Hv as (h1 & H1 & Hv). apply bind_ok in Hv. destruct Hv as (h2 & H2 & Hv).
    split; [|split]; [apply IHa in H1|apply valid_no_fold in H1|apply valid_no_fold in H2]; auto; simpl; congruence.
  - unfold in_join in Hv. destruct (ctx_fold ctx) as [[|]|]; congruence.
  - unfold in_join in Hv. destruct (ctx_fold ctx) as [[|]|]; congruence.
Qed.

Lemma validate_no_left (n : note) : validate n = Ok tt -> no_left n.
Proof. unfold validate. intros H. unbind. eapply valid_no_left; eauto. simpl. congruence. Qed.

Lemma no_left_bare (n : note) : no_left n -> bare_left n = false.
Proof.
  induction n as [| | | | |a IHa|p l a IHa|a IHa b IHb|a IHa b IHb|c q a IHa b IHb|i|l a IHa| |a IHa b IHb c IHc|a IHa b IHb| |]; simpl; try tauto.
  - intros [? ?]. rewrite IHa, IHb; auto.
  - intros (? & ? & ?). rewrite IHa, IHb, IHc; auto.
Qed.

Lemma no_fold_bare (n : note) : no_fold n -> no_bare_left n.
Proof. induction n; simpl; tauto. Qed.

Lemma nesting_pos (n : note) : 1 <= nesting n.
Proof. induction n; cbn [nesting]; lia. Qed.

End Shape.

Section Bound.
Context {pd : PrettyDoc} {env : Env}.
Variable q : nat.

Definition cost_of (n : nat) : nat := (1 + 4 * q) * n.
Lemma cost_S n : cost_of (S n) = 1 + 4 * q + cost_of n.
Proof. unfold cost_of. nia. Qed.
Lemma cost_1 : cost_of 1 = 1 + 4 * q.
Proof. unfold cost_of. lia. Qed.
Lemma cost_max a b : cost_of (Nat.max a b) = Nat.max (cost_of a) (cost_of b).
Proof. unfold cost_of. symmetry. apply Nat.mul_max_distr_l. Qed.
Lemma cost_mono a b : a <= b -> cost_of a <= cost_of b.
Proof. unfold cost_of. nia. Qed.
Lemma cost_add a b : cost_of (a + b) = cost_of a + cost_of b.
Proof. unfold cost_of. nia. Qed.
Lemma cost_pos n : 1 + 4 * q <= cost_of (nesting n).
Proof. rewrite <- cost_1. apply cost_mono, nesting_pos. Qed.

Ltac costs := cbn [nesting]; rewrite ?cost_S, ?cost_max, ?cost_1.
Ltac call := match goal with |- context [after (lift ?m) _] => let x := fresh "x" in destruct (lift m) as [x|]; cbn [after] end.

Lemma inspect_le d pos : inspect_calls q d pos <= 2 * q.
Proof.
  destruct pos; simpl; try lia.
  - destruct (lift _) as [[n|]|]; simpl; try lia. destruct (normalize_child_index _ _); lia.
  - destruct (dl_join d) as [jp|]; [destruct (jp_index jp)|]; lia.
Qed.

Lemma note_calls n : no_fold n -> forall lc L d, (forall d', dl_join d' = dl_join d -> lc d' <= q + L) ->
  eval_n_calls q lc n d <= cost_of (nesting n) + (if bare_left n then L else 0).
Proof.
  induction n as [| | | | |a IHa|p l a IHa|a IHa b IHb|a IHa b IHb|c pos a IHa b IHb|i|l a IHa| |a IHa b IHb c IHc|a IHa b IHb| |];
    intros Hn lc L d Hl; cbn [eval_n_calls bare_left]; cbn [no_fold] in Hn.
  1-4,13: costs; lia.
  - costs. call; [destruct x|]; lia.
  - costs. specialize (IHa Hn lc L (set_flat d) Hl). lia.
  - costs. destruct l as [l|].
    + call; [|lia]. match goal with |- context [eval_n_calls q lc a ?d'] => specialize (IHa Hn lc L d' Hl) end. lia.
    + match goal with |- context [eval_n_calls q lc a ?d'] => specialize (IHa Hn lc L d' Hl) end. lia.
  - costs. pose proof (cost_pos a). lia.
  - costs. specialize (IHa (proj1 Hn) lc L d Hl). destruct (dl_flat d); lia.
  - costs. destruct Hn as [Ha Hb]. specialize (IHa Ha lc L d Hl). specialize (IHb Hb lc L d Hl).
    pose proof (inspect_le d pos). destruct (doc_to_inspect d pos); cbn [after]; [|lia]. call; [|lia].
    destruct x; destruct (bare_left a), (bare_left b); simpl; lia.
  - costs. call; [|lia]. destruct x; [|lia]. destruct (normalize_child_index _ _); [|lia]. call; [|lia]. call; lia.
  - costs. call; [|lia]. match goal with |- context [eval_n_calls q lc a ?d'] => specialize (IHa Hn lc L d' Hl) end. lia.
  - costs. destruct Hn as (Ha & Hb & Hc). specialize (IHa Ha lc L d Hl). specialize (IHb Hb lc L d Hl). specialize (IHc Hc lc L d Hl).
    call; [|lia]. destruct x as [[|[|m]]|]; destruct (bare_left a), (bare_left b), (bare_left c); simpl; lia.
  - contradiction.
  - costs. destruct (dl_join d) eqn:Ej; [|lia]. pose proof (Hl d Ej). lia.
  - costs. destruct (dl_join d); [|lia]. call; lia.
Qed.

Variables H k : nat.
Hypothesis Hk : 1 <= k.
Notation HH := (cost_of H).

Lemma left_le f jn : no_fold f -> no_left f -> no_fold jn -> nesting f <= H -> nesting jn <= H ->
  forall m d, match dl_join d with Some jp => jp_index jp = m | None => True end ->
  left_calls q (fun h x => eval_n_calls q h f x) (fun h x => eval_n_calls q h jn x) m d <=
  q + (if bare_left jn then Nat.max 1 m else 1) * HH.
Proof.
  intros F1 F2 F3 F4 F5. pose proof (cost_mono F4). pose proof (cost_mono F5).
  induction m as [|m IH]; intros d Hd; cbn [left_calls].
  - destruct (dl_join d) as [jp|]; [|lia]. rewrite Hd. simpl. lia.
  - destruct (dl_join d) as [jp|]; [|lia]. rewrite Hd. destruct (Nat.eqb (S m) 1) eqn:E.
    + pose proof (@note_calls f F1 (fun _ => 0) 0 (set_join d None)) as Q. rewrite (no_left_bare _ F2) in Q. specialize (Q ltac:(intros; lia)).
      destruct (bare_left jn); nia.
    + call; [|lia]. match goal with |- context [eval_n_calls q ?lc jn ?d'] => pose proof (@note_calls jn F3 lc ((if bare_left jn then Nat.max 1 m else 1) * HH) d') as Q end.
      apply Nat.eqb_neq in E.
      assert (Q' : forall d', dl_join d' = Some (JoinPos (jp_parent jp) x m (jp_first jp) (jp_join jp)) ->
        left_calls q (fun h x => eval_n_calls q h f x) (fun h x => eval_n_calls q h jn x) m d' <= q + (if bare_left jn then Nat.max 1 m else 1) * HH).
      { intros d' Hd'. apply IH. rewrite Hd'. reflexivity. }
      specialize (Q Q'). destruct (bare_left jn); nia.
Qed.

(** A notation in which [Left] occurs in the [join] of folds only. *)
Lemma top_calls n : no_left n -> nesting n <= H ->
  forall lc d, (no_bare_left n \/ forall c, m_num_children (dl_doc d) = MOk (Some c) -> c <= S k) ->
  eval_n_calls q lc n d <= cost_of (nesting n) + k * HH.
Proof.
  induction n as [| | | | |a IHa|p l a IHa|a IHa b IHb|a IHa b IHb|c pos a IHa b IHb|i|l a IHa| |a IHa b IHb c IHc|a IHa b IHb| |];
    intros Hn HN lc d Hf; cbn [eval_n_calls]; cbn [no_left] in Hn; cbn [nesting] in HN; cbn [no_bare_left] in Hf.
  1-4,13: costs; lia.
  - costs. call; [destruct x|]; lia.
  - costs. specialize (IHa Hn ltac:(lia) lc (set_flat d) Hf). lia.
  - costs. destruct l as [l|].
    + call; [|lia]. match goal with |- context [eval_n_calls q lc a ?d'] => specialize (IHa Hn ltac:(lia) lc d' Hf) end. lia.
    + match goal with |- context [eval_n_calls q lc a ?d'] => specialize (IHa Hn ltac:(lia) lc d' Hf) end. lia.
  - costs. pose proof (cost_pos a). lia.
  - costs. specialize (IHa (proj1 Hn) ltac:(lia) lc d ltac:(tauto)). destruct (dl_flat d); lia.
  - costs. destruct Hn as [Ha Hb]. specialize (IHa Ha ltac:(lia) lc d ltac:(tauto)). specialize (IHb Hb ltac:(lia) lc d ltac:(tauto)).
    pose proof (inspect_le d pos). destruct (doc_to_inspect d pos); cbn [after]; [|lia]. call; [|lia].
    destruct x; lia.
  - costs. call; [|lia]. destruct x; [|lia]. destruct (normalize_child_index _ _); [|lia]. call; [|lia]. call; lia.
  - costs. call; [|lia]. match goal with |- context [eval_n_calls q lc a ?d'] => specialize (IHa Hn ltac:(lia) lc d' Hf) end. lia.
  - costs. destruct Hn as (Ha & Hb & Hc). specialize (IHa Ha ltac:(lia) lc d ltac:(tauto)). specialize (IHb Hb ltac:(lia) lc d ltac:(tauto)). specialize (IHc Hc ltac:(lia) lc d ltac:(tauto)).
    call; [|lia]. destruct x as [[|[|m]]|]; lia.
  - costs. destruct Hn as (Ha & Ha' & Hb).
    destruct (m_num_children (dl_doc d)) as [nc| |]; cbn [lift after]; try lia.
    destruct nc as [[|[|m]]|]; try lia.
    + specialize (IHa Ha ltac:(lia) lc d (or_introl (no_fold_bare _ Ha'))). lia.
    + call; [|lia]. match goal with |- context [eval_n_calls q ?lc' b ?d'] => pose proof (@note_calls b Hb lc' ((if bare_left b then S m else 1) * HH) d') as Q end.
      assert (Q' : forall d', dl_join d' = Some (JoinPos (dl_doc d) x (S m) a b) ->
        left_calls q (fun h x => eval_n_calls q h a x) (fun h x => eval_n_calls q h b x) (S m) d' <= q + (if bare_left b then S m else 1) * HH).
      { intros d' Hd'. pose proof (@left_le a b Ha' Ha Hb ltac:(lia) ltac:(lia) (S m) d') as Q'. rewrite Hd' in Q'. specialize (Q' eq_refl).
        destruct (bare_left b); [|exact Q']. replace (Nat.max 1 (S m)) with (S m) in Q' by lia. exact Q'. }
      specialize (Q Q'). destruct Hf as [Hf|Hf]; [rewrite Hf in Q; nia|]. specialize (Hf _ eq_refl). destruct (bare_left b); nia.
  - contradiction.
  - contradiction.
Qed.

Variable root : D.
Hypothesis Hdoc : shallow H k root.

Notation few x := (forall c, m_num_children x = MOk (Some c) -> c <= S k).

Definition jp_ok (jp : joinpos) : Prop :=
  nesting (jp_first jp) <= H /\ nesting (jp_join jp) <= H /\
  no_fold (jp_first jp) /\ no_left (jp_first jp) /\ no_fold (jp_join jp) /\
  (bare_left (jp_join jp) = false \/ jp_index jp <= k) /\
  reachable root (jp_parent jp) /\ child_handle (jp_parent jp) (jp_index jp) (jp_child jp).

Definition fine (d : delayed) : Prop :=
  reachable root (dl_doc d) /\ nesting (dl_note d) <= H /\
  ((no_left (dl_note d) /\ (no_bare_left (dl_note d) \/ few (dl_doc d))) \/
   (no_fold (dl_note d) /\ exists jp, dl_join d = Some jp /\ jp_ok jp)).

Lemma fine_calls d : fine d -> eval_calls q d <= (1 + 4 * q) * (H * (k + 1)).
Proof.
  intros (H1 & H2 & H3). pose proof (cost_mono H2) as HM. assert (HH * (k + 1) <= (1 + 4 * q) * (H * (k + 1))) by (unfold cost_of; nia).
  unfold eval_calls. destruct H3 as [[H3 H4]|(H3 & jp & Ej & F1 & F2 & F3 & F4 & F5 & F6 & _)].
  - pose proof (@top_calls (dl_note d) H3 H2 (left_of_calls q (dl_join d)) d H4). lia.
  - rewrite Ej. cbn [left_of_calls].
    match goal with |- eval_n_calls q ?lc _ _ <= _ => pose proof (@note_calls (dl_note d) H3 lc (k * HH) d) as Q end.
    assert (Q' : forall d', dl_join d' = dl_join d ->
      left_calls q (fun h x => eval_n_calls q h (jp_first jp) x) (fun h x => eval_n_calls q h (jp_join jp) x) (jp_index jp) d' <= q + k * HH).
    { intros d' Hd'. pose proof (@left_le _ _ F3 F4 F5 F1 F2 (jp_index jp) d') as Q'. rewrite Hd', Ej in Q'. specialize (Q' eq_refl).
      destruct F6 as [F6|F6]; [rewrite F6 in Q'; nia|]. destruct (bare_left (jp_join jp)); nia. }
    specialize (Q Q'). destruct (bare_left (dl_note d)); nia.
Qed.

Lemma lift_ok {A} (x : mres Er A) a : lift x = Ok a -> x = MOk a.
Proof. destruct x; simpl; congruence. Qed.

Lemma child_fine x n fl ind s j : reachable root x -> m_notation x = MOk n -> fine (Delayed n x fl ind s j).
Proof.
  intros Hx Hn. destruct (Hdoc Hx Hn) as (V & N & F). split; [exact Hx|]. split; [exact N|]. left. split; [|exact F]. apply validate_no_left. exact V.
Qed.

Definition lh_fine (lh : delayed -> pres cnote) (j : option joinpos) : Prop :=
  exists jp, j = Some jp /\ jp_ok jp /\
  forall d c, dl_join d = Some jp -> reachable root (dl_doc d) -> lh d = Ok c -> fine_c fine c.

Ltac evals H := repeat (let x := fresh "x" in let Hx := fresh "Hx" in apply bind_ok in H; destruct H as (x & Hx & H)).

Lemma note_fine n : no_fold n -> nesting n <= H -> forall lh d c, reachable root (dl_doc d) ->
  (no_left n \/ lh_fine lh (dl_join d)) -> eval_n lh n d = Ok c -> fine_c fine c.
Proof.
  induction n as [| | | | |a IHa|p l a IHa|a IHa b IHb|a IHa b IHb|cn pos a IHa b IHb|i|l a IHa| |a IHa b IHb c0 IHc|a IHa b IHb| |];
    intros Hn HN lh d c Hd Hm Hc; cbn [eval_n] in Hc; cbn [no_fold] in Hn; cbn [nesting] in HN; cbn [no_left] in Hm.
  1-4,13: injection Hc as <-; exact I.
  - apply bind_ok in Hc. destruct Hc as (nc & _ & Hc). destruct nc; [discriminate|]. apply bind_ok in Hc. destruct Hc as (t & _ & Hc). injection Hc as <-. exact I.
  - eapply IHa with (d := set_flat d); eauto; lia.
  - apply bind_ok in Hc. destruct Hc as (s & _ & Hc). refine (IHa Hn _ _ _ _ _ _ Hc); [lia|exact Hd|exact Hm].
  - injection Hc as <-. cbn [fine_c]. split; (split; [exact Hd|split; [simpl; lia|]]); cbn [set_note dl_note dl_doc dl_join].
    + destruct Hm as [[Ha Hb]|(jp & Ej & Hj & _)]; [left; split; auto; left; apply no_fold_bare; tauto|right; split; [tauto|eauto]].
    + destruct Hm as [[Ha Hb]|(jp & Ej & Hj & _)]; [left; split; auto; left; apply no_fold_bare; tauto|right; split; [tauto|eauto]].
  - destruct (dl_flat d); [eapply IHa; eauto; [tauto|lia|tauto]|].
    injection Hc as <-. cbn [fine_c]. split; (split; [exact Hd|split; [simpl; lia|]]); cbn [set_note dl_note dl_doc dl_join].
    + destruct Hm as [[Ha Hb]|(jp & Ej & Hj & _)]; [left; split; auto; left; apply no_fold_bare; tauto|right; split; [tauto|eauto]].
    + destruct Hm as [[Ha Hb]|(jp & Ej & Hj & _)]; [left; split; auto; left; apply no_fold_bare; tauto|right; split; [tauto|eauto]].
  - apply bind_ok in Hc. destruct Hc as (x & _ & Hc). apply bind_ok in Hc. destruct Hc as (r & _ & Hc).
    destruct r; [eapply IHa|eapply IHb]; eauto; try lia; tauto.
  - apply bind_ok in Hc. destruct Hc as (nc & H1 & Hc). destruct nc as [len|]; [|discriminate].
    destruct (normalize_child_index i len) as [m|] eqn:Ei; [|discriminate].
    apply bind_ok in Hc. destruct Hc as (x & H2 & Hc). apply bind_ok in Hc. destruct Hc as (nt & H3 & Hc).
    apply bind_ok in Hc. destruct Hc as (s & H4 & Hc). injection Hc as <-. cbn [fine_c].
    apply child_fine; [|apply lift_ok; exact H3]. eapply reach_child; [exact Hd|]. eapply ch_child; [apply lift_ok; exact H1| |apply lift_ok; exact H2].
    eapply normalize_lt; eauto.
  - apply bind_ok in Hc. destruct Hc as (s & _ & Hc). refine (IHa Hn _ _ _ _ _ _ Hc); [lia|exact Hd|exact Hm].
  - apply bind_ok in Hc. destruct Hc as (nc & _ & Hc). destruct nc as [[|[|m]]|]; [eapply IHa|eapply IHb|eapply IHc|discriminate]; eauto; try lia; tauto.
  - contradiction.
  - destruct Hm as [[]|(jp & Ej & Hj & Hl)]. rewrite Ej in Hc. eapply Hl; eauto.
  - destruct Hm as [[]|(jp & Ej & (_ & _ & _ & _ & _ & _ & Hp & Hh) & _)]. rewrite Ej in Hc.
    apply bind_ok in Hc. destruct Hc as (nt & H3 & Hc). apply bind_ok in Hc. destruct Hc as (s & H4 & Hc). injection Hc as <-. cbn [fine_c].
    apply child_fine; [|apply lift_ok; exact H3]. eapply reach_child; eauto.
Qed.

Lemma left_fine f jn : forall m d jp c, dl_join d = Some jp -> jp_ok jp -> jp_index jp = m -> jp_first jp = f -> jp_join jp = jn ->
  reachable root (dl_doc d) ->
  left_h (fun h x => eval_n h f x) (fun h x => eval_n h jn x) m d = Ok c -> fine_c fine c.
Proof.
  induction m as [|m IH]; intros d jp c Ej Hj Hi Hf Hn Hd Hc; cbn [left_h] in Hc; rewrite Ej, Hi in Hc; [discriminate|].
  destruct Hj as (F1 & F2 & F3 & F4 & F5 & F6 & F7 & F8). rewrite Hf in *. rewrite Hn in *.
  destruct (Nat.eqb (S m) 1).
  - refine (note_fine _ F3 F1 _ _ _ Hc); [exact Hd|left; exact F4].
  - apply bind_ok in Hc. destruct Hc as (x & H1 & Hc).
    eapply note_fine; [exact F5|exact F2| | |exact Hc]; [exact Hd|]. right. cbn [set_join dl_join].
    exists (JoinPos (jp_parent jp) x m f jn). split; [reflexivity|].
    assert (Hj' : jp_ok (JoinPos (jp_parent jp) x m f jn)).
    { unfold jp_ok. cbn [jp_first jp_join jp_index jp_parent jp_child]. repeat (split; [assumption|]). split; [destruct F6; [left; auto|right; lia]|].
      split; [exact F7|]. rewrite Hi in F8. eapply ch_prev; [exact F8|]. apply lift_ok. exact H1. }
    split; [exact Hj'|]. intros d' c' Hd' Hr' Hc'. eapply IH; eauto.
Qed.

Lemma top_fine n : no_left n -> nesting n <= H -> forall lh d c, reachable root (dl_doc d) ->
  (no_bare_left n \/ few (dl_doc d)) -> eval_n lh n d = Ok c -> fine_c fine c.
Proof.
  induction n as [| | | | |a IHa|p l a IHa|a IHa b IHb|a IHa b IHb|cn pos a IHa b IHb|i|l a IHa| |a IHa b IHb c0 IHc|a IHa b IHb| |];
    intros Hn HN lh d c Hd Hm Hc.
  1-5,11,13,16,17: eapply note_fine; [| |exact Hd|left; exact Hn|exact Hc]; simpl; auto.
  all: cbn [eval_n] in Hc; cbn [no_left] in Hn; cbn [nesting] in HN; cbn [no_bare_left] in Hm.
  - eapply IHa with (d := set_flat d); eauto; lia.
  - apply bind_ok in Hc. destruct Hc as (s & _ & Hc). refine (IHa Hn _ _ _ _ _ _ Hc); [lia|exact Hd|exact Hm].
  - injection Hc as <-. cbn [fine_c]. split; (split; [exact Hd|split; [simpl; lia|]]); cbn [set_note dl_note dl_doc dl_join]; left; tauto.
  - destruct (dl_flat d); [eapply IHa; eauto; [tauto|lia|tauto]|].
    injection Hc as <-. cbn [fine_c]. split; (split; [exact Hd|split; [simpl; lia|]]); cbn [set_note dl_note dl_doc dl_join]; left; tauto.
  - apply bind_ok in Hc. destruct Hc as (x & _ & Hc). apply bind_ok in Hc. destruct Hc as (r & _ & Hc).
    destruct r; [eapply IHa|eapply IHb]; eauto; try lia; tauto.
  - apply bind_ok in Hc. destruct Hc as (s & _ & Hc). refine (IHa Hn _ _ _ _ _ _ Hc); [lia|exact Hd|exact Hm].
  - apply bind_ok in Hc. destruct Hc as (nc & _ & Hc). destruct nc as [[|[|m]]|]; [eapply IHa|eapply IHb|eapply IHc|discriminate]; eauto; try lia; tauto.
  - destruct Hn as (Hn & Ha & Hb). apply bind_ok in Hc. destruct Hc as (nc & H1 & Hc). destruct nc as [[|[|m]]|]; [| | |discriminate].
    + injection Hc as <-. exact I.
    + eapply IHa; eauto; [lia|]. left. apply no_fold_bare. exact Ha.
    + apply bind_ok in Hc. destruct Hc as (x & H2 & Hc).
      eapply note_fine; [exact Hb| | | |exact Hc]; [lia|exact Hd|]. right. cbn [set_join dl_join].
      eexists. split; [reflexivity|].
      match goal with |- jp_ok ?j /\ _ => assert (Hj : jp_ok j) end.
      { unfold jp_ok. cbn [jp_first jp_join jp_index jp_parent jp_child]. split; [lia|]. split; [lia|]. repeat (split; [assumption|]).
        split; [destruct Hm as [Hm|Hm]; [left; exact Hm|right]; apply lift_ok in H1; specialize (Hm _ H1); lia|].
        split; [exact Hd|]. eapply ch_last; [apply lift_ok; exact H1|apply lift_ok; exact H2]. }
      split; [exact Hj|]. intros d' c' Hd' Hr' Hc'. eapply left_fine; eauto.
Qed.

Lemma eval_fine d c : fine d -> eval d = Ok c -> fine_c fine c.
Proof.
  intros (H1 & H2 & H3) Hc. unfold eval in Hc. destruct H3 as [[H3 H4]|(H3 & jp & Ej & Hj)].
  - eapply top_fine; eauto.
  - eapply note_fine; [exact H3|exact H2|exact H1| |exact Hc]. right. exists jp. split; [exact Ej|]. split; [exact Hj|].
    intros d' c' Hd' Hr' Hc'. rewrite Ej in Hc'. eapply left_fine; eauto.
Qed.

Lemma root_fine st d : with_optional_style root st = Ok d -> fine d.
Proof.
  unfold with_optional_style. intros Hd. apply bind_ok in Hd. destruct Hd as (n & H1 & Hd). apply bind_ok in Hd. destruct Hd as (s & H2 & Hd).
  injection Hd as <-. apply child_fine; [constructor|apply lift_ok; exact H1].
Qed.

End Bound.
