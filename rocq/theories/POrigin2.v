(** Evaluated notations are made of literals, indentations and texts. *)
From Verif Require Export POrigin PCalls2.

Set Implicit Arguments.

Section Origin2.
Context {pd : PrettyDoc} {env : Env}.
Variable doc : D.
Variable ft : focus_target.
Variable st : option Sty.

Notation okg := (from_document doc ft st).
Definition here (n : note) : Prop := exists x m, reachable doc x /\ m_notation x = MOk m /\ inside n m.
Definition ok_j (j : option joinpos) : Prop :=
  match j with
  | None => True
  | Some jp => reachable doc (jp_parent jp) /\ child_handle (jp_parent jp) (jp_index jp) (jp_child jp) /\ here (jp_first jp) /\ here (jp_join jp)
  end.
Definition base (d : delayed) : Prop :=
  reachable doc (dl_doc d) /\ has_style doc st (dl_doc d) (dl_style d) /\ Forall okg (dl_indent d) /\ ok_j (dl_join d).
Definition okd (d : delayed) : Prop := base d /\ here (dl_note d).
Definition okt (t : textual) : Prop := okg (seg_of t).
Definition okt0 (t : textual) : Prop := okt t /\ (tx_from_text t = true -> in_text doc (tx_str t)).
Notation okc := (ok_c okd okg okt0).

Lemma inside_trans {L C} (a b c : notation L C) : inside a b -> inside b c -> inside a c.
Proof. intros H. induction 1; [exact H|apply inside_flat|apply inside_indent|apply inside_left|apply inside_right|apply inside_first|apply inside_second|apply inside_then|apply inside_else|apply inside_style|apply inside_zero|apply inside_one|apply inside_many|apply inside_fold_first|apply inside_fold_join]; assumption. Qed.
Lemma here_in a n : here n -> inside a n -> here a.
Proof. intros (x & m & H1 & H2 & H3) H. exists x, m. split; [exact H1|]. split; [exact H2|]. eapply inside_trans; eauto. Qed.

Definition lh_good (lh : delayed -> pres cnote) (j : option joinpos) : Prop :=
  forall d c, dl_join d = j -> base d -> lh d = Ok c -> okc c.
Definition note_good (n : note) : Prop :=
  forall lh d c, here n -> base d -> lh_good lh (dl_join d) -> eval_n lh n d = Ok c -> okc c.

Lemma left_good f jn : note_good f -> note_good jn -> forall m d jp c,
  dl_join d = Some jp -> base d -> jp_index jp = m -> jp_first jp = f -> jp_join jp = jn ->
  left_h (fun h x => eval_n h f x) (fun h x => eval_n h jn x) m d = Ok c -> okc c.
Proof.
  intros Gf Gj. induction m as [|m IH]; intros d jp c Ej Hd Hi Hf Hn Hc; cbn [left_h] in Hc; rewrite Ej, Hi in Hc; [discriminate|].
  destruct Hd as (D1 & D2 & D3 & D4). rewrite Ej in D4. cbn [ok_j] in D4. destruct D4 as (J1 & J2 & J3 & J4). rewrite Hf in J3. rewrite Hn in J4.
  destruct (Nat.eqb (S m) 1).
  - refine (Gf _ _ _ J3 _ _ Hc); [repeat split; auto|]. intros d' c' _ _ H. discriminate.
  - apply bind_ok in Hc. destruct Hc as (x & H1 & Hc). refine (Gj _ _ _ J4 _ _ Hc).
    + split; [exact D1|]. split; [exact D2|]. split; [exact D3|]. cbn [set_join dl_join ok_j jp_parent jp_child jp_index jp_first jp_join].
      split; [exact J1|]. split; [eapply ch_prev; [rewrite <- Hi; exact J2|apply lift_ok; exact H1]|]. rewrite Hf, Hn. auto.
    + intros d' c' Hd' Hb' Hc'. cbn [set_join dl_join] in Hd'. eapply IH; [exact Hd'|exact Hb'|reflexivity|exact Hf|exact Hn|exact Hc'].
Qed.

Lemma eval_n_good n : note_good n.
Proof.
  induction n as [| | |s| |a IHa|p l a IHa|a IHa b IHb|a IHa b IHb|cn pos a IHa b IHb|i|l a IHa| |a IHa b IHb c0 IHc|a IHa b IHb| |];
    intros lh d c Hn Hd Hl Hc; cbn [eval_n] in Hc; pose proof Hd as (D1 & D2 & D3 & D4).
  - injection Hc as <-. exact I.
  - injection Hc as <-. exact D3.
  - injection Hc as <-. exact I.
  - injection Hc as <-. split; [|discriminate]. constructor; [reflexivity| |eexists; exact D2].
    left. destruct Hn as (x & m & N1 & N2 & N3). exists x, m. auto.
  - apply bind_ok in Hc. destruct Hc as (nc & Hnc & Hc). destruct nc; [discriminate|]. apply bind_ok in Hc. destruct Hc as (t & Ht & Hc). injection Hc as <-.
    assert (X : in_text doc t) by (exists (dl_doc d); split; [exact D1|]; split; apply lift_ok; assumption).
    split; [|intros _; exact X]. constructor; [reflexivity|right; left; exact X|eexists; exact D2].
  - refine (IHa _ (set_flat d) _ (here_in Hn (inside_flat (inside_itself a))) _ Hl Hc). exact Hd.
  - apply bind_ok in Hc. destruct Hc as (s & Hs & Hc).
    refine (IHa _ (set_indent d _) _ (here_in Hn (inside_indent p l (inside_itself a))) _ Hl Hc).
    split; [exact D1|]. split; [exact D2|]. split; [|exact D4]. cbn [set_indent dl_indent]. constructor; [|exact D3].
    constructor; cbn [seg_width seg_str seg_style]; [reflexivity| |].
    + left. destruct Hn as (x & m & N1 & N2 & N3). exists x, m. split; [exact N1|]. split; [exact N2|]. right. exists l, a. exact N3.
    + destruct l as [l|]; [|injection Hs as <-; eexists; exact D2]. apply bind_ok in Hs. destruct Hs as (ls & Hls & Hs). injection Hs as <-.
      eexists. eapply style_label; [exact D2|apply lift_ok; exact Hls].
  - injection Hc as <-. split; (split; [exact Hd|]); (eapply here_in; [exact Hn|]); [apply inside_left|apply inside_right]; constructor.
  - destruct (dl_flat d).
    + exact (IHa _ _ _ (here_in Hn (inside_first b (inside_itself a))) Hd Hl Hc).
    + injection Hc as <-. split; (split; [exact Hd|]); (eapply here_in; [exact Hn|]); [apply inside_first|apply inside_second]; constructor.
  - apply bind_ok in Hc. destruct Hc as (x & _ & Hc). apply bind_ok in Hc. destruct Hc as (r & _ & Hc).
    destruct r; [refine (IHa _ _ _ _ Hd Hl Hc)|refine (IHb _ _ _ _ Hd Hl Hc)]; (eapply here_in; [exact Hn|]); [apply inside_then|apply inside_else]; constructor.
  - apply bind_ok in Hc. destruct Hc as (nc & H1 & Hc). destruct nc as [len|]; [|discriminate].
    destruct (normalize_child_index i len) as [m|] eqn:Ei; [|discriminate].
    apply bind_ok in Hc. destruct Hc as (x & H2 & Hc). apply bind_ok in Hc. destruct Hc as (nt & H3 & Hc).
    apply bind_ok in Hc. destruct Hc as (s & H4 & Hc). injection Hc as <-. apply lift_ok in H1, H2, H3, H4.
    assert (Hx : reachable doc x).
    { eapply reach_child; [exact D1|]. eapply ch_child; [exact H1| |exact H2]. eapply normalize_lt; eauto. }
    split; [split; [exact Hx|split; [eapply style_child; eauto|split; assumption]]|]. exists x, nt. split; [exact Hx|]. split; [exact H3|constructor].
  - apply bind_ok in Hc. destruct Hc as (s & Hs & Hc). refine (IHa _ (set_style d _) _ (here_in Hn (inside_style l (inside_itself a))) _ Hl Hc).
    split; [exact D1|]. split; [|split; assumption]. cbn [set_style dl_style dl_doc]. eapply style_label; [exact D2|apply lift_ok; exact Hs].
  - injection Hc as <-. exact I.
  - apply bind_ok in Hc. destruct Hc as (nc & _ & Hc). destruct nc as [[|[|m]]|]; [refine (IHa _ _ _ _ Hd Hl Hc)|refine (IHb _ _ _ _ Hd Hl Hc)|refine (IHc _ _ _ _ Hd Hl Hc)|discriminate];
      (eapply here_in; [exact Hn|]); [apply inside_zero|apply inside_one|apply inside_many]; constructor.
  - assert (Ha : here a) by (eapply here_in; [exact Hn|]; apply inside_fold_first; constructor).
    assert (Hb : here b) by (eapply here_in; [exact Hn|]; apply inside_fold_join; constructor).
    apply bind_ok in Hc. destruct Hc as (nc & H1 & Hc). destruct nc as [[|[|m]]|]; [injection Hc as <-; exact I|exact (IHa _ _ _ Ha Hd Hl Hc)| |discriminate].
    apply bind_ok in Hc. destruct Hc as (x & H2 & Hc). refine (IHb _ _ _ Hb _ _ Hc).
    + split; [exact D1|]. split; [exact D2|]. split; [exact D3|]. cbn [set_join dl_join ok_j jp_parent jp_child jp_index jp_first jp_join].
      split; [exact D1|]. split; [eapply ch_last; [apply lift_ok; exact H1|apply lift_ok; exact H2]|]. auto.
    + intros d' c' Hd' Hb' Hc'. cbn [set_join dl_join] in Hd'. eapply (left_good IHa IHb); [exact Hd'|exact Hb'|reflexivity|reflexivity|reflexivity|exact Hc'].
  - destruct (dl_join d) as [jp|] eqn:Ej; [|discriminate]. eapply Hl; [exact Ej|exact Hd|exact Hc].
  - destruct (dl_join d) as [jp|] eqn:Ej; [|discriminate]. destruct D4 as (J1 & J2 & J3 & J4).
    apply bind_ok in Hc. destruct Hc as (nt & H3 & Hc). apply bind_ok in Hc. destruct Hc as (s & H4 & Hc). injection Hc as <-. apply lift_ok in H3, H4.
    assert (Hx : reachable doc (jp_child jp)) by (eapply reach_child; eauto).
    split; [split; [exact Hx|split; [eapply style_child; eauto|split; [exact D3|exact I]]]|]. exists (jp_child jp), nt. split; [exact Hx|]. split; [exact H3|constructor].
Qed.

Lemma eval_okd d c : okd d -> eval d = Ok c -> okc c.
Proof.
  intros [Hd Hn] Hc. unfold eval in Hc. refine (@eval_n_good _ _ _ _ Hn Hd _ Hc).
  intros d' c' Ed Hd' Hc'. destruct (dl_join d) as [jp|] eqn:Ej; [|discriminate]. cbn [left_of] in Hc'.
  eapply (@left_good (jp_first jp) (jp_join jp)); [apply eval_n_good|apply eval_n_good|exact Ed|exact Hd'|reflexivity|reflexivity|reflexivity|exact Hc'].
Qed.
Lemma root_okd d : with_optional_style doc st = Ok d -> okd d.
Proof.
  unfold with_optional_style. intros Hd. apply bind_ok in Hd. destruct Hd as (n & H1 & Hd). apply bind_ok in Hd. destruct Hd as (s & H2 & Hd).
  injection Hd as <-. apply lift_ok in H1, H2. split.
  - split; [constructor|]. split; [apply style_root; exact H2|]. split; [constructor|exact I].
  - exists doc, n. split; [constructor|]. split; [exact H1|constructor].
Qed.
Lemma split_okt k : ft = FText k -> forall t, okt0 t -> tx_from_text t = true -> okt (fst (split_at t k)) /\ okt (snd (split_at t k)).
Proof.
  intros Hft t [[_ _ H3] H] Ht. specialize (H Ht).
  split; (constructor; [reflexivity| |exact H3]); right; right; exists k, (tx_str t); (split; [exact Hft|]); (split; [exact H|]); [left|right]; reflexivity.
Qed.

Notation okp := (ok_p okd okg okt).
Theorem pretty_print_origin n w path up fl down : pretty_print n doc w path ft st = Ok (up, fl, down) ->
  okp up /\ okp down /\ Forall okg (left_segments fl) /\ Forall okg (right_segments fl).
Proof.
  apply (@pretty_print_good pd env okd okg okt0 eval_okd okt (fun t H => proj1 H) (fun t H => H) doc st root_okd ft split_okt).
Qed.
Theorem next_origin (next : nat -> printer -> printer * pres (option line)) n p : next = up_next_left \/ next = down_next_left ->
  okp p -> okp (fst (next n p)) /\ forall l, snd (next n p) = Ok (Some l) -> Forall okg l.
Proof.
  intros Hn Hp.
  assert (X : goodl (next n p) okp (fun ol => forall l, ol = Some l -> Forall okg l)).
  { destruct Hn as [-> | ->]; [apply (@up_left_good pd env okd okg okt0 eval_okd okt (fun t H => proj1 H) (fun t H => H) n p Hp)
      |apply (@down_left_good pd env okd okg okt0 eval_okd okt (fun t H => proj1 H) (fun t H => H) n p Hp)]. }
  destruct X as [X1 X2]. split; [exact X1|]. intros l Hl. exact (X2 _ Hl l eq_refl).
Qed.
Theorem next_line_origin n p p' ol : okp p -> print_next_line n p = Ok (p', ol) -> okp p' /\ forall l, ol = Some l -> Forall okg l.
Proof. intros Hp H. exact (@next_line_good pd env okd okg okt0 eval_okd okt (fun t H => proj1 H) (fun t H => H) n p Hp _ H). Qed.
Theorem prev_line_origin n p p' ol : okp p -> print_prev_line n p = Ok (p', ol) -> okp p' /\ forall l, ol = Some l -> Forall okg l.
Proof. intros Hp H. exact (@prev_line_good pd env okd okg okt0 eval_okd okt (fun t H => proj1 H) (fun t H => H) n p Hp _ H). Qed.
End Origin2.
