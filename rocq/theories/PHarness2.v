(** The generated notations of the oracle test (C72). *)
From Verif Require Export PHarness Properties30.

Set Implicit Arguments.

#[export] Instance simple_ideq : IdEq simple_doc.
Proof. intros a b. apply Nat.eqb_eq. Qed.

(** The tree of a [SimpleDoc]. *)
Definition simple_tree (x : notation unit unit) : @rdoc simple_doc :=
  @RBranch simple_doc (@Info simple_doc 0 x tt (fun _ => tt) (fun _ => false)) [].

Section Simple.
#[local] Existing Instance simple_doc.

Lemma simple_rep (x : notation unit unit) : rep (simple_tree x) (x : D).
Proof.
  apply RepBranch.
  - constructor; reflexivity.
  - reflexivity.
  - intros n Hn. inversion Hn.
  - intros H. congruence.
  - intros n y Hn. inversion Hn.
  - intros n c k _ H. destruct n; discriminate.
Qed.

Lemma simple_valid x : validate x = Ok tt -> valid_doc (simple_tree x).
Proof. intros H. constructor; [exact H|]. intros k []. Qed.

Lemma simple_node x q y : node_at (simple_tree x) q = Some y -> q = [] /\ y = simple_tree x.
Proof. destruct q as [|[|n] q]; cbn; [intros [= <-]; auto|discriminate|discriminate]. Qed.

Lemma simple_unique x : unique_ids (id_at (simple_tree x)).
Proof.
  intros p q j Hp Hq. unfold id_at in *.
  destruct (node_at (simple_tree x) p) eqn:E1; [|discriminate]. destruct (node_at (simple_tree x) q) eqn:E2; [|discriminate].
  apply simple_node in E1 as [-> _]. apply simple_node in E2 as [-> _]. reflexivity.
Qed.

Lemma made_views text m k x lr : made_of k x -> forall l, In l (note_views text m x lr) -> l = [].
Proof.
  induction 1; cbn [note_views]; intros l1 Hl;
    try (destruct Hl as [<-|[]]; reflexivity); auto.
  - cbn [flat_map] in Hl. rewrite app_nil_r in Hl. apply in_map_iff in Hl as (z & <- & Hz). apply IHmade_of. exact Hz.
  - apply in_flat_map in Hl as (v & Hv & Hl). apply in_map_iff in Hl as (z & <- & Hz). rewrite (IHmade_of1 _ Hv), (IHmade_of2 _ Hz). reflexivity.
  - apply in_app_iff in Hl as [Hl|Hl]; auto.
Qed.

Lemma simple_once k x : made_of k x -> all_once (simple_tree x).
Proof.
  intros Hx q y Hy. apply simple_node in Hy as [_ ->]. unfold shows_once. cbn. intros l Hl.
  assert (E : l = []) by (eapply made_views; eauto). subst l. constructor.
Qed.

Lemma made_reach k x fs y o n : made_of k x -> reach (simple_tree x) fs y o n -> y = simple_tree x /\ o = None /\ exists k, made_of k n.
Proof.
  intros Hx. induction 1; try (destruct IHreach as (-> & E & k' & Hk)); try (inversion Hk; subst; eauto 10; fail).
  - split; [reflexivity|]. split; [reflexivity|]. exists k. exact Hx.
  - inversion Hk; subst. split; [reflexivity|]. split; [reflexivity|]. eexists. apply made_concat; [apply made_newline|eassumption].
Qed.

Lemma simple_matched k x : made_of k x -> matched (simple_tree x).
Proof. intros Hx fs y o n H. apply (made_reach Hx) in H as (-> & _ & k' & Hk). inversion Hk; reflexivity. Qed.

Lemma made_childless k x : made_of k x -> childless x = true.
Proof. induction 1; cbn [childless]; rewrite ?andb_true_iff; auto. Qed.

Lemma made_texts k (x : notation unit unit) : made_of k x ->
  Forall (fun t => In t [[97%N]; [98%N; 98%N]; [99%N; 99%N; 99%N; 99%N]]) (note_literals x).
Proof.
  induction 1; cbn [note_literals]; auto; try (repeat constructor; cbn; auto; fail); apply Forall_app; auto.
Qed.

Lemma simple_texts k x : made_of k x ->
  Forall (fun t => In t [[97%N]; [98%N; 98%N]; [99%N; 99%N; 99%N; 99%N]]) (doc_texts (simple_tree x)).
Proof. intros H. cbn [doc_texts simple_tree flat_map i_note]. rewrite app_nil_r. apply (made_texts H). Qed.

(** ** How wide the lines are *)
Section Bound.
Variables (uw : str -> N) (cf : char -> bool).
Hypothesis Hadd : widths_add_up uw.
Hypothesis Ha : uw [97%N] = 1%N.
Hypothesis Hb : uw [98%N] = 1%N.
Hypothesis Hc : uw [99%N] = 1%N.
Hypothesis Hs : uw [32%N] = 1%N.
#[local] Instance renv : Env := Build_Env uw cf false.

Lemma uw2 a b : uw [a; b] = (uw [a] + uw [b])%N.
Proof. apply (Hadd [a] [b]). Qed.
Lemma uw_bb : uw [98%N; 98%N] = 2%N.
Proof. transitivity (1 + 1)%N; [rewrite uw2; f_equal; exact Hb|reflexivity]. Qed.
Lemma uw_sp : uw [32%N; 32%N] = 2%N.
Proof. transitivity (1 + 1)%N; [rewrite uw2; f_equal; exact Hs|reflexivity]. Qed.
Lemma uw_cccc : uw [99%N; 99%N; 99%N; 99%N] = 4%N.
Proof.
  assert (E : uw [99%N; 99%N] = 2%N) by (transitivity (1 + 1)%N; [rewrite uw2; f_equal; exact Hc|reflexivity]).
  transitivity (2 + 2)%N; [|reflexivity]. rewrite <- E at 1 2. apply (Hadd [99%N; 99%N] [99%N; 99%N]).
Qed.

Lemma text_width t : In t [[97%N]; [98%N; 98%N]; [99%N; 99%N; 99%N; 99%N]] -> (0 < str_width t /\ str_width t <= 4)%N.
Proof.
  unfold str_width. cbn [usize_width renv]. intros [<-|[<-|[<-|[]]]]; rewrite ?Ha, ?uw_bb, ?uw_cccc; unfold U16; cbn; lia.
Qed.

Fixpoint texts_width (es : list event) : N :=
  match es with
  | [] => 0
  | EText _ t :: es' => (uw (tx_str t) + texts_width es')%N
  | _ :: es' => texts_width es'
  end.

Lemma texts_width_app a b : texts_width (a ++ b) = (texts_width a + texts_width b)%N.
Proof. induction a as [|[] a IH]; cbn [app texts_width]; rewrite ?IH; lia. Qed.

Definition segs_width (l : list segment) : N := uw (segs_to_string l).

Lemma segs_width_app a b : segs_width (a ++ b) = (segs_width a + segs_width b)%N.
Proof. unfold segs_width. rewrite segs_app'. apply Hadd. Qed.

Lemma lines_bound B (es : list event) : (forall ind, In (ENewline ind) es -> (segs_width (rev ind) <= B)%N) ->
  forall cur l, In l (lines_from cur es) -> (segs_width l <= N.max (segs_width cur) B + texts_width es)%N.
Proof.
  induction es as [|e es IH]; intros H cur l Hl.
  - cbn in *. destruct Hl as [<-|[]]. lia.
  - assert (H' : forall ind, In (ENewline ind) es -> (segs_width (rev ind) <= B)%N) by (intros; apply H; right; auto).
    destruct e; cbn [lines_from texts_width] in *; try (apply (IH H') in Hl; lia).
    + apply (IH H') in Hl. rewrite segs_width_app in Hl.
      assert (E : segs_width [text_seg t] = uw (tx_str t)) by (unfold segs_width, segs_to_string; cbn; rewrite app_nil_r; reflexivity). lia.
    + destruct Hl as [<-|Hl]; [lia|]. apply (IH H') in Hl. specialize (H ind (or_introl eq_refl)). lia.
Qed.

Lemma made_bound k x : made_of k x -> forall self kids fe c w j lk p es p',
  rend w (elab_note self kids x fe c) j lk p = Some (es, p') ->
  (texts_width es <= 4 * N.of_nat k)%N /\
  forall ind, In (ENewline ind) es -> (segs_width (rev ind) <= segs_width (rev (x_ind c)) + 2 * N.of_nat k)%N.
Proof.
  assert (T : forall t j p es p', obind (text_pos p t) (fun p' => Some ([EText j t], p')) = Some (es, p') -> es = [EText j t]).
  { intros t j p es p'. destruct (text_pos p t); [|discriminate]. cbn. congruence. }
  assert (Nl : forall ind es p', obind (indent_pos ind) (fun p' => Some ([ENewline ind], p')) = Some (es, p') -> es = [ENewline ind]).
  { intros ind es p'. destruct (indent_pos ind); [|discriminate]. cbn. congruence. }
  induction 1 as [| | | | | |k x Hx IH|k x Hx IH|k l x y Hx IHx Hy IHy|k l x y Hx IHx Hy IHy]; intros self kids fe c w j lk p es p' Hr; cbn [elab_note] in Hr.
  - injection Hr as <- <-. split; [cbn; lia|intros ? []].
  - cbn [rend] in Hr. apply Nl in Hr as ->. split; [cbn; lia|]. intros ind [[= <-]|[]]. lia.
  - injection Hr as <- <-. split; [cbn; lia|intros ? [[=]|[]]].
  - apply T in Hr as ->. cbn [texts_width tx_str]. rewrite Ha. split; [lia|intros ? [[=]|[]]].
  - apply T in Hr as ->. cbn [texts_width tx_str]. rewrite uw_bb. split; [lia|intros ? [[=]|[]]].
  - apply T in Hr as ->. cbn [texts_width tx_str]. rewrite uw_cccc. split; [lia|intros ? [[=]|[]]].
  - apply IH in Hr as [H1 H2]. split; [lia|]. intros ind Hi. specialize (H2 ind Hi). cbn [x_ind in_flat] in H2. lia.
  - cbn [rend option_map] in Hr.
    assert (W : segs_width (rev (x_ind (in_indent [32%N; 32%N] None c))) = (segs_width (rev (x_ind c)) + 2)%N).
    { cbn [x_ind in_indent rev]. rewrite segs_width_app. f_equal. unfold segs_width, segs_to_string. cbn. apply uw_sp. }
    destruct (indent_pos (x_ind (in_indent [32%N; 32%N] None c))) as [p1|]; [|discriminate]. cbn [obind] in Hr.
    destruct (rend w (elab_note self kids x fe (in_indent [32%N; 32%N] None c)) j lk p1) as [[e2 p2]|] eqn:E; [|discriminate].
    injection Hr as <- <-. apply IH in E as [H1 H2]. split; [cbn [app texts_width]; lia|]. intros ind [[= <-]|Hi]; [change (segs_width (rev (x_ind (in_indent [32%N; 32%N] None c))) <= segs_width (rev (x_ind c)) + 2 * N.of_nat (1 + k))%N; lia|specialize (H2 ind Hi); lia].
  - cbn [rend] in Hr. destruct (rend w (elab_note self kids x fe c) j _ p) as [[e1 p1]|] eqn:E1; [|discriminate]. cbn [obind] in Hr.
    destruct (rend w (elab_note self kids y fe c) j lk p1) as [[e2 p2]|] eqn:E2; [|discriminate]. injection Hr as <- <-.
    apply IHx in E1 as [H1 H2]. apply IHy in E2 as [H3 H4]. rewrite texts_width_app. split; [lia|].
    intros ind Hi. apply in_app_iff in Hi as [Hi|Hi]; [specialize (H2 _ Hi)|specialize (H4 _ Hi)]; lia.
  - assert (G : forall b : bool, rend w (if b then elab_note self kids x fe c else elab_note self kids y fe c) j lk p = Some (es, p') ->
      (texts_width es <= 4 * N.of_nat (1 + k + l))%N /\
      (forall ind, In (ENewline ind) es -> (segs_width (rev ind) <= segs_width (rev (x_ind c)) + 2 * N.of_nat (1 + k + l))%N)).
    { intros [] E; [apply IHx in E as [H1 H2]|apply IHy in E as [H1 H2]]; (split; [lia|]); intros ind Hi; specialize (H2 ind Hi); lia. }
    destruct (x_flat c); [apply (G true); exact Hr|]. cbn [rend] in Hr.
    destruct (head_fails _); [discriminate|]. destruct (picks_first _ _ _ _) as [f|]; [|discriminate]. cbn [obind] in Hr.
    apply (G f). destruct f; exact Hr.
Qed.

Lemma simple_lines k x w fl downs : made_of k x -> validate x = Ok tt -> (4 + 6 * N.of_nat k + 10000 < 65536)%N ->
  printed (x : D) w [] FStart None [] fl downs ->
  Forall (fun l => uw (segs_to_string l) <= 6 * N.of_nat k)%N (all_lines [] fl downs).
Proof.
  intros Hx Hv Hk Hp. destruct (C01_printed_has_layout (simple_rep x) (simple_valid _ Hv) (eq_refl : is_text_target FStart = false) Hp) as (es & Hes & ->).
  unfold layout, doc_shape in Hes. destruct (rend _ _ _ _ _) as [[es' p']|] eqn:E; [|discriminate]. injection Hes as <-.
  rewrite elab_eq in E. cbn [simple_tree r_info i_note] in E. destruct (made_bound Hx _ _ _ _ _ _ _ _ E) as [H1 H2].
  apply Forall_forall. intros l Hl. cbn [root_ctx x_ind rev] in H2.
  assert (Z : segs_width [] = 0%N) by apply (uw_nil Hadd). rewrite Z in H2.
  pose proof (@lines_bound (2 * N.of_nat k) es') as G. specialize (G ltac:(intros ind Hi; specialize (H2 ind Hi); lia) [] l Hl).
  rewrite Z in G. unfold segs_width in G. lia.
Qed.
End Bound.
End Simple.
