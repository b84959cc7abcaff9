(** The texts of errors, positions and sizes (C69).  Vocabulary: SpecShow. *)
From Verif Require Export PShow.
From Coq Require Import String.

Set Implicit Arguments.

(** Numbers are written in decimal, and each number has one numeral. *)
Theorem C69_decimal n : numeral (show_N n) n /\ forall s m, numeral s n -> numeral s m -> m = n.
Proof. split; [apply show_N_numeral|]. intros s m H1 H2. eapply numeral_det; eauto. Qed.

(** A signed number. *)
Definition integer (s : str) (z : Z) : Prop :=
  (0 <= z /\ numeral s (Z.to_N z))%Z \/ (z < 0 /\ exists s', s = 45%N :: s' /\ numeral s' (Z.to_N (- z)))%Z.

Lemma show_Z_integer z : integer (show_Z z) z.
Proof.
  destruct z as [|p|p]; cbn [show_Z].
  - left. split; [lia|]. apply show_N_numeral.
  - left. split; [lia|]. apply show_N_numeral.
  - right. split; [lia|]. exists (show_N (N.pos p)). split; [reflexivity|]. apply show_N_numeral.
Qed.

Section Messages.
Context {E W : Type}.
Variables (show_error : E -> str) (show_window_error : W -> str).

(** The message of a printing error names the numbers that it is about. *)
Theorem C69_names_numbers :
  (forall i, exists s, numeral s (N.of_nat i) /\
     printing_message show_error (InvalidPath i) = chars "Pretty printing path invalid at child index " ++ s ++ chars ".") /\
  (forall i len, exists s t, integer s i /\ numeral t (N.of_nat len) /\
     printing_message show_error (ChildIndexOutOfBounds i len) =
     chars "Notation/doc mismatch: Notation was Child(" ++ s ++ chars ") but doc node only had " ++ t ++ chars " children.") /\
  (forall i len, exists s t, integer s i /\ numeral t (N.of_nat len) /\
     printing_message show_error (CheckPosChildIndexOutOfBounds i len) =
     chars "Notation/doc mismatch: Notation contained CheckPos::Child(" ++ s ++ chars ") but doc node only had " ++ t ++ chars " children.").
Proof.
  split; [|split].
  - intros i. exists (show_nat i). split; [apply show_N_numeral|reflexivity].
  - intros i len. exists (show_Z i), (show_nat len). split; [apply show_Z_integer|]. split; [apply show_N_numeral|reflexivity].
  - intros i len. exists (show_Z i), (show_nat len). split; [apply show_Z_integer|]. split; [apply show_N_numeral|reflexivity].
Qed.

(** Different printing errors have different messages (if the document's own do). *)
Theorem C69_printing_errors_distinct :
  (forall e e', show_error e = show_error e' -> e = e') ->
  forall x y : perr E, printing_message show_error x = printing_message show_error y -> x = y.
Proof. intros H x y. apply message_distinct. exact H. Qed.

(** So have different pane errors. *)
Theorem C69_pane_errors_distinct :
  (forall e e', show_error e = show_error e' -> e = e') ->
  (forall e e', show_window_error e = show_window_error e' -> e = e') ->
  forall x y : pane_err W E,
    pane_message show_error show_window_error x = pane_message show_error show_window_error y -> x = y.
Proof.
  intros He Hw x y. destruct x, y; cbn [pane_message]; intros H; try reflexivity; try discriminate H.
  - apply app_inv_head in H. f_equal. auto.
  - apply app_inv_head in H. f_equal. eapply message_distinct; eauto.
Qed.

Lemma line_app a b : single_line a -> single_line b -> single_line (a ++ b).
Proof. intros Ha Hb H. apply in_app_or in H as [H|H]; [exact (Ha H)|exact (Hb H)]. Qed.
Lemma line_num n : single_line (show_N n).
Proof.
  intros H. pose proof (numeral_digits (show_N_numeral n)) as Hd. rewrite forallb_forall in Hd. apply Hd in H. discriminate.
Qed.
Lemma line_int z : single_line (show_Z z).
Proof.
  destruct z; [apply line_num..|]. intros [H|H]; [discriminate|]. eapply line_num; eauto.
Qed.
Lemma line_const s : forallb (fun c => negb (c =? 10)%N) s = true -> single_line s.
Proof. intros H Hin. rewrite forallb_forall in H. apply H in Hin. discriminate. Qed.

(** Messages are single lines (if the document's and the window's are). *)
Theorem C69_single_line :
  (forall e, single_line (show_error e)) -> (forall e, single_line (show_window_error e)) ->
  (forall x, single_line (printing_message show_error x)) /\
  (forall x, single_line (pane_message show_error show_window_error x)).
Proof.
  intros He Hw.
  assert (Hp : forall x, single_line (printing_message show_error x)).
  { intros x. destruct x; cbn [printing_message];
      repeat (apply line_app || apply He || apply line_num || apply line_int); try (apply line_const; reflexivity). }
  split; [exact Hp|]. intros x. destruct x; cbn [pane_message];
    repeat (apply line_app || apply Hp || apply Hw); try (apply line_const; reflexivity).
Qed.
End Messages.

(** Two flaws of notations with the same message are the same, up to the index of a child. *)
Theorem C69_notation_errors_distinct x y : notation_message x = notation_message y ->
  x = y \/ (exists i j, x = CountOneChildIndex i /\ y = CountOneChildIndex j) \/
  (exists i j, x = CountOneCheckPosChildIndex i /\ y = CountOneCheckPosChildIndex j).
Proof. destruct x, y; intros H; try discriminate H; eauto 10. Qed.

Theorem C69_notation_single_line x : single_line (notation_message x).
Proof. destruct x; apply line_const; reflexivity. Qed.

(** The errors that validation reports. *)
Lemma pos_index ctx p e : validate_pos ctx p = Fail (FErr e) -> forall i, e = CountOneCheckPosChildIndex i -> normalize_child_index i 1 = None.
Proof.
  intros H i ->. destruct p; cbn [validate_pos] in H; try discriminate.
  - destruct (count_is ctx CZero); [discriminate|]. destruct (count_is ctx COne && negb (is_some (normalize_child_index i0 1))) eqn:E; [|discriminate].
    injection H as <-. apply andb_prop in E as [_ E]. destruct (normalize_child_index i0 1); [discriminate|reflexivity].
  - destruct (in_join ctx); discriminate.
  - destruct (in_join ctx); discriminate.
Qed.

Lemma validate_index {L C : Type} (n : notation L C) : forall h ctx e, validate_rec n h ctx = Fail (FErr e) ->
  forall i, e = CountOneChildIndex i \/ e = CountOneCheckPosChildIndex i -> normalize_child_index i 1 = None.
Proof.
  induction n as [| | |s| |n IH|p l n IH|n1 IH1 n2 IH2|n1 IH1 n2 IH2|c p n1 IH1 n2 IH2|i0|l n IH| |z IHz o IHo m IHm|f IHf j IHj| |];
    intros h ctx e H i He; cbn [validate_rec bind] in H; try discriminate H.
  - destruct (h_eol h); [injection H as <-; destruct He; discriminate|discriminate].
  - destruct (is_some (ctx_count ctx)); [injection H as <-; destruct He; discriminate|].
    destruct (is_some (ctx_fold ctx)); [injection H as <-; destruct He; discriminate|].
    destruct (h_eol h); [injection H as <-; destruct He; discriminate|discriminate].
  - eauto.
  - eauto.
  - destruct (validate_rec n1 h ctx) as [h1|f] eqn:E1; cbn [bind] in H; [eauto|]. injection H as ->. eauto.
  - destruct (validate_rec n1 h ctx) as [h1|f] eqn:E1; cbn [bind] in H; [|injection H as ->; eauto].
    destruct (validate_rec n2 h ctx) as [h2|f] eqn:E2; cbn [bind] in H; [discriminate|injection H as ->; eauto].
  - destruct (validate_pos ctx p) as [u|f] eqn:E0; cbn [bind] in H.
    2: { injection H as ->. destruct He as [-> | ->]; [|eapply pos_index; eauto]. exfalso. destruct p; cbn [validate_pos] in E0; try discriminate.
         - destruct (count_is ctx CZero); [discriminate|]. destruct (_ && _); discriminate.
         - destruct (in_join ctx); discriminate.
         - destruct (in_join ctx); discriminate. }
    destruct (validate_rec n1 h ctx) as [h1|f] eqn:E1; cbn [bind] in H; [|injection H as ->; eauto].
    destruct (validate_rec n2 h ctx) as [h2|f] eqn:E2; cbn [bind] in H; [discriminate|injection H as ->; eauto].
  - destruct (count_is ctx CZero); [injection H as <-; destruct He; discriminate|].
    destruct (count_is ctx COne && negb (is_some (normalize_child_index i0 1))) eqn:E; [|discriminate].
    injection H as <-. destruct He as [He|He]; [|discriminate]. injection He as <-.
    apply andb_prop in E as [_ E]. destruct (normalize_child_index i0 1); [discriminate|reflexivity].
  - eauto.
  - destruct (h_mark h); [injection H as <-; destruct He; discriminate|discriminate].
  - destruct (is_some (ctx_count ctx)); [injection H as <-; destruct He; discriminate|].
    destruct (validate_rec z h (count_zero ctx)) as [h1|f] eqn:E1; cbn [bind] in H; [|injection H as ->; eauto].
    destruct (validate_rec o h (count_one ctx)) as [h2|f] eqn:E2; cbn [bind] in H; [|injection H as ->; eauto].
    destruct (validate_rec m h (count_many ctx)) as [h3|f] eqn:E3; cbn [bind] in H; [discriminate|injection H as ->; eauto].
  - destruct (is_some (ctx_fold ctx)); [injection H as <-; destruct He; discriminate|].
    destruct (validate_rec f h_uncertain (fold_first ctx)) as [h1|f0] eqn:E1; cbn [bind] in H; [|injection H as ->; eauto].
    destruct (validate_rec j h_uncertain (fold_join ctx)) as [h2|f0] eqn:E2; cbn [bind] in H; [discriminate|injection H as ->; eauto].
  - destruct (in_join ctx); [discriminate|]. injection H as <-; destruct He; discriminate.
  - destruct (in_join ctx); [discriminate|]. injection H as <-; destruct He; discriminate.
Qed.

(** A flaw about the index of a child is about an index that a single child does not have... *)
Theorem C69_reported_index {L C : Type} (n : notation L C) i :
  validate n = Err (CountOneChildIndex i) \/ validate n = Err (CountOneCheckPosChildIndex i) -> (i <> 0 /\ i <> -1)%Z.
Proof.
  assert (Hn : normalize_child_index i 1 = None -> (i <> 0 /\ i <> -1)%Z).
  { intros H. split; intros ->; discriminate. }
  unfold validate. intros [H|H]; apply Hn; destruct (validate_rec n h_default ctx_new) as [h|f] eqn:E; try discriminate; cbn [bind] in H;
    injection H as ->; eapply validate_index; eauto.
Qed.

(** ...but the messages always say that it is 0: the attributes format the
    constant 0 instead of the field.  So the message never names the index. *)
Theorem C69_wrong_index_refuted :
  ~ (forall (L C : Type) (n : notation L C) i, validate n = Err (CountOneChildIndex i) ->
       exists s, integer s i /\ says (notation_message (CountOneChildIndex i)) s) /\
  (forall i, says (notation_message (CountOneChildIndex i)) (chars "Child with index 0 inside of Count.one")) /\
  (forall i, says (notation_message (CountOneCheckPosChildIndex i)) (chars "CheckPos::Child with index 0 inside of Count.one")).
Proof.
  split; [|split].
  - intros H. destruct (H nat nat (Count Empty (Child 5) Empty) 5%Z eq_refl) as (s & Hi & a & b & E).
    assert (Hs : s = [53%N]).
    { destruct Hi as [[_ Hi]|[Hi _]]; [|lia]. pose proof (show_N_numeral 5) as H5. clear - Hi H5.
      apply numeral_inv in Hi as [(d & -> & Ed & Hd)|(s' & n' & d & -> & Ed & Hn & Hd & Hp)].
      - change (Z.to_N 5) with 5%N in Ed. subst d. reflexivity.
      - exfalso. change (Z.to_N 5) with 5%N in Ed. lia. }
    subst s. assert (Hin : In 53%N (notation_message (CountOneChildIndex 5))).
    { rewrite E. apply in_or_app. right. left. reflexivity. }
    vm_compute in Hin. repeat destruct Hin as [Hin|Hin]; try discriminate; contradiction.
  - intros i. exists (chars "Notation contains a "), (chars ", but in this case there's guaranteed to be only one child."). reflexivity.
  - intros i. exists (chars "Notation contains a "), (chars ", but in this case there's guaranteed to be only one child."). reflexivity.
Qed.

(** The texts of positions and of sizes: row (or height) first, then a colon, then
    the column (or width); they can be told apart. *)
Theorem C69_positions :
  (forall p, exists s t, show_pos p = s ++ chars ":" ++ t /\ numeral s (p_row p) /\ numeral t (p_col p)) /\
  (forall z, exists s t, show_size z = s ++ chars ":" ++ t /\ numeral s (s_height z) /\ numeral t (s_width z)) /\
  (forall p q, show_pos p = show_pos q -> p = q) /\ (forall a b, show_size a = show_size b -> a = b).
Proof.
  split; [|split; [|split]].
  - intros p. exists (show_N (p_row p)), (show_N (p_col p)). split; [reflexivity|]. split; apply show_N_numeral.
  - intros p. exists (show_N (s_height p)), (show_N (s_width p)). split; [reflexivity|]. split; apply show_N_numeral.
  - apply pos_text.
  - apply size_text.
Qed.

(** Concrete cases. *)
Example C69_case_message : printing_message (E := nat) show_nat (ChildIndexOutOfBounds (-12) 307) =
  chars "Notation/doc mismatch: Notation was Child(-12) but doc node only had 307 children.".
Proof. vm_compute. reflexivity. Qed.
Example C69_case_pane : pane_message (W := nat) show_nat show_nat (PrintingErr (InvalidPath 65535)) =
  chars "PrettyDoc printing error: Pretty printing path invalid at child index 65535.".
Proof. vm_compute. reflexivity. Qed.
Example C69_case_size : show_size (Size 80 24) = chars "24:80".
Proof. vm_compute. reflexivity. Qed.
Example C69_case_distinct : forall x y : perr nat, printing_message show_nat x = printing_message show_nat y -> x = y.
Proof.
  apply C69_printing_errors_distinct. intros e e' H. rewrite <- (app_nil_r (show_nat e)), <- (app_nil_r (show_nat e')) in H.
  apply show_nat_cut in H as [H _]; simpl; auto.
Qed.
Example C69_case_index : validate (L := nat) (C := nat) (Count Empty (Concat (Literal (chars "x")) (Child (-2))) (Child 0)) = Err (CountOneChildIndex (-2)).
Proof. reflexivity. Qed.
