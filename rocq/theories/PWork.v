(** The parts of a document's notation tree are those of its nodes' notations. *)
From Verif Require Export SpecWork PElab.

Set Implicit Arguments.

Lemma list_sum_le {A} (f g : A -> nat) l : (forall x, f x <= g x) -> list_sum (map f l) <= list_sum (map g l).
Proof. intros H. induction l as [|x l IH]; simpl; [lia|]. specialize (H x). lia. Qed.
Lemma list_sum_add {A} (f g : A -> nat) l : list_sum (map (fun x => f x + g x) l) = list_sum (map f l) + list_sum (map g l).
Proof. induction l as [|x l IH]; simpl; lia. Qed.
Lemma list_sum_in {A} (f : A -> nat) l x : In x l -> f x <= list_sum (map f l).
Proof. induction l as [|y l IH]; simpl; [contradiction|]. intros [->|H]; [lia|]. specialize (IH H). lia. Qed.

Section Work.
Context {pd : PrettyDoc} {env : Env}.

Section Node.
Variable self : rdoc.
Variable kids : list kid.
Variable kp : nat -> nat.
Hypothesis Hkp : forall m x c, nth_error kids m = Some x -> parts (k_tree x c) <= kp m.
Notation k := (length kids).

(** The parts of [k] children, child [i] [u i] times. *)
Definition used (u : nat -> nat) : nat := list_sum (map (fun i => u i * kp i) (seq 0 k)).

Lemma used_le u v : (forall i, u i <= v i) -> used u <= used v.
Proof. intros H. apply list_sum_le. intros i. apply Nat.mul_le_mono_r. auto. Qed.
Lemma used_add u v : used (fun i => u i + v i) = used u + used v.
Proof. unfold used. rewrite <- list_sum_add. f_equal. apply map_ext. intros. lia. Qed.
Lemma used_one m x : nth_error kids m = Some x -> kp m <= used (fun i => if Nat.eqb m i then 1 else 0).
Proof.
  intros H. assert (m < k) by (apply nth_error_Some; congruence).
  transitivity ((fun i => (if Nat.eqb m i then 1 else 0) * kp i) m); [simpl; rewrite Nat.eqb_refl; lia|].
  apply (list_sum_in (fun i => (if Nat.eqb m i then 1 else 0) * kp i)). apply in_seq. lia.
Qed.

Definition fe_in (fe : option foldenv) (L : nat) (UL UR : nat -> nat) : Prop :=
  match fe with
  | None => 1 <= L
  | Some e => 1 <= L /\ (forall c, parts (fe_left e c) <= L + used UL) /\
      nth_error kids (fe_index e) = Some (fe_right e) /\ forall i, (if Nat.eqb (fe_index e) i then 1 else 0) <= UR i
  end.

Lemma fe_in_pos fe L UL UR : fe_in fe L UL UR -> 1 <= L.
Proof. destruct fe; simpl; [intros [H _]|]; auto. Qed.

Lemma fold_parts (join : foldenv -> ctx -> shape) (jp : nat -> nat) (ju : nat -> nat -> nat -> nat) :
  (forall e c L UL, fe_in (Some e) L UL (fun i => if Nat.eqb (fe_index e) i then 1 else 0) ->
    parts (join e c) <= jp L + used (fun i => ju (fe_index e) i (UL i))) ->
  (forall L, 1 <= L -> 1 <= jp L) ->
  forall ks m prev acc L UL, 1 <= L -> (forall n x, nth_error ks n = Some x -> nth_error kids (S m + n) = Some x) ->
  (forall c, parts (acc c) <= L + used UL) ->
  forall c, parts (fold_kids join m prev ks acc c) <=
    folded (fun _ => jp) m (length ks) L + used (fun i => folded (fun m => ju m i) m (length ks) (UL i)).
Proof.
  intros Hj Hpos. induction ks as [|x ks IH]; intros m prev acc L UL HL Hk Hacc c; simpl; [auto|].
  eapply Nat.le_trans; [apply IH with (L := jp L) (UL := fun i => ju (S m) i (UL i))|apply Nat.le_refl].
  - apply Hpos. auto.
  - intros n y Hy. replace (S (S m) + n) with (S m + S n) by lia. apply Hk. exact Hy.
  - intros c'. apply (Hj (FoldEnv acc (k_doc prev) (S m) x) c' L UL). cbn [fe_in fe_left fe_index fe_right].
    split; auto. split; auto. split; [|auto]. replace (S m) with (S m + 0) by lia. apply Hk. reflexivity.
Qed.

Hypothesis Hself : match self with RText _ _ => kids = [] | RBranch _ _ => True end.

Lemma note_parts_pos n : forall L, 1 <= L -> 1 <= note_parts k n L.
Proof.
  induction n; intros L HL; cbn [note_parts]; auto; try lia.
  - destruct k as [|[|?]]; auto; lia.
  - assert (H : forall n m acc, 1 <= acc -> 1 <= folded (fun _ acc => note_parts k n2 acc) m n acc).
    { clear - IHn2. induction n as [|n IH]; intros m acc H; simpl; auto. }
    apply H. lia.
Qed.

Lemma elab_note_parts n : forall fe c L UL UR, fe_in fe L UL UR ->
  parts (elab_note self kids n fe c) <= note_parts k n L + used (fun i => note_uses k i n (UL i) (UR i)).
Proof.
  induction n as [| | | | |n IH|p l n IH|n1 IH1 n2 IH2|n1 IH1 n2 IH2|cd ps n1 IH1 n2 IH2|i|l n IH| |z IHz o IHo m IHm|f IHf j IHj| |];
    intros fe c L UL UR Hfe; pose proof (fe_in_pos _ _ _ _ Hfe) as HL; cbn [elab_note note_parts].
  1-5: try (destruct self); simpl; lia.
  1-2: apply IH; auto.
  - cbn [parts note_uses]. rewrite used_add. specialize (IH1 fe c L UL UR Hfe). specialize (IH2 fe c L UL UR Hfe). lia.
  - pose proof (IH1 fe c L UL UR Hfe) as H1. pose proof (IH2 fe c L UL UR Hfe) as H2.
    pose proof (@used_le (fun i => note_uses k i n1 (UL i) (UR i)) (fun i => note_uses k i (Choice n1 n2) (UL i) (UR i)) ltac:(intros; simpl; lia)).
    pose proof (@used_le (fun i => note_uses k i n2 (UL i) (UR i)) (fun i => note_uses k i (Choice n1 n2) (UL i) (UR i)) ltac:(intros; simpl; lia)).
    destruct (x_flat c); [|cbn [parts]]; lia.
  - assert (Hgo : forall x, parts (if i_cond (r_info x) cd then elab_note self kids n1 fe c else elab_note self kids n2 fe c) <=
      Nat.max 1 (Nat.max (note_parts k n1 L) (note_parts k n2 L)) + used (fun i => note_uses k i (Check cd ps n1 n2) (UL i) (UR i))).
    { intros x. pose proof (IH1 fe c L UL UR Hfe) as H1. pose proof (IH2 fe c L UL UR Hfe) as H2.
      pose proof (@used_le (fun i => note_uses k i n1 (UL i) (UR i)) (fun i => note_uses k i (Check cd ps n1 n2) (UL i) (UR i)) ltac:(intros; simpl; lia)).
      pose proof (@used_le (fun i => note_uses k i n2 (UL i) (UR i)) (fun i => note_uses k i (Check cd ps n1 n2) (UL i) (UR i)) ltac:(intros; simpl; lia)).
      destruct (i_cond _ _); lia. }
    destruct ps as [|z| |]; auto.
    + destruct self; [cbn [parts]; lia|]. destruct (kid_number z k) as [m|]; [|cbn [parts]; lia]. destruct (nth_error kids m); [auto|cbn [parts]; lia].
    + destruct fe; [auto|cbn [parts]; lia].
    + destruct fe; [auto|cbn [parts]; lia].
  - destruct self; [cbn [parts]; lia|]. cbn [note_uses]. destruct (kid_number i k) as [m|]; [|cbn [parts]; lia].
    destruct (nth_error kids m) as [x|] eqn:E; [|cbn [parts]; lia]. unfold child. cbn [parts].
    pose proof (used_one _ E). pose proof (@Hkp _ _ (in_style (i_style (r_info (k_doc x))) c) E). lia.
  - apply IH; auto.
  - simpl. lia.
  - destruct self; [rewrite Hself; cbn [length parts Nat.sub folded]; lia|].
    destruct kids as [|k1 [|k2 ks]] eqn:E; rewrite <- ?E in *.
    + pose proof (IHz fe c L UL UR Hfe). rewrite E in *. cbn [length] in *. cbn [note_uses]. lia.
    + pose proof (IHo fe c L UL UR Hfe). rewrite E in *. cbn [length] in *. cbn [note_uses]. lia.
    + pose proof (IHm fe c L UL UR Hfe). rewrite E in *. cbn [length] in *. cbn [note_uses]. lia.
  - destruct self as [|si sks] eqn:Es; [rewrite Hself; cbn [length parts Nat.sub folded]; lia|]. rewrite <- Es in *.
    destruct kids as [|k1 ks] eqn:E; [cbn [length parts Nat.sub folded]; lia|]. rewrite <- E in *.
    replace (k - 1) with (length ks) by (rewrite E; simpl; lia).
    eapply Nat.le_trans; [apply fold_parts with (L := Nat.max 1 (note_parts k f 1)) (UL := fun i => note_uses k i f 0 0)
      (jp := fun acc => note_parts k j acc) (ju := fun m i acc => note_uses k i j acc (if Nat.eqb m i then 1 else 0))|].
    + intros e c' L' UL' Hin. apply IHj. exact Hin.
    + intros L0. apply note_parts_pos.
    + lia.
    + intros n x H. rewrite E. exact H.
    + intros c'. pose proof (IHf None c' 1 (fun _ => 0) (fun _ => 0) (Nat.le_refl _)). lia.
    + cbn [note_uses]. replace (k - 1) with (length ks) by (rewrite E; simpl; lia). apply Nat.le_refl.
  - destruct fe as [e|]; [|cbn [parts]; lia]. destruct Hfe as (_ & H & _ & _). cbn [note_uses]. apply H.
  - destruct fe as [e|]; [|cbn [parts]; lia]. destruct Hfe as (_ & _ & H & HU). cbn [note_uses]. change (used (fun i => UR i)) with (used UR). unfold child. cbn [parts].
    pose proof (used_one _ H). pose proof (used_le _ UR HU). pose proof (@Hkp _ _ (in_style (i_style (r_info (k_doc (fe_right e)))) c) H). lia.
Qed.
End Node.

Theorem doc_parts_bound r : displays_once r -> forall c, parts (elab r c) <= doc_parts r.
Proof.
  induction r as [i s|i ks IH] using rdoc_ind'; intros H c; cbn [elab doc_parts].
  - pose proof (@elab_note_parts (RText i s) [] (fun _ => 0) ltac:(intros [|m] x c0; discriminate) eq_refl (i_note i) None c 1 (fun _ => 0) (fun _ => 0) (Nat.le_refl _)) as Hp.
    unfold used in Hp. cbn [length seq map list_sum fold_right] in Hp. lia.
  - inversion H as [|? ? Hu Hk]; subst.
    set (kids := map (fun k => Kid k (elab k)) ks).
    set (kp := fun m => match nth_error ks m with Some k => doc_parts k | None => 0 end).
    assert (Hl : length kids = length ks) by apply map_length.
    pose proof (@elab_note_parts (RBranch i ks) kids kp) as Hp.
    specialize (Hp ltac:(intros m x c0 Hx; unfold kids in Hx; rewrite nth_error_map in Hx; unfold kp;
      destruct (nth_error ks m) as [y|] eqn:E; simpl in Hx; [|discriminate]; injection Hx as <-; cbn [k_tree];
      apply nth_error_In in E; auto) I (i_note i) None c 1 (fun _ => 0) (fun _ => 0) (Nat.le_refl _)).
    rewrite Hl in Hp. eapply Nat.le_trans; [exact Hp|]. apply Nat.add_le_mono_l.
    unfold used. rewrite Hl. clear - Hu.
    transitivity (list_sum (map kp (seq 0 (length ks)))).
    + apply list_sum_le. intros m. specialize (Hu m). nia.
    + clear. apply Nat.eq_le_incl. f_equal. unfold kp.
      assert (G : forall pre, map (fun m => match nth_error (pre ++ ks) m with Some k => doc_parts k | None => 0 end) (seq (length pre) (length ks)) = map doc_parts ks).
      { induction ks as [|k ks IH]; intros pre; simpl; auto. f_equal.
        - rewrite nth_error_app2, Nat.sub_diag by lia. reflexivity.
        - specialize (IH (pre ++ [k])). rewrite <- app_assoc in IH. simpl in IH. rewrite app_length, Nat.add_1_r in IH. exact IH. }
      apply (G []).
Qed.

End Work.
