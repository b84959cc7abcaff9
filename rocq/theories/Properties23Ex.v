(** Concrete cases for C57. *)
From Verif Require Import Properties3 Properties23 Examples.

Set Implicit Arguments.

(** What is known about a partly broken document ([fdoc], Properties3.v) whose
    nodes with the ids [cl] are closed. *)
Definition f_note (d : fdoc) : notation nat nat := match d with FBroken => Empty | FLeaf _ n _ | FNode _ n _ => n end.
Definition f_id (d : fdoc) : nat := match d with FBroken => 0 | FLeaf i _ _ | FNode i _ _ => i end.
Definition f_info (d : fdoc) : @info fpd :=
  @Info fpd (f_id d) (f_note d) [100 + f_id d] (fun l => [l]) (fun c => Nat.leb c (f_id d)).

Fixpoint f_open (cl : nat -> bool) (d : fdoc) : @odoc fpd :=
  match d with
  | FBroken => OClosed (f_info d)
  | FLeaf i _ s => if cl i then OClosed (f_info d) else OText (f_info d) s
  | FNode i _ ks => if cl i then OClosed (f_info d) else OBranch (f_info d) (map (f_open cl) ks)
  end.

(** Only below a closed node may there be broken nodes. *)
Fixpoint f_fine (cl : nat -> bool) (d : fdoc) : bool :=
  match d with
  | FBroken => false
  | FLeaf _ _ _ => true
  | FNode i _ ks => cl i || forallb (f_fine cl) ks
  end.

Fixpoint fdoc_ind' (P : fdoc -> Prop) (HB : P FBroken) (HL : forall i n s, P (FLeaf i n s))
  (HN : forall i n ks, (forall k, In k ks -> P k) -> P (FNode i n ks)) (d : fdoc) : P d :=
  match d with
  | FBroken => HB
  | FLeaf i n s => HL i n s
  | FNode i n ks => HN i n ks ((fix go (ks : list fdoc) : forall k, In k ks -> P k :=
      match ks with
      | [] => fun k H => match H with end
      | x :: ks' => fun k H => match H with
                               | or_introl E => eq_ind x P (fdoc_ind' P HB HL HN x) k E
                               | or_intror H' => go ks' k H'
                               end
      end) ks)
  end.

Lemma f_handle i n ks m x : @child_handle fpd (FNode i n ks) m x -> nth_error ks m = Some x.
Proof.
  induction 1 as [len m x H1 H2 H3|m x H1 H2|m y x H1 IH H2]; simpl in *.
  - destruct (nth_error ks m); [injection H3 as ->; reflexivity|discriminate].
  - injection H1 as H1. rewrite H1 in H2. simpl in H2. rewrite Nat.sub_0_r in H2.
    destruct (nth_error ks m); [injection H2 as ->; reflexivity|discriminate].
  - destruct (nth_error ks m); [injection H2 as ->; reflexivity|discriminate].
Qed.

Lemma f_orep cl d : f_fine cl d = true -> @orep fpd (f_open cl d) d.
Proof.
  induction d as [|i n s|i n ks IH] using fdoc_ind'; simpl; intros H.
  - discriminate.
  - destruct (cl i).
    + eapply ORepClosed; try reflexivity.
    + apply ORepText; try reflexivity. constructor; reflexivity.
  - destruct (cl i).
    + eapply ORepClosed; try reflexivity.
    + apply ORepBranch.
      * constructor; reflexivity.
      * simpl. rewrite map_length. reflexivity.
      * intros m Hm. rewrite map_length in Hm. simpl. destruct (nth_error ks m) eqn:E; [eexists; reflexivity|].
        apply nth_error_None in E. lia.
      * intros Hne. simpl. destruct (nth_error ks (length ks - 1)) eqn:E; [eexists; reflexivity|].
        apply nth_error_None in E. destruct ks; [contradiction|simpl in E; lia].
      * intros m y Hm _. rewrite map_length in Hm. simpl. destruct (nth_error ks m) eqn:E; [eexists; reflexivity|].
        apply nth_error_None in E. lia.
      * intros m x k Hx Hk. apply f_handle in Hx. rewrite nth_error_map, Hx in Hk. injection Hk as <-.
        apply IH; [eapply nth_error_In; eauto|]. simpl in H. eapply forallb_forall in H; [exact H|eapply nth_error_In; eauto].
Qed.

Section Ids.
Context {pd : PrettyDoc}.

Fixpoint o_valid (o : odoc) : bool :=
  match o with
  | OText i _ => is_ok (validate (i_note i))
  | OBranch i ks => is_ok (validate (i_note i)) && forallb o_valid ks
  | OClosed _ => true
  end.

Lemma o_valid_ok o : o_valid o = true -> ovalid o.
Proof.
  assert (Hi : forall n : note, is_ok (validate n) = true -> validate n = Ok tt)
    by (intros n H; destruct (validate n) as [[]|]; [reflexivity|discriminate]).
  induction o as [i s|i ks IH|i] using odoc_ind'; simpl; intros H.
  - constructor; auto.
  - apply andb_true_iff in H as [H1 H2]. constructor; auto. intros k Hk. apply IH; auto.
    eapply forallb_forall in H2; eauto.
  - constructor.
Qed.

Fixpoint oids (o : odoc) : list Id :=
  match o with
  | OText i _ => [i_id i]
  | OBranch i ks => i_id i :: flat_map oids ks
  | OClosed _ => []
  end.

Lemma oid_at_in o q j : oid_at o q = Some j -> In j (oids o).
Proof.
  revert o. induction q as [|n q IH]; intros o H.
  - destruct o; unfold oid_at in H; simpl in *; try discriminate; injection H as <-; auto.
  - destruct o as [i s|i ks|i]; unfold oid_at in *; simpl in *; try (destruct n; discriminate).
    destruct (nth_error ks n) as [k|] eqn:E; [|discriminate].
    right. apply in_flat_map. exists k. split; [eapply nth_error_In; eauto|]. apply IH. exact H.
Qed.

Lemma oids_unique o : NoDup (oids o) -> ounique o.
Proof.
  intros H q q' j Hq Hq'. revert H q q' Hq Hq'.
  induction o as [i s|i ks IH|i] using odoc_ind'; intros H q q'.
  - destruct q as [|n q]; [|unfold oid_at; simpl; destruct n; discriminate].
    destruct q' as [|n q']; [auto|unfold oid_at; simpl; destruct n; discriminate].
  - simpl in H. inversion H as [|? ? H1 H2]; subst.
    assert (Hkid : forall n q, oid_at (OBranch i ks) (n :: q) = Some j ->
      exists k, nth_error ks n = Some k /\ oid_at k q = Some j).
    { intros n q0. unfold oid_at. simpl. destruct (nth_error ks n) as [k|]; [|discriminate]. eauto. }
    assert (Hroot : forall n q, oid_at (OBranch i ks) (n :: q) = Some j -> i_id i = j -> False).
    { intros n q0 Hn E. destruct (Hkid _ _ Hn) as (k & Hk & Hj). apply H1. simpl. rewrite E. apply in_flat_map.
      exists k. split; [eapply nth_error_In; eauto|]. eapply oid_at_in; eauto. }
    destruct q as [|n q], q' as [|n' q']; intros Hq Hq'; auto.
    + exfalso. injection Hq as Hq. eauto.
    + exfalso. injection Hq' as Hq'. eauto.
    + destruct (Hkid _ _ Hq) as (k & Hk & Hj). destruct (Hkid _ _ Hq') as (k' & Hk' & Hj').
      assert (n = n').
      { eapply (@flat_map_disjoint _ _ oids ks); eauto; eapply oid_at_in; eauto. }
      subst n'. assert (k' = k) by congruence. subst k'. f_equal.
      apply (IH k); auto; [eapply nth_error_In; eauto|].
      clear - H2 Hk. revert n Hk. induction ks as [|a ks IH]; intros n Hk; [destruct n; discriminate|].
      simpl in H2. destruct n as [|n]; simpl in Hk.
      * injection Hk as ->. clear - H2. revert H2. generalize (flat_map oids ks). generalize (oids k).
        induction l as [|b l IH]; simpl; intros l0 H; [constructor|]. inversion H; subst. constructor; eauto.
        intros Hin. apply H2. apply in_or_app. auto.
      * eapply IH; eauto. clear - H2. induction (oids a) as [|b l IHl]; simpl in *; auto. inversion H2; auto.
  - unfold oid_at. destruct q as [|n q]; [discriminate|]. simpl. destruct n; discriminate.
Qed.

End Ids.

From Coq Require Import String.
Open Scope string_scope.
Open Scope list_scope.

#[local] Instance f_ideq : IdEq fpd.
Proof. intros a b. apply Nat.eqb_eq. Qed.
#[local] Instance f_env : Env := senv true.

(** Nodes 10 and above are closed. *)
Definition cl (i : nat) : bool := Nat.leb 10 i.

(** A vertical list; its first and last item are broken inside.  The three
    words between them can be shown. *)
Definition word (i : nat) (s : string) : fdoc := FLeaf i Text (codes s).
Definition rows : fdoc := FNode 0 (Fold (Child 0) (n_xor Left Right))
  [FNode 10 (Child 0) [FBroken]; word 1 "one"; word 2 "two"; word 3 "three"; FNode 11 (Child 0) [FBroken]].

Definition styled (i : nat) (s : string) : @line fpd := [@Segment fpd (codes s) (N.of_nat (String.length s)) [100; 100 + i]].
Definition f_word (i : nat) (s : string) : @rdoc fpd := RText (f_info (word i s)) (codes s).
Definition f_text (i : nat) (s : string) : list (@event fpd) :=
  [@EText fpd i (@Textual fpd (codes s) (N.of_nat (String.length s)) [100; 100 + i] true)].

Example C57_case_list :
  ev (fun n => @window fpd f_env n rows 5 [2] FStart None 1 1)
    (Ok ([styled 1 "one"], FocusedLine [] (styled 2 "two"), [styled 3 "three"])).
Proof.
  apply (@C57_list_at_start fpd f_env f_ideq (f_info rows) [f_open cl (FNode 10 (Child 0) [FBroken])]
    [f_word 1 "one"] (f_word 2 "two") [f_word 3 "three"] [f_open cl (FNode 11 (Child 0) [FBroken])] rows 5%N None
    [f_text 1 "one"] (f_text 2 "two") [f_text 3 "three"] (styled 2 "two") [] 1 1);
  try reflexivity; try (repeat constructor; fail); try (right; vm_compute; lia).
  - exact (@f_orep cl rows eq_refl).
  - apply (@o_valid_ok fpd (f_open cl rows)). reflexivity.
  - apply (@oids_unique fpd (f_open cl rows)). vm_compute. repeat (constructor; [simpl; intuition discriminate|]). constructor.
Qed.

(** A choice above a broken part.  It is decided by what is on its line, and
    the newline after it is known. *)
Definition pair_doc : fdoc := FNode 0 (n_xor (Child 0) (Child 1))
  [FNode 1 (Choice (Concat (Child 0) (Child 1)) (n_xor (Child 0) (Child 1))) [word 2 "aaa"; word 3 "bbb"];
   FNode 10 (Child 0) [FBroken]].

Definition styled2 (i : nat) (s : string) : @line fpd := [@Segment fpd (codes s) (N.of_nat (String.length s)) [100; 101; 100 + i]].
Definition f_text2 (i : nat) (s : string) : @pev fpd :=
  Ev (@EText fpd i (@Textual fpd (codes s) (N.of_nat (String.length s)) [100; 101; 100 + i] true)).

Ltac no_in := let H := fresh in intros H; simpl in H; intuition discriminate.

Example C57_case_choice_narrow :
  ev (fun n => @window fpd f_env n pair_doc 5 [0; 1] FStart None 1 0)
    (Ok ([styled2 2 "aaa"], FocusedLine [] (styled2 3 "bbb"), [])).
Proof.
  apply (@C57_window_at_start fpd f_env f_ideq (f_open cl pair_doc) pair_doc 5%N None [0; 1] 1 0 [styled2 2 "aaa"] [] [] (styled2 3 "bbb")
    [Ev (@EEnter fpd 0 0); Ev (@EEnter fpd 1 0); f_text2 2 "aaa"; Ev (@EExit fpd 1 0); Ev (@ENewline fpd []); Ev (@EEnter fpd 1 1)]
    [f_text2 3 "bbb"]
    [Ev (@EExit fpd 1 1); Ev (@EExit fpd 0 0); Ev (@ENewline fpd []); Gap (@GapChild fpd 0 1)]).
  - apply f_orep. reflexivity.
  - apply o_valid_ok. reflexivity.
  - apply oids_unique. vm_compute. repeat (constructor; [simpl; intuition discriminate|]). constructor.
  - apply (@leads_down fpd (oid_at (f_open cl pair_doc)) [] _ 0 0 []
      [Ev (@EEnter fpd 1 0); f_text2 2 "aaa"; Ev (@EExit fpd 1 0); Ev (@ENewline fpd []); Ev (@EEnter fpd 1 1); f_text2 3 "bbb"; Ev (@EExit fpd 1 1)]
      [Ev (@ENewline fpd []); Gap (@GapChild fpd 0 1)] [1]
      [Ev (@EEnter fpd 1 0); f_text2 2 "aaa"; Ev (@EExit fpd 1 0); Ev (@ENewline fpd []); Ev (@EEnter fpd 1 1)]
      [f_text2 3 "bbb"] [Ev (@EExit fpd 1 1)]); try reflexivity; try no_in.
    apply (@leads_down fpd (oid_at (f_open cl pair_doc)) [0] _ 1 1
      [Ev (@EEnter fpd 1 0); f_text2 2 "aaa"; Ev (@EExit fpd 1 0); Ev (@ENewline fpd [])]
      [f_text2 3 "bbb"] [] [] [] [f_text2 3 "bbb"] []); try reflexivity; try no_in.
    constructor.
  - left. exists [@EEnter fpd 0 0; @EEnter fpd 1 0; @EText fpd 2 (@Textual fpd (codes "aaa") 3 [100; 101; 102] true); @EExit fpd 1 0;
      @ENewline fpd []; @EEnter fpd 1 1], [styled2 2 "aaa"]. repeat split.
  - right. exists [@EText fpd 3 (@Textual fpd (codes "bbb") 3 [100; 101; 103] true); @EExit fpd 1 1; @EExit fpd 0 0], [], [Gap (@GapChild fpd 0 1)].
    repeat split.
Qed.

(** On a wider page the same choice takes its first option. *)
Example C57_case_choice_wide :
  @open_layout fpd f_env 6 (f_open cl pair_doc) None =
  [Ev (@EEnter fpd 0 0); Ev (@EEnter fpd 1 0); f_text2 2 "aaa"; Ev (@EExit fpd 1 0); Ev (@EEnter fpd 1 1); f_text2 3 "bbb";
   Ev (@EExit fpd 1 1); Ev (@EExit fpd 0 0); Ev (@ENewline fpd []); Gap (@GapChild fpd 0 1)].
Proof. vm_compute. reflexivity. Qed.

(** If the broken part is on the same line as the choice, the choice cannot be
    decided: the hypotheses do not hold, and indeed the window fails. *)
Definition stuck_doc : fdoc := FNode 0 (Concat (Child 0) (Child 1))
  [FNode 1 (Choice (Concat (Child 0) (Child 1)) (n_xor (Child 0) (Child 1))) [word 2 "aaa"; word 3 "bbb"];
   FNode 10 (Child 0) [FBroken]].

Example C57_case_stuck :
  @open_layout fpd f_env 6 (f_open cl stuck_doc) None =
  [Ev (@EEnter fpd 0 0); Gap (@GapChoice fpd 1); Ev (@EExit fpd 0 0); Gap (@GapChild fpd 0 1)] /\
  is_doc_error (@window fpd f_env 200 stuck_doc 6 [0; 1] FStart None 0 0).
Proof. split; [vm_compute; reflexivity|exists tt; vm_compute; reflexivity]. Qed.

(** A closed node must still tell its notation and style: the items of a list
    are all asked when the list is shown, even the ones far out of view. *)
Definition dead_rows : fdoc := FNode 0 (Fold (Child 0) (n_xor Left Right)) [word 1 "one"; word 2 "two"; word 3 "three"; FBroken].

Example C57_needs_notation : is_doc_error (@window fpd f_env 200 dead_rows 5 [0] FStart None 0 0).
Proof. exists tt. vm_compute. reflexivity. Qed.
