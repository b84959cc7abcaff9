(** A concrete implementation of the [PrettyDoc] trait, used to show that the
    hypotheses of the theorems are met by real documents.  Its methods panic
    whenever they are called outside their documented contract. *)
From Verif Require Export PFocus2.

Set Implicit Arguments.

(** A document: id, notation, style of the node; text or children. *)
Inductive sdoc : Type :=
| Leaf (i : nat) (n : notation nat nat) (s : str)
| Node (i : nat) (n : notation nat nat) (kids : list sdoc).

Definition s_id (d : sdoc) : nat := match d with Leaf i _ _ | Node i _ _ => i end.
Definition s_note (d : sdoc) : notation nat nat := match d with Leaf _ n _ | Node _ n _ => n end.

Definition get {A} (o : option A) : mres unit A := match o with Some a => MOk a | None => MPanic end.

(** Styles are lists of numbers (the free combination), style label [l] is [[l]],
    node [i] has style [[100 + i]], condition [c] holds on nodes with [c <= id]. *)
Definition spd : PrettyDoc := {|
  D := sdoc; Id := nat; Sty := list nat; Lbl := nat; Cnd := nat; Er := unit;
  id_eqb := Nat.eqb;
  style_combine := fun a b => a ++ b;
  m_id := fun d => MOk (s_id d);
  m_notation := fun d => MOk (s_note d);
  m_condition := fun d c => MOk (Nat.leb c (s_id d));
  m_lookup_style := fun _ l => MOk [l];
  m_node_style := fun d => MOk [100 + s_id d];
  m_num_children := fun d => match d with Leaf _ _ _ => MOk None | Node _ _ ks => MOk (Some (length ks)) end;
  m_unwrap_text := fun d => match d with Leaf _ _ s => MOk s | Node _ _ _ => MPanic end;
  m_unwrap_child := fun d i => match d with Leaf _ _ _ => MPanic | Node _ _ ks => get (nth_error ks i) end;
  m_unwrap_last_child := fun d => match d with Leaf _ _ _ => MPanic | Node _ _ ks => get (nth_error ks (length ks - 1)) end;
  m_unwrap_prev_sibling := fun _ p i => match p with Leaf _ _ _ => MPanic | Node _ _ ks => get (nth_error ks i) end
|}.

(** Every character has width 1. *)
Definition senv (b : bool) : Env := {|
  usize_width := fun s => N.of_nat (length s); char_full_width := fun _ => false; ovf := b |}.

Section Concrete.
Local Instance pd0 : PrettyDoc := spd.
Local Instance env0 : Env := senv true.

#[export] Instance spd_ideq : IdEq spd.
Proof. intros a b. apply Nat.eqb_eq. Qed.

Definition s_info (d : sdoc) : @info spd :=
  @Info spd (s_id d) (s_note d) [100 + s_id d] (fun l => [l]) (fun c => Nat.leb c (s_id d)).

Fixpoint s_tree (d : sdoc) : @rdoc spd :=
  match d with
  | Leaf _ _ s => RText (s_info d) s
  | Node _ _ ks => RBranch (s_info d) (map s_tree ks)
  end.

Fixpoint sdoc_ind' (P : sdoc -> Prop) (HL : forall i n s, P (Leaf i n s))
  (HN : forall i n ks, (forall k, In k ks -> P k) -> P (Node i n ks)) (d : sdoc) : P d :=
  match d with
  | Leaf i n s => HL i n s
  | Node i n ks => HN i n ks ((fix go (ks : list sdoc) : forall k, In k ks -> P k :=
      match ks with
      | [] => fun k H => match H with end
      | x :: ks' => fun k H => match H with
                               | or_introl E => eq_ind x P (sdoc_ind' P HL HN x) k E
                               | or_intror H' => go ks' k H'
                               end
      end) ks)
  end.

Lemma s_handle i n ks m x : @child_handle spd (Node i n ks) m x -> nth_error ks m = Some x.
Proof.
  induction 1 as [len m x H1 H2 H3|m x H1 H2|m y x H1 IH H2]; simpl in *.
  - destruct (nth_error ks m); [injection H3 as ->; reflexivity|discriminate].
  - injection H1 as H1. rewrite H1 in H2. simpl in H2. rewrite Nat.sub_0_r in H2.
    destruct (nth_error ks m); [injection H2 as ->; reflexivity|discriminate].
  - destruct (nth_error ks m); [injection H2 as ->; reflexivity|discriminate].
Qed.

(** Every such document is well-behaved. *)
Lemma s_rep d : @rep spd (s_tree d) d.
Proof.
  assert (Hi : forall d, @rep_info spd (s_info d) d) by (intros; constructor; reflexivity).
  induction d as [i n s|i n ks IH] using sdoc_ind'.
  - apply RepText; auto; reflexivity.
  - simpl. apply RepBranch; auto.
    + simpl. rewrite map_length. reflexivity.
    + intros m Hm. rewrite map_length in Hm. simpl. destruct (nth_error ks m) eqn:E; [eexists; reflexivity|].
      apply nth_error_None in E. lia.
    + intros Hne. simpl. destruct (nth_error ks (length ks - 1)) eqn:E; [eexists; reflexivity|].
      apply nth_error_None in E. destruct ks; [contradiction|simpl in E; lia].
    + intros m y Hm _. rewrite map_length in Hm. simpl. destruct (nth_error ks m) eqn:E; [eexists; reflexivity|].
      apply nth_error_None in E. lia.
    + intros m x k Hx Hk. apply s_handle in Hx. rewrite nth_error_map, Hx in Hk. injection Hk as <-.
      apply IH. eapply nth_error_In; eauto.
Qed.

Fixpoint s_valid (d : sdoc) : bool :=
  is_ok (validate (s_note d)) &&
  match d with Leaf _ _ _ => true | Node _ _ ks => forallb s_valid ks end.

Lemma s_valid_doc d : s_valid d = true -> @valid_doc spd (s_tree d).
Proof.
  assert (Hi : forall n : notation nat nat, is_ok (validate n) = true -> validate n = Ok tt)
    by (intros n H; destruct (validate n) as [[]|]; [reflexivity|discriminate]).
  induction d as [i n s|i n ks IH] using sdoc_ind'; simpl; intros H; apply andb_true_iff in H as [H1 H2].
  - constructor. apply Hi. exact H1.
  - constructor; [apply Hi; exact H1|]. intros k Hk. apply in_map_iff in Hk as (x & <- & Hx).
    apply IH; auto. eapply forallb_forall in H2; eauto.
Qed.

End Concrete.

(** Distinct ids. *)
Section Ids.
Context {pd : PrettyDoc}.

Fixpoint ids (r : rdoc) : list Id :=
  i_id (r_info r) :: match r with RText _ _ => [] | RBranch _ ks => flat_map ids ks end.

Lemma id_at_in r q j : id_at r q = Some j -> In j (ids r).
Proof.
  revert r; induction q as [|n q IH]; intros r; unfold id_at; simpl.
  - intros [= <-]. destruct r; simpl; auto.
  - destruct (nth_error (r_kids r) n) as [k|] eqn:E; [|discriminate]. intros H.
    destruct r as [|i ks]; simpl in *; [destruct n; discriminate|].
    right. apply in_flat_map. exists k. split; [eapply nth_error_In; eauto|]. apply IH. exact H.
Qed.

Lemma flat_map_disjoint {A B} (f : A -> list B) l : NoDup (flat_map f l) ->
  forall n m x y b, nth_error l n = Some x -> nth_error l m = Some y -> In b (f x) -> In b (f y) -> n = m.
Proof.
  induction l as [|a l IH]; simpl; intros H n m x y b Hn Hm Hx Hy; [destruct n; discriminate|].
  assert (Happ : forall l1 l2 : list B, NoDup (l1 ++ l2) -> NoDup l2 /\ forall b, In b l1 -> In b l2 -> False).
  { clear. induction l1 as [|c l1 IH]; simpl; intros l2 H; [split; auto|]. inversion H as [|? ? H1 H2]; subst.
    destruct (IH _ H2) as [H3 H4]. split; auto. intros b [->|Hb] Hb2; [|eauto]. apply H1. apply in_or_app. auto. }
  destruct (Happ _ _ H) as [H1 H2].
  destruct n as [|n], m as [|m]; simpl in *; auto.
  - injection Hn as <-. exfalso. apply (H2 b Hx). apply in_flat_map. exists y. split; [eapply nth_error_In; eauto|auto].
  - injection Hm as <-. exfalso. apply (H2 b Hy). apply in_flat_map. exists x. split; [eapply nth_error_In; eauto|auto].
  - f_equal. eapply IH; eauto.
Qed.

Lemma ids_unique r : NoDup (ids r) -> unique_ids (id_at r).
Proof.
  intros H q q' j Hq Hq'. revert H q q' Hq Hq'.
  induction r as [i s|i ks IH] using rdoc_ind'; intros H q q'.
  - destruct q as [|n q]; [|unfold id_at; simpl; destruct n; discriminate].
    destruct q' as [|n q']; [auto|unfold id_at; simpl; destruct n; discriminate].
  - simpl in H. inversion H as [|? ? H1 H2]; subst.
    assert (Hkid : forall n q, id_at (RBranch i ks) (n :: q) = Some j ->
      exists k, nth_error ks n = Some k /\ id_at k q = Some j).
    { intros n q0. unfold id_at. simpl. destruct (nth_error ks n) as [k|]; [|discriminate]. eauto. }
    assert (Hroot : forall n q, id_at (RBranch i ks) (n :: q) = Some j -> i_id i = j -> False).
    { intros n q0 Hn E. destruct (Hkid _ _ Hn) as (k & Hk & Hj). apply H1. simpl. rewrite E. apply in_flat_map.
      exists k. split; [eapply nth_error_In; eauto|]. eapply id_at_in; eauto. }
    destruct q as [|n q], q' as [|n' q']; intros Hq Hq'; auto.
    + exfalso. injection Hq as Hq. eauto.
    + exfalso. injection Hq' as Hq'. eauto.
    + destruct (Hkid _ _ Hq) as (k & Hk & Hj). destruct (Hkid _ _ Hq') as (k' & Hk' & Hj').
      assert (n = n').
      { eapply (@flat_map_disjoint _ _ ids ks); eauto; eapply id_at_in; eauto. }
      subst n'. assert (k' = k) by congruence. subst k'. f_equal.
      apply (IH k); auto; [eapply nth_error_In; eauto|].
      clear - H2 Hk. revert n Hk. induction ks as [|a ks IH]; intros n Hk; [destruct n; discriminate|].
      simpl in H2. destruct n as [|n]; simpl in Hk.
      * injection Hk as ->. clear - H2. revert H2. generalize (flat_map ids ks). generalize (ids k).
        induction l as [|b l IH]; simpl; intros l0 H; [constructor|]. inversion H; subst. constructor; eauto.
        intros Hin. apply H2. apply in_or_app. auto.
      * eapply IH; eauto. clear - H2. induction (ids a) as [|b l IHl]; simpl in *; auto. inversion H2; auto.
Qed.

End Ids.
