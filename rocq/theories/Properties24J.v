(** C58 for JSON documents. *)
From Verif Require Export Properties24 PJson5 Properties13.
From Coq Require Import String.
Local Notation length := List.length.

Set Implicit Arguments.

(** The number of nodes of a tree. *)
Fixpoint tree_size (t : json_tree) : nat :=
  match t with
  | TreeText _ _ => 1
  | TreeKids _ ks => 1 + list_sum (map tree_size ks)
  end.

Notation jrdoc := (tree_rdoc (ts := basic_tree_style)).

Lemma folded_uses i n : forall m u, folded (fun m acc => acc + (if Nat.eqb m i then 1 else 0)) m n u =
  u + (if (Nat.ltb m i && Nat.leb i (m + n))%bool then 1 else 0).
Proof.
  induction n as [|n IH]; intros m u; cbn [folded].
  - destruct (Nat.ltb_spec m i), (Nat.leb_spec i (m + 0)); cbn [andb]; lia.
  - rewrite IH. destruct (Nat.eqb_spec (S m) i), (Nat.ltb_spec m i), (Nat.leb_spec i (m + S n)), (Nat.ltb_spec (S m) i), (Nat.leb_spec i (S m + n)); cbn [andb]; lia.
Qed.

Lemma folded_ext f g : (forall m a, f m a = g m a) -> forall n m a, folded f m n a = folded g m n a.
Proof. intros H. induction n as [|n IH]; intros m a; cbn [folded]; [reflexivity|]. rewrite H. apply IH. Qed.

Lemma folded_add c n : forall m u, folded (fun _ acc => acc + c) m n u = u + n * c.
Proof. induction n as [|n IH]; intros m u; cbn [folded]; [lia|]. rewrite IH. lia. Qed.

(** The folds of the JSON notations display each child once. *)
Section Folds.
Variables (first join : @note jpd).
Variable c : nat.
Hypothesis Hf : first = Child 0 \/ first = Flat (Child 0).
Hypothesis Hj : forall k i L R, @note_uses jpd k i join L R = L + R.
Hypothesis Hp : forall k L, @note_parts jpd k join L = L + c.

Lemma fold_once k i : @note_uses jpd (S k) i (Fold first join) 0 0 <= 1.
Proof.
  assert (E : @note_uses jpd (S k) i first 0 0 = if Nat.eqb 0 i then 1 else 0) by (destruct Hf as [-> | ->]; reflexivity).
  cbn [note_uses]. rewrite E.
  rewrite (@folded_ext _ (fun m acc => acc + (if Nat.eqb m i then 1 else 0))) by (intros; apply Hj).
  rewrite folded_uses. destruct i; cbn; [lia|]. match goal with |- context [if ?b then 1 else 0] => destruct b end; lia.
Qed.

Lemma fold_size k : @note_parts jpd (S k) (Fold first join) 1 = 1 + k * c.
Proof.
  assert (E : @note_parts jpd (S k) first 1 = 1) by (destruct Hf as [-> | ->]; reflexivity).
  cbn [note_parts]. rewrite E.
  rewrite (@folded_ext _ (fun _ acc => acc + c)) by (intros; apply Hp).
  rewrite folded_add. lia.
Qed.
End Folds.

Definition modest (n : @note jpd) : Prop :=
  (forall k i, @note_uses jpd k i n 0 0 <= 1) /\ forall k, @note_parts jpd k n 1 <= 17 + 6 * k.

Lemma seq_once k i : @note_uses jpd (S k) i single_seq 0 0 <= 1.
Proof. apply fold_once; [auto|]. intros. cbn. lia. Qed.
Lemma seq_size k : @note_parts jpd (S k) single_seq 1 = 1 + k * 4.
Proof. apply fold_size; [auto|]. intros. cbn. lia. Qed.

Definition json_rows : @note jpd := Fold (Child 0) (n_xor (n_add Left separator) Right).
Lemma rows_once k i : @note_uses jpd (S k) i json_rows 0 0 <= 1.
Proof. apply fold_once; [auto|]. intros. cbn. lia. Qed.
Lemma rows_size k : @note_parts jpd (S k) json_rows 1 = 1 + k * 6.
Proof. apply fold_size; [auto|]. intros. cbn. lia. Qed.

Lemma block_modest op cl : modest (n_block op cl).
Proof.
  split.
  - intros [|k] i; [cbn; lia|]. pose proof (seq_once k i). pose proof (rows_once k i).
    assert (E : @note_uses jpd (S k) i (n_block op cl) 0 0 = Nat.max (0 + @note_uses jpd (S k) i single_seq 0 0 + 0)
      (0 + (0 + @note_uses jpd (S k) i json_rows 0 0) + 0 + 0)) by (destruct k; reflexivity). lia.
  - intros [|k]; [cbn; lia|]. pose proof (seq_size k) as H1. pose proof (rows_size k) as H2.
    assert (E : @note_parts jpd (S k) (n_block op cl) 1 = 1 + Nat.max (1 + (1 + 1 + @note_parts jpd (S k) single_seq 1) + 1)
      (1 + (1 + (1 + 1 + (1 + 1 + @note_parts jpd (S k) json_rows 1)) + 1) + 1)) by (destruct k; reflexivity). lia.
Qed.

Lemma flat_modest n : (forall k i, @note_uses jpd k i n 0 0 = 0) -> (forall k, @note_parts jpd k n 1 <= 17) -> modest n.
Proof. intros H1 H2. split; intros; [rewrite H1; lia|]. specialize (H2 k). lia. Qed.

Lemma comment_modest : modest JSON_COMMENT.
Proof.
  assert (HU : forall k i, @note_uses jpd (S k) i (Fold (Child 0) (n_add (n_add Left (n_or (jlit " ") Newline)) Right)) 0 0 <= 1).
  { intros. apply fold_once; [auto|]. intros. cbn. lia. }
  assert (HP : forall k, @note_parts jpd (S k) (Fold (Child 0) (n_add (n_add Left (n_or (jlit " ") Newline)) Right)) 1 = 1 + k * 5).
  { intros. apply fold_size; [auto|]. intros. cbn. lia. }
  split.
  - intros [|[|k]] i; [cbn; lia|cbn; destruct i; lia|]. specialize (HU (S k) i).
    match type of HU with ?x <= _ => assert (E : @note_uses jpd (S (S k)) i JSON_COMMENT 0 0 = 0 + x + 0) by reflexivity end. lia.
  - intros [|[|k]]; [cbn; lia|cbn; lia|]. specialize (HP (S k)).
    match type of HP with ?x = _ => assert (E : @note_parts jpd (S (S k)) JSON_COMMENT 1 = 1 + (1 + 1 + x) + 1) by reflexivity end. lia.
Qed.

Lemma roots_modest : modest JSON_ROOTS.
Proof.
  assert (HU : forall k i, @note_uses jpd (S k) i (Fold (Child 0) (n_xor Left Right)) 0 0 <= 1).
  { intros. apply fold_once; [auto|]. intros. cbn. lia. }
  assert (HP : forall k, @note_parts jpd (S k) (Fold (Child 0) (n_xor Left Right)) 1 = 1 + k * 4).
  { intros. apply fold_size; [auto|]. intros. cbn. lia. }
  split.
  - intros [|[|k]] i; [cbn; lia|cbn; destruct i; lia|]. exact (HU (S k) i).
  - intros [|[|k]]; [cbn; lia|cbn; lia|]. specialize (HP (S k)).
    match type of HP with ?x = _ => assert (E : @note_parts jpd (S (S k)) JSON_ROOTS 1 = x) by reflexivity end. lia.
Qed.

Lemma pair_modest : modest JSON_OBJECT_PAIR.
Proof.
  split.
  - intros k i. cbn [note_uses JSON_OBJECT_PAIR n_add jlit].
    assert (H0 : match kid_number 0 k with Some m => if Nat.eqb m i then 1 else 0 | None => 0 end <= if Nat.eqb 0 i then 1 else 0).
    { unfold kid_number. change (0 <=? 0)%Z with true. cbv iota. destruct (_ <? _)%Z; [apply Nat.le_refl|lia]. }
    assert (H1 : match kid_number 1 k with Some m => if Nat.eqb m i then 1 else 0 | None => 0 end <= if Nat.eqb 1 i then 1 else 0).
    { unfold kid_number. change (0 <=? 1)%Z with true. cbv iota. destruct (_ <? _)%Z; [apply Nat.le_refl|lia]. }
    destruct i as [|[|i]]; cbn [Nat.eqb] in *; lia.
  - intros k. cbn. lia.
Qed.

Lemma kids_sum (ks : list json_tree) : (forall t, In t ks -> displays_once (jrdoc t) /\ doc_parts (jrdoc t) + 6 <= 23 * tree_size t) ->
  (forall k, In k (map jrdoc ks) -> displays_once k) /\
  list_sum (map doc_parts (map jrdoc ks)) + 6 * length ks <= 23 * list_sum (map tree_size ks).
Proof.
  induction ks as [|t ks IH]; intros H; [simpl; split; [intros k []|lia]|].
  destruct (H t (or_introl eq_refl)) as [H1 H2]. destruct IH as [H3 H4]; [intros; apply H; right; auto|]. split.
  - intros k [<-|Hk]; auto.
  - cbn [map list_sum fold_right List.length] in *. unfold list_sum in *. lia.
Qed.

Lemma node_size n f ks : plainf n f -> modest n ->
  (forall t, In t ks -> displays_once (jrdoc t) /\ doc_parts (jrdoc t) + 6 <= 23 * tree_size t) ->
  displays_once (jrdoc (TreeKids f ks)) /\ doc_parts (jrdoc (TreeKids f ks)) + 6 <= 23 * tree_size (TreeKids f ks).
Proof.
  intros (Hn & _) [HU HP] Hk. apply kids_sum in Hk. destruct Hk as [H1 H2].
  cbn [tree_rdoc doc_parts tree_size]. unfold tree_info, i_note. cbn [t_fields]. rewrite Hn. split.
  - constructor; [|auto]. intros m. rewrite map_length. cbn [i_note t_fields]. rewrite ?Hn. apply HU.
  - rewrite map_length. specialize (HP (length ks)). unfold json_tree in *. set (x := @note_parts jpd _ n 1) in *. set (y := list_sum (map doc_parts _)) in *. set (z := list_sum (map tree_size ks)) in *. set (u := length ks) in *. clearbody x y z u. lia.
Qed.

Lemma text_size n f s : plainf n f -> @note_parts jpd 0 n 1 <= 17 ->
  displays_once (jrdoc (TreeText f s)) /\ doc_parts (jrdoc (TreeText f s)) + 6 <= 23 * tree_size (TreeText f s).
Proof.
  intros (Hn & _) HP. cbn [tree_rdoc doc_parts tree_size]. unfold tree_info, i_note. cbn [t_fields]. rewrite Hn. split; [constructor|lia].
Qed.

Lemma json_size is_white j : forall t, jtree is_white j t ->
  displays_once (jrdoc t) /\ doc_parts (jrdoc t) + 6 <= 23 * tree_size t.
Proof.
  assert (HF : forall l ks, Forall2 (jtree is_white) l ks -> (forall x, In x l -> forall t, jtree is_white x t ->
    displays_once (jrdoc t) /\ doc_parts (jrdoc t) + 6 <= 23 * tree_size t) ->
    forall t, In t ks -> displays_once (jrdoc t) /\ doc_parts (jrdoc t) + 6 <= 23 * tree_size t).
  { intros l ks F. induction F as [|x t l ks Hx F IHF]; intros IH t' Ht; [destruct Ht|]. destruct Ht as [<-|Ht]; [apply (IH x); [left; reflexivity|exact Hx]|].
    apply IHF; auto. intros y Hy. apply IH. right. exact Hy. }
  induction j as [|b|s|s|l IH|l IH|key x IH|s|l IH] using json_ind'; intros t Ht; inversion Ht; subst.
  - eapply node_size; eauto; [|intros t []]. apply flat_modest; intros; cbn; lia.
  - eapply node_size; eauto; [|intros t []]. destruct b; apply flat_modest; intros; cbn; lia.
  - eapply text_size; eauto. cbn. lia.
  - eapply text_size; eauto. cbn. lia.
  - eapply node_size; eauto. apply (block_modest "[" "]").
  - eapply node_size; eauto. apply (block_modest "{" "}").
  - eapply node_size; eauto; [apply pair_modest|]. intros t [<-|[<-|[]]]; auto.
    match goal with H : jtree _ (JString key) _ |- _ => inversion H; subst end. eapply text_size; eauto. cbn. lia.
  - eapply node_size; eauto; [apply comment_modest|]. intros t Hin.
    match goal with H : Forall2 is_word _ _ |- _ => revert H end. generalize (split_whitespace is_white s). clear - Hin.
    intros ws F. induction F as [|w t' ws ks (f & -> & Hp) F IH]; [destruct Hin|]. destruct Hin as [<-|Hin]; auto.
    eapply text_size; eauto. cbn. lia.
  - eapply node_size; eauto. apply roots_modest.
Qed.

(** C58.  The steps of printing JSON are at most quadratically many in the number
    of its values, keys and comment words. *)
Theorem C58_json_quadratic {env : Env} checks is_white j t : made checks is_white j t ->
  (forall n w, @to_string_cost jpd env n t w <= 36 * (23 * tree_size t) ^ 2) /\
  (forall n w path ft st ku kd, @window_cost jpd env n t w path ft st ku kd <= 36 * (23 * tree_size t) ^ 2).
Proof.
  intros Hm. destruct (made_jtree Hm) as [Hj _]. destruct (json_size Hj) as [H1 H2].
  assert (H3 : 36 * (doc_parts (jrdoc t) + 2) ^ 2 <= 36 * (23 * tree_size t) ^ 2) by (apply Nat.mul_le_mono_l, Nat.pow_le_mono_l; lia).
  split.
  - intros n w. eapply Nat.le_trans; [|exact H3]. apply (@C58_to_string_quadratic jpd env _ _ (C46_tree_is_well_behaved t) (@jtree_valid env is_white j t Hj) H1).
  - intros n w path ft st ku kd. eapply Nat.le_trans; [|exact H3]. apply (@C58_window_quadratic jpd env _ _ (C46_tree_is_well_behaved t) (@jtree_valid env is_white j t Hj) H1).
Qed.
