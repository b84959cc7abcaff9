(** Cases of C60. *)
From Verif Require POnce.
From Verif Require Import Properties2Ex Properties10Ex Examples Properties3 Properties27 Properties23Ex.
From Coq Require Import String.
Open Scope string_scope.
Open Scope list_scope.
Local Notation length := List.length.

#[local] Instance s_ideq : IdEq spd.
Proof. intros a b. apply Nat.eqb_eq. Qed.
#[local] Existing Instance f_ideq.

(** A document with 2 ^ h lines. *)
Fixpoint bin (h base : nat) : sdoc :=
  match h with
  | O => Leaf base Text (codes "x")
  | S h' => Node base (Fold (Child 0) (n_xor Left Right)) [bin h' (S base); bin h' (base + 2 ^ S h')]
  end.

Lemma bin_stacked h : forall base, @stacked spd 2 h (s_tree (bin h base)).
Proof.
  induction h as [|h IH]; intros base; cbn [bin s_tree map]; [constructor; reflexivity|].
  constructor; [reflexivity|discriminate|simpl; lia|]. intros k [<-|[<-|[]]]; apply IH.
Qed.

Lemma bin_leaves h : forall base, leaves (s_tree (bin h base)) = 2 ^ h.
Proof.
  induction h as [|h IH]; intros base; cbn [bin s_tree map leaves]; [reflexivity|].
  rewrite !IH. simpl. lia.
Qed.

Lemma bin_path h : forall base, exists i s, @node_at spd (s_tree (bin h base)) (repeat 1 h) = Some (RText i s).
Proof.
  induction h as [|h IH]; intros base; cbn [bin s_tree map repeat node_at r_kids]; [eauto|]. apply IH.
Qed.

Lemma bin_ids h : forall base, NoDup (@ids spd (s_tree (bin h base))) /\
  forall j, In j (@ids spd (s_tree (bin h base))) -> base <= j < base + 2 ^ S h - 1.
Proof.
  induction h as [|h IH]; intros base; cbn [bin s_tree map].
  - split; [simpl; constructor; [intros []|constructor]|]. intros j [<-|[]]. simpl. lia.
  - destruct (IH (S base)) as [A1 A2]. destruct (IH (base + 2 ^ S h)) as [B1 B2].
    assert (Hp : 1 <= 2 ^ h) by (pose proof (Nat.pow_nonzero 2 h); lia).
    rewrite (Nat.pow_succ_r' 2 (S h)). rewrite (Nat.pow_succ_r' 2 h) in *.
    cbn [ids i_id s_info s_id flat_map]. rewrite app_nil_r. split.
    + constructor.
      * intros Hin. apply in_app_or in Hin as [Hin|Hin]; [apply A2 in Hin|apply B2 in Hin]; simpl in Hin; lia.
      * apply POnce.nodup_app; auto. intros x Hx Hy. apply A2 in Hx. apply B2 in Hy. lia.
    + intros j [<-|Hin]; [simpl; lia|]. apply in_app_or in Hin as [Hin|Hin]; [apply A2 in Hin|apply B2 in Hin]; lia.
Qed.

(** Fifty lines, about its last one, of a document with 2 ^ h lines. *)
Example C60_case_bin h : leaves (s_tree (bin h 0)) = 2 ^ h /\
  forall n, @window_cost spd (senv true) n (bin h 0) 80 (repeat 1 h) FStart None 49 0 <= 36 * (50 * (10 * h + 1) + 2) ^ 2.
Proof.
  split; [apply bin_leaves|]. intros n. destruct (bin_path h 0) as (i & s & Hp).
  destruct (@C60_stack_window spd (senv true) _ 2 h (s_tree (bin h 0)) (bin h 0) 80%N None (repeat 1 h) i s 49 0
    (bin_stacked h 0) (s_rep _) (ids_unique _ (proj1 (bin_ids h 0))) Hp n) as [H _].
  replace (5 * 2 * h) with (10 * h) in H by lia. exact H.
Qed.

(** A flat list of [N] lines. *)
Definition flat (N : nat) : sdoc := Node 0 (Fold (Child 0) (n_xor Left Right)) (map (fun i => Leaf (S i) Text (codes "x")) (seq 0 N)).

Example C60_case_flat N path n : 4 * N <= n ->
  4 * N <= @window_cost spd (senv true) n (flat N) 80 path FStart None 0 0 + 3.
Proof.
  intros Hn. pose proof (@C60_flat_list_lower spd (senv true) (s_info (flat N))
    (map s_tree (map (fun i => Leaf (S i) Text (codes "x")) (seq 0 N))) (flat N) eq_refl (s_rep (flat N)) 80%N path FStart None 0 0 n) as H.
  rewrite !map_length, seq_length in H. apply H. exact Hn.
Qed.

Example C60_case_flat_8 : @window_cost spd (senv true) 100 (flat 8) 80 [4] FStart None 0 0 = 47.
Proof. vm_compute. reflexivity. Qed.

(** Closed parts may be broken (see C57): the work is that of the open part. *)
Example C60_case_window n :
  @window_cost fpd f_env n pair_doc 5 [0; 1] FStart None 1 0 <= 36 * (@open_parts fpd (f_open cl pair_doc) + 2) ^ 2.
Proof.
  apply (@C60_window_at_start fpd f_env f_ideq (f_open cl pair_doc) pair_doc 5%N None [0; 1] 1 0 [styled2 2 "aaa"] [] [] (styled2 3 "bbb")
    [SpecPeek.Ev (@EEnter fpd 0 0); SpecPeek.Ev (@EEnter fpd 1 0); f_text2 2 "aaa"; SpecPeek.Ev (@EExit fpd 1 0); SpecPeek.Ev (@ENewline fpd []); SpecPeek.Ev (@EEnter fpd 1 1)]
    [f_text2 3 "bbb"]
    [SpecPeek.Ev (@EExit fpd 1 1); SpecPeek.Ev (@EExit fpd 0 0); SpecPeek.Ev (@ENewline fpd []); Gap (@GapChild fpd 0 1)]).
  - apply f_orep. reflexivity.
  - apply o_valid_ok. reflexivity.
  - apply oids_unique. vm_compute. repeat (constructor; [simpl; intuition discriminate|]). constructor.
  - cbn. constructor; [intros [|[|m]]; simpl; lia|]. intros k [<-|[<-|[]]]; [|constructor].
    constructor; [intros [|[|m]]; simpl; lia|]. intros k [<-|[<-|[]]]; constructor.
  - apply (@leads_down fpd (oid_at (f_open cl pair_doc)) [] _ 0 0 []
      [SpecPeek.Ev (@EEnter fpd 1 0); f_text2 2 "aaa"; SpecPeek.Ev (@EExit fpd 1 0); SpecPeek.Ev (@ENewline fpd []); SpecPeek.Ev (@EEnter fpd 1 1); f_text2 3 "bbb"; SpecPeek.Ev (@EExit fpd 1 1)]
      [SpecPeek.Ev (@ENewline fpd []); Gap (@GapChild fpd 0 1)] [1]
      [SpecPeek.Ev (@EEnter fpd 1 0); f_text2 2 "aaa"; SpecPeek.Ev (@EExit fpd 1 0); SpecPeek.Ev (@ENewline fpd []); SpecPeek.Ev (@EEnter fpd 1 1)]
      [f_text2 3 "bbb"] [SpecPeek.Ev (@EExit fpd 1 1)]); try reflexivity; try no_in.
    apply (@leads_down fpd (oid_at (f_open cl pair_doc)) [0] _ 1 1
      [SpecPeek.Ev (@EEnter fpd 1 0); f_text2 2 "aaa"; SpecPeek.Ev (@EExit fpd 1 0); SpecPeek.Ev (@ENewline fpd [])]
      [f_text2 3 "bbb"] [] [] [] [f_text2 3 "bbb"] []); try reflexivity; try no_in.
    constructor.
  - left. exists [@EEnter fpd 0 0; @EEnter fpd 1 0; @EText fpd 2 (@Textual fpd (codes "aaa") 3 [100; 101; 102] true); @EExit fpd 1 0;
      @ENewline fpd []; @EEnter fpd 1 1], [styled2 2 "aaa"]. repeat split.
  - right. exists [@EText fpd 3 (@Textual fpd (codes "bbb") 3 [100; 101; 103] true); @EExit fpd 1 1; @EExit fpd 0 0], [], [Gap (@GapChild fpd 0 1)].
    repeat split.
Qed.

Example C60_case_window_parts : @open_parts fpd (f_open cl pair_doc) = 14.
Proof. vm_compute. reflexivity. Qed.
