(** Vertical lists of which only some items are open. *)
From Verif Require Export PPeek10.
From Verif Require Import SpecMask.

Set Implicit Arguments.

Section PPeek11.
Context {pd : PrettyDoc} {env : Env} {ideq : IdEq pd}.
Variable w : N.
Variable sty : Sty.
Variable j : Id.

Notation item_ctx k := (in_style (i_style (o_info k)) (Ctx false [] sty)).

(** An item of the list. *)
Definition vpiece (n : nat) (k : odoc) : list pev :=
  if opens (oelab k (item_ctx k))
  then Ev (EEnter j n) :: fst (peek w (oelab k (item_ctx k)) (i_id (o_info k)) look_end (Some pos0)) ++ [Ev (EExit j n)]
  else [Gap (GapChild j n)].

Fixpoint vpieces (n : nat) (ks : list odoc) : list pev :=
  match ks with
  | [] => []
  | k :: ks' => Ev (ENewline []) :: vpiece n k ++ vpieces (S n) ks'
  end.

Lemma peek_item n k lk : (forall r e, lk r e = Some true) ->
  fst (peek w (child n (Kid (forget k) (oelab k)) (Ctx false [] sty)) j lk (Some pos0)) = vpiece n k.
Proof.
  intros Hlk. unfold child, vpiece. cbn [k_doc k_tree peek]. rewrite o_info_forget.
  destruct (opens _); [|reflexivity]. cbv zeta. cbn [fst].
  rewrite (@peek_ext _ _ w (oelab k (item_ctx k)) (i_id (o_info k)) lk look_end (Some pos0)); [reflexivity|].
  intros r e. rewrite Hlk. reflexivity.
Qed.

Lemma indent_nil : indent_pos [] = Some pos0.
Proof. unfold indent_pos, osum16. simpl. unfold sum16. simpl. reflexivity. Qed.

Lemma peek_fold self kids ks : forall i prev acc x,
  (forall lk, (forall r e, lk r e = Some true) -> fst (peek w (acc (Ctx false [] sty)) j lk (Some pos0)) = x) ->
  opens (acc (Ctx false [] sty)) = true ->
  let s := fold_kids (fun e c => elab_note self kids (n_xor Left Right) (Some e) c) i prev
             (map (fun k => Kid (forget k) (oelab k)) ks) acc (Ctx false [] sty) in
  opens s = true /\
  forall lk, (forall r e, lk r e = Some true) -> fst (peek w s j lk (Some pos0)) = x ++ vpieces (S i) ks.
Proof.
  induction ks as [|k ks IH]; intros i prev acc x Hx Ho; cbv zeta.
  - simpl. split; auto. intros lk H. rewrite app_nil_r. auto.
  - cbn [map fold_kids].
    destruct (IH (S i) (Kid (forget k) (oelab k))
      (fun c => elab_note self kids (n_xor Left Right) (Some (FoldEnv acc (k_doc prev) (S i) (Kid (forget k) (oelab k)))) c)
      (x ++ Ev (ENewline []) :: vpiece (S i) k)) as [H1 H2].
    + intros lk Hlk. unfold n_xor. cbn [elab_note fe_left fe_index fe_right x_ind]. cbn [peek]. rewrite indent_nil. cbv zeta. cbn [fst snd].
      pose proof (peek_item (S i) k lk Hlk) as E. rewrite E. rewrite Hx; [|reflexivity].
      rewrite <- app_assoc. reflexivity.
    + unfold n_xor. cbn [elab_note fe_left fe_index fe_right x_ind]. unfold child. cbn [opens]. rewrite Ho, indent_nil. reflexivity.
    + cbv zeta in H1, H2. split; [exact H1|]. intros lk Hlk. etransitivity; [apply H2; exact Hlk|].
      rewrite <- app_assoc. reflexivity.
Qed.

End PPeek11.

Section VList.
Context {pd : PrettyDoc} {env : Env} {ideq : IdEq pd}.

Definition root_style (i : info) (st : option Sty) : Sty :=
  match st with Some s => style_combine s (i_style i) | None => i_style i end.

(** The partial layout of a vertical list. *)
Lemma vlist_layout w i k ks st : i_note i = Fold (Child 0) (n_xor Left Right) ->
  open_layout w (OBranch i (k :: ks)) st =
  vpiece w (root_style i st) (i_id i) 0 k ++ vpieces w (root_style i st) (i_id i) 1 ks.
Proof.
  intros Hn. unfold open_layout, peek_doc. rewrite oelab_eq by reflexivity. cbn [o_info]. rewrite Hn.
  change (root_ctx (forget (OBranch i (k :: ks))) st) with (Ctx false [] (root_style i st)).
  cbn [elab_note]. cbv zeta. cbn [forget okids_of o_kids map].
  change (elab_note ?s ?ks (Child 0) None) with (fun c => elab_note s ks (Child 0) None c).
  edestruct (@peek_fold _ _ w (root_style i st) (i_id i)) as [H1 H2];
    [| |rewrite H1; apply H2; reflexivity].
  - intros lk Hlk. cbn [elab_note]. cbv zeta. unfold kid_number. simpl length.
    replace (0 <? Z.of_nat (S (length (map (fun k0 => Kid (forget k0) (oelab k0)) ks))))%Z with true by (symmetry; apply Z.ltb_lt; lia).
    cbn [Z.leb Z.compare Z.to_nat nth_error]. apply peek_item. exact Hlk.
  - cbn [elab_note]. cbv zeta. unfold kid_number. simpl length.
    replace (0 <? Z.of_nat (S (length (map (fun k0 => Kid (forget k0) (oelab k0)) ks))))%Z with true by (symmetry; apply Z.ltb_lt; lia).
    reflexivity.
Qed.

End VList.
