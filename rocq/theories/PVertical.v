(** Printing any part of a vertical list walks through the whole list. *)
From Verif Require Export PStack3.

Set Implicit Arguments.

Section PVertical.
Context {pd : PrettyDoc} {env : Env} {ideq : IdEq pd}.

(** A notation tree of concatenations, newlines and children. *)
Inductive spine : shape -> nat -> Prop :=
| sp_newline : spine (SNewline []) 1
| sp_child n i s : spine (SChild n i s) 1
| sp_concat a b m n : spine a m -> spine b n -> spine (SConcat a b) (S (m + n)).

Lemma loop_cost_next {X S R} (cost : S -> nat) fuel (body : S -> res X (step S R)) s s' : body s = Ok (Next s') ->
  loop_cost cost (Datatypes.S fuel) body s = cost s + loop_cost cost fuel body s'.
Proof. intros H. cbn [loop_cost]. rewrite H. reflexivity. Qed.

Lemma spine_den s m i r : spine s m -> pden i s r -> exists c, r = Ok c.
Proof. intros H. destruct H, r as [c|]; simpl; try tauto; eauto. Qed.

Lemma block_nil cs : block_new [] cs = Ok (Block [] 0 false cs).
Proof. unfold block_new, sum16. simpl. reflexivity. Qed.

Lemma first_spine s m : spine s m -> forall i j r c, pden (Ok i) s (Ok r) -> c = Chunk r j ->
  forall stack p b fuel, exists p' b',
  loop_cost (fun _ => 1) (m + fuel) expand_first_body (c :: stack, p, b) =
  m + loop_cost (fun _ => 1) fuel expand_first_body (stack, p', b').
Proof.
  induction 1 as [|n i0 s|a b m n Ha IHa Hb IHb]; intros i j r c Hd -> stack p bl fuel.
  - destruct r; simpl in Hd; try contradiction. subst ind. do 2 eexists. cbn [Nat.add].
    erewrite loop_cost_next; [|cbn [expand_first_body ck_note]; rewrite block_nil; reflexivity]. reflexivity.
  - destruct r; simpl in Hd; try contradiction. do 2 eexists. cbn [Nat.add].
    erewrite loop_cost_next; [|cbn [expand_first_body ck_note]; reflexivity]. reflexivity.
  - destruct r; simpl in Hd; try contradiction. destruct Hd as [[Hi1 Hd1] [Hi2 Hd2]].
    destruct (spine_den _ _ Ha Hd1) as (c1 & E1). destruct (spine_den _ _ Hb Hd2) as (c2 & E2).
    rewrite E1 in Hd1. rewrite E2 in Hd2.
    destruct (IHb _ i _ _ Hd2 eq_refl (Chunk c1 i :: stack) p bl (m + fuel)) as (p1 & b1 & H1).
    destruct (IHa _ i _ _ Hd1 eq_refl stack p1 b1 fuel) as (p2 & b2 & H2).
    exists p2, b2. cbn [Nat.add]. erewrite loop_cost_next.
    2:{ cbn [expand_first_body ck_note]. unfold chunk_new. rewrite Hi1, Hi2, E1, E2. reflexivity. }
    replace (m + n + fuel) with (n + (m + fuel)) by lia. rewrite H1, H2. lia.
Qed.

Lemma last_spine s m : spine s m -> forall i j r c, pden (Ok i) s (Ok r) -> c = Chunk r j ->
  forall cs stack p b fuel, exists cs' p' b',
  loop_cost (fun _ => 1) (m + fuel) expand_last_body (cs, c :: stack, p, b) =
  m + loop_cost (fun _ => 1) fuel expand_last_body (cs', stack, p', b').
Proof.
  induction 1 as [|n i0 s|a b m n Ha IHa Hb IHb]; intros i j r c Hd -> cs stack p bl fuel.
  - destruct r; simpl in Hd; try contradiction. subst ind. do 3 eexists. cbn [Nat.add].
    erewrite loop_cost_next; [|cbn [expand_last_body ck_note]; rewrite block_nil; reflexivity]. reflexivity.
  - destruct r; simpl in Hd; try contradiction. do 3 eexists. cbn [Nat.add].
    erewrite loop_cost_next; [|cbn [expand_last_body ck_note]; reflexivity]. reflexivity.
  - destruct r; simpl in Hd; try contradiction. destruct Hd as [[Hi1 Hd1] [Hi2 Hd2]].
    destruct (spine_den _ _ Ha Hd1) as (c1 & E1). destruct (spine_den _ _ Hb Hd2) as (c2 & E2).
    rewrite E1 in Hd1. rewrite E2 in Hd2.
    destruct (IHa _ i _ _ Hd1 eq_refl cs (Chunk c2 i :: stack) p bl (n + fuel)) as (cs1 & p1 & b1 & H1).
    destruct (IHb _ i _ _ Hd2 eq_refl cs1 stack p1 b1 fuel) as (cs2 & p2 & b2 & H2).
    exists cs2, p2, b2. cbn [Nat.add]. erewrite loop_cost_next.
    2:{ cbn [expand_last_body ck_note]. unfold chunk_new. rewrite Hi1, Hi2, E1, E2. reflexivity. }
    replace (m + n + fuel) with (m + (n + fuel)) by lia. rewrite H1, H2. lia.
Qed.

(** The tree of a vertical list. *)
Lemma fold_spine self kids sty ks : forall i prev acc m,
  spine (acc (Ctx false [] sty)) m ->
  spine (fold_kids (fun e c => elab_note self kids (n_xor Left Right) (Some e) c) i prev ks acc (Ctx false [] sty)) (m + 4 * length ks).
Proof.
  induction ks as [|k ks IH]; intros i prev acc m H; cbn [fold_kids length].
  - replace (m + 4 * 0) with m by lia. exact H.
  - replace (m + 4 * S (length ks)) with ((m + 4) + 4 * length ks) by lia. apply IH.
    unfold n_xor. cbn [elab_note fe_left fe_index fe_right x_ind].
    replace (m + 4) with (S (S (m + 1) + 1)) by lia. repeat constructor. exact H.
Qed.

Lemma list_spine i k ks sty : i_note i = Fold (Child 0) (n_xor Left Right) ->
  spine (oelab (OBranch i (k :: ks)) (Ctx false [] sty)) (1 + 4 * length ks).
Proof.
  intros Hn. rewrite oelab_eq by reflexivity. cbn [o_info]. rewrite Hn.
  cbn [elab_note]. cbv zeta. cbn [forget okids_of o_kids map].
  rewrite <- (map_length (fun k0 => Kid (forget k0) (oelab k0)) ks).
  apply fold_spine. cbn [elab_note]. cbv zeta. unfold kid_number. simpl length.
  replace (0 <? Z.of_nat (S (length (map (fun k0 => Kid (forget k0) (oelab k0)) ks))))%Z with true by (symmetry; apply Z.ltb_lt; lia).
  cbn [Z.leb Z.compare Z.to_nat nth_error andb]. constructor.
Qed.

Theorem list_lower i ks d : i_note i = Fold (Child 0) (n_xor Left Right) -> rep (RBranch i ks) d ->
  forall w path ft st ku kd n, 4 * length ks <= n ->
  4 * length ks <= window_cost n d w path ft st ku kd + 3.
Proof.
  intros Hn Hr w path ft st ku kd n Hle. destruct ks as [|k ks]; [simpl; lia|]. cbn [length] in *.
  set (o := OBranch i (map (fun k => OClosed (r_info k)) (k :: ks))).
  assert (Hc : closes o (RBranch i (k :: ks))).
  { constructor. clear. induction (k :: ks) as [|x l IH]; simpl; constructor; auto. apply cl_closed. }
  pose proof (closes_orep Hc Hr) as Ho.
  assert (Hv : ovalid o).
  { constructor; [rewrite Hn; reflexivity|]. intros x Hx. apply in_map_iff in Hx as (y & <- & _). constructor. }
  pose proof (orep_unfolds Hv Ho) as Hun. unfold punfolds in Hun. cbn [o o_info] in Hun.
  assert (Hi : rep_info i d) by (inversion Hr; auto). destruct (rep_info_eqs Hi) as (H1 & H2 & H3 & _).
  unfold window_cost. apply Nat.le_trans with (pretty_print_cost n d w path ft st + 3); [|lia].
  unfold pretty_print_cost, printer_new. rewrite block_nil. cbn [bind after].
  unfold seek_cost, with_optional_style. rewrite H2, H3. cbn [lift bind after].
  set (sty := match st with Some s => style_combine s (i_style i) | None => i_style i end).
  specialize (Hun false [] sty None).
  assert (Hsp : spine (oelab o (Ctx false [] sty)) (1 + 4 * length ks)).
  { unfold o. cbn [map]. rewrite <- (map_length (fun k => OClosed (r_info k)) ks). apply list_spine. exact Hn. }
  destruct (spine_den _ _ Hsp Hun) as (c & Ec). rewrite Ec in Hun.
  unfold chunk_new. cbn [dl_doc]. rewrite H1. cbn [lift bind]. rewrite Ec. cbn [bind after].
  destruct n as [|n']; [lia|]. replace (S n') with ((1 + 4 * length ks) + (n' - 4 * length ks)) by lia. set (fuel := n' - 4 * length ks).
  set (N0 := 1 + 4 * length ks + fuel).
  assert (Hf : forall p b, 1 + 4 * length ks <= expand_first_cost N0 p b (Chunk c (i_id i))).
  { intros p b. unfold expand_first_cost.
    destruct (first_spine Hsp (i_id i) Hun (j := i_id i) eq_refl [] p b fuel) as (p' & b' & E). fold N0 in E. rewrite E. lia. }
  assert (Hl : forall p b, 1 + 4 * length ks <= expand_last_cost N0 p b (Chunk c (i_id i))).
  { intros p b. unfold expand_last_cost.
    destruct (last_spine Hsp (i_id i) Hun (j := i_id i) eq_refl [] [] p b fuel) as (cs' & p' & b' & E). fold N0 in E. rewrite E. lia. }
  destruct path as [|m path].
  - cbn [seek_path_cost seek_path after]. destruct ft; cbn [pr_next set_next];
      unfold seek_start_cost, seek_end_cost, seek_mark_cost, seek_text_cost; cbn [pr_next];
      match goal with |- context[expand_first_cost N0 ?p ?b ?c] => specialize (Hf p b) | |- context[expand_last_cost N0 ?p ?b ?c] => specialize (Hl p b) end; lia.
  - cbn [seek_path_cost]. unfold seek_child_cost at 1. cbn [pr_next].
    match goal with |- context[expand_first_cost N0 ?p ?b ?c] => specialize (Hf p b) end. lia.
Qed.
End PVertical.
