(** How much of a stack of lines must be open to print some of them. *)
From Verif Require Export SpecStack PTag2 PPeek12 SpecFocus.

Set Implicit Arguments.

Section Closes.
Context {pd : PrettyDoc} {env : Env}.

Lemma closes_orep o : forall r d, closes o r -> rep r d -> orep o d.
Proof.
  induction o as [i s|i ks IH|i] using odoc_ind'; intros r d Hc Hr; inversion Hc as [i0 s0|i0 ks0 ks' F|r0]; subst.
  - inversion Hr; subst. constructor; auto.
  - inversion Hr as [|i0 ks0 d0 Hi Hn Hch Hl Hp Hk]; subst. pose proof (Forall2_length F) as Hlen.
    constructor; auto; rewrite ?Hlen; auto.
    + intros Hne. apply Hl. destruct ks', ks; try discriminate; congruence.
    + intros n x k Hx Hk0. pose proof (Forall2_nth F n) as H. rewrite Hk0 in H. destruct (nth_error ks' n) as [k'|] eqn:E; [|contradiction].
      eapply IH; [eapply nth_error_In; eauto|exact H|eauto].
  - assert (H : rep_info (r_info r) d) by (inversion Hr; auto).
    destruct (rep_info_eqs H) as (H1 & H2 & H3 & H4 & H5). econstructor; eauto.
Qed.

Lemma closes_valid o : forall r, closes o r -> valid_doc r -> ovalid o.
Proof.
  induction o as [i s|i ks IH|i] using odoc_ind'; intros r Hc Hr; inversion Hc as [i0 s0|i0 ks0 ks' F|r0]; subst;
    [inversion Hr; constructor; auto| |constructor].
  inversion Hr as [|i0 ks0 H0 Hk]; subst. constructor; auto. intros k Hin.
  apply In_nth_error in Hin as (n & En). pose proof (Forall2_nth F n) as H. rewrite En in H.
  destruct (nth_error ks' n) as [k'|] eqn:E; [|contradiction].
  eapply IH; [eapply nth_error_In; eauto|exact H|]. apply Hk. eapply nth_error_In; eauto.
Qed.

Lemma closes_id o r q j : closes o r -> oid_at o q = Some j -> id_at r q = Some j.
Proof.
  revert o r. induction q as [|n q IH]; intros o r Hc.
  - unfold oid_at, id_at. simpl. rewrite (closes_info Hc). destruct (o_open o); [auto|discriminate].
  - unfold oid_at, id_at. simpl. destruct Hc as [i s|i ks ks' F|r]; cbn [o_kids r_kids]; try (destruct n; discriminate).
    pose proof (Forall2_nth F n) as H. destruct (nth_error ks n) as [k|], (nth_error ks' n) as [k'|]; try contradiction; [|discriminate].
    apply (IH k k' H).
Qed.

Lemma closes_unique o r : closes o r -> unique_ids (id_at r) -> ounique o.
Proof. intros Hc Hu q q' j H1 H2. apply (Hu q q' j); eapply closes_id; eauto. Qed.

End Closes.

Section PStack.
Context {pd : PrettyDoc} {env : Env} {ideq : IdEq pd}.
Variable w : N.
Variables lo hi : nat.

(** Only the leaves from [lo] to [hi], and the nodes above them, are open. *)
Definition far (a n : nat) : bool := (a + n <=? lo) || (hi <=? a).

Fixpoint opn (r : rdoc) (a : nat) : odoc :=
  if far a (leaves r) then OClosed (r_info r)
  else match r with
  | RText i s => OText i s
  | RBranch i ks =>
      OBranch i ((fix go (ks : list rdoc) (a : nat) : list odoc :=
        match ks with [] => [] | k :: ks' => opn k a :: go ks' (a + leaves k) end) ks a)
  end.

Fixpoint opns (ks : list rdoc) (a : nat) : list odoc :=
  match ks with [] => [] | k :: ks' => opn k a :: opns ks' (a + leaves k) end.

Lemma opn_branch i ks a : far a (leaves (RBranch i ks)) = false -> opn (RBranch i ks) a = OBranch i (opns ks a).
Proof. intros H. cbn [opn]. rewrite H. reflexivity. Qed.

Lemma opn_info r a : o_info (opn r a) = r_info r.
Proof. destruct r; cbn [opn]; destruct (far a _); reflexivity. Qed.

Lemma opn_open r a : o_open (opn r a) = negb (far a (leaves r)).
Proof. destruct r; cbn [opn]; destruct (far a _); reflexivity. Qed.

Lemma opn_closes r : forall a, closes (opn r a) r.
Proof.
  induction r as [i s|i ks IH] using rdoc_ind'; intros a.
  - cbn [opn]. destruct (far a _); [apply (cl_closed (RText i s))|constructor].
  - destruct (far a (leaves (RBranch i ks))) eqn:E.
    + cbn [opn]. rewrite E. apply (cl_closed (RBranch i ks)).
    + rewrite (opn_branch _ _ _ E). constructor. clear E. revert a. induction ks as [|k ks IHk]; intros a; cbn [opns]; constructor.
      * apply IH. left. reflexivity.
      * apply IHk. intros k' H. apply IH. right. exact H.
Qed.

Lemma opns_app x y : forall a, opns (x ++ y) a = opns x a ++ opns y (a + list_sum (map leaves x)).
Proof.
  induction x as [|k x IH]; intros a; simpl; [rewrite Nat.add_0_r; reflexivity|]. rewrite IH, Nat.add_assoc. reflexivity.
Qed.

Lemma opns_length ks : forall a, length (opns ks a) = length ks.
Proof. induction ks; intros a0; simpl; auto. Qed.

(** ** What is known of a piece of layout *)
Notation NL := (@Ev pd (ENewline [])).
Fixpoint nl (u : list event) : nat :=
  match u with [] => 0 | ENewline _ :: u' => S (nl u') | _ :: u' => nl u' end.
Lemma nl_app u v : nl (u ++ v) = nl u + nl v.
Proof. induction u as [|[] u IH]; simpl; auto. Qed.
Lemma nl_lines u : forall cur, length (lines_from cur u) = S (nl u).
Proof. induction u as [|[] u IH]; intros cur; simpl; auto. Qed.

Definition kall (x : list pev) (m : nat) : Prop := exists u, x = map Ev u /\ nl u = m.
Definition kbeg (x : list pev) (m : nat) : Prop := exists u z, x = map Ev u ++ NL :: z /\ nl u = m.
Definition kend (x : list pev) (m : nat) : Prop := exists z u, x = z ++ NL :: map Ev u /\ nl u = m.

Lemma kall_app x y m n : kall x m -> kall y n -> kall (x ++ y) (m + n).
Proof. intros (u & -> & <-) (v & -> & <-). exists (u ++ v). rewrite map_app, nl_app. auto. Qed.
Lemma kall_kbeg x y m n : kall x m -> kbeg y n -> kbeg (x ++ y) (m + n).
Proof. intros (u & -> & <-) (v & z & -> & <-). exists (u ++ v), z. rewrite map_app, nl_app, app_assoc. auto. Qed.
Lemma kbeg_app x y m : kbeg x m -> kbeg (x ++ y) m.
Proof. intros (u & z & -> & H). exists u, (z ++ y). rewrite <- app_assoc. auto. Qed.
Lemma kend_kall x y m n : kend x m -> kall y n -> kend (x ++ y) (m + n).
Proof. intros (z & u & -> & <-) (v & -> & <-). exists z, (u ++ v). rewrite map_app, nl_app, <- app_assoc. auto. Qed.
Lemma kend_app x y m : kend y m -> kend (x ++ y) m.
Proof. intros (z & u & -> & H). exists (x ++ z), u. rewrite <- app_assoc. auto. Qed.
Lemma kall_one e : (forall ind, e <> ENewline ind) -> kall [Ev e] 0.
Proof. intros H. exists [e]. split; auto. destruct e; simpl; auto. destruct (H ind eq_refl). Qed.
Lemma kall_nil : kall [] 0.
Proof. exists []. auto. Qed.
Lemma kall_nl : kall [NL] 1.
Proof. exists [ENewline []]. auto. Qed.
Hint Resolve kall_app kall_kbeg kbeg_app kend_kall kend_app kall_nil kall_nl : known.

(** ** Stacks *)
Lemma vlist_opens i k ks s : i_note i = Fold (Child 0) (n_xor Left Right) ->
  opens (oelab (OBranch i (k :: ks)) (Ctx false [] s)) = true.
Proof.
  intros Hn. rewrite oelab_eq by reflexivity. cbn [o_info]. rewrite Hn.
  cbn [elab_note]. cbv zeta. cbn [forget okids_of o_kids map].
  change (elab_note ?s ?ks (Child 0) None) with (fun c => elab_note s ks (Child 0) None c).
  edestruct (@peek_fold _ _ w s (i_id i)) as [H1 H2]; [| |exact H1].
  - intros lk Hlk. cbn [elab_note]. cbv zeta. unfold kid_number. simpl length.
    replace (0 <? Z.of_nat (S (length (map (fun k0 => Kid (forget k0) (oelab k0)) ks))))%Z with true by (symmetry; apply Z.ltb_lt; lia).
    cbn [Z.leb Z.compare Z.to_nat nth_error]. apply peek_item. exact Hlk.
  - cbn [elab_note]. cbv zeta. unfold kid_number. simpl length.
    replace (0 <? Z.of_nat (S (length (map (fun k0 => Kid (forget k0) (oelab k0)) ks))))%Z with true by (symmetry; apply Z.ltb_lt; lia).
    reflexivity.
Qed.

Variable B : nat.

Lemma leaves_pos h r : stacked B h r -> 1 <= leaves r.
Proof.
  revert h. induction r as [i s|i ks IH] using rdoc_ind'; intros h H; [simpl; lia|].
  inversion H as [|h' i' ks' Hn Hne Hl Hk]; subst. destruct ks as [|k ks]; [congruence|].
  cbn [leaves map list_sum fold_right]. pose proof (IH k ltac:(left; reflexivity) _ (Hk k ltac:(left; reflexivity))). lia.
Qed.

Lemma stacked_opens h r a s : stacked B h r -> far a (leaves r) = false -> opens (oelab (opn r a) (Ctx false [] s)) = true.
Proof.
  intros H Hf. destruct H as [h i t Hn|h i ks Hn Hne Hl Hk].
  - cbn [opn]. rewrite Hf. cbn [oelab]. rewrite Hn. reflexivity.
  - rewrite (opn_branch _ _ _ Hf). destruct ks as [|k ks]; [congruence|]. cbn [opns]. apply vlist_opens. exact Hn.
Qed.

(** A piece of a list, seen from above. *)
Lemma piece_eq h r a sty j n : stacked B h r ->
  vpiece w sty j n (opn r a) =
  if far a (leaves r) then [Gap (GapChild j n)]
  else Ev (EEnter j n) :: open_layout w (opn r a) (Some sty) ++ [Ev (EExit j n)].
Proof.
  intros H. unfold vpiece. destruct (far a (leaves r)) eqn:Ef.
  - assert (E : opn r a = OClosed (r_info r)) by (destruct r; cbn [opn]; rewrite Ef; reflexivity). rewrite E. reflexivity.
  - unfold in_style. cbn [x_flat x_ind x_sty]. pose proof (@stacked_opens h r a (style_combine sty (i_style (o_info (opn r a)))) H Ef) as Ho. rewrite Ho.
    unfold open_layout, peek_doc, root_ctx. rewrite o_info_forget, Ho. reflexivity.
Qed.

Lemma leaf_layout i s a st : i_note i = Text -> far a 1 = false -> exists t, open_layout w (opn (RText i s) a) st = [Ev (EText (i_id i) t)].
Proof.
  intros Hn Hf. cbn [opn leaves]. rewrite Hf. unfold open_layout, peek_doc. cbn [oelab o_info]. rewrite Hn. cbn [elab_note forget opens peek].
  assert (E : oadd16 0 (str_width s) = Some (str_width s)).
  { unfold oadd16, add16. rewrite N.add_0_l.
    assert (H : (str_width s < U16)%N) by (unfold str_width; apply N.mod_lt; discriminate).
    apply N.ltb_lt in H. rewrite H. reflexivity. }
  unfold pos0. cbn [obind text_pos tx_width]. rewrite E. eexists. reflexivity.
Qed.

Definition content_ok (r : rdoc) : Prop := forall h a st, stacked B h r -> far a (leaves r) = false ->
  let x := open_layout w (opn r a) st in
  let b := a + leaves r in
  (lo <= a -> b <= hi -> kall x (leaves r - 1)) /\
  (lo <= a -> hi < b -> kbeg x (hi - a - 1)) /\
  (a < lo -> b <= hi -> kend x (b - lo - 1)).

Lemma far_false a n : far a n = false <-> lo < a + n /\ a < hi.
Proof. unfold far. rewrite Bool.orb_false_iff, Nat.leb_gt, Nat.leb_gt. reflexivity. Qed.
Lemma far_true a n : far a n = true <-> a + n <= lo \/ hi <= a.
Proof. unfold far. rewrite Bool.orb_true_iff, Nat.leb_le, Nat.leb_le. reflexivity. Qed.

Section List.
Variable sty : Sty.
Variable j : Id.
Variable h : nat.

Notation V n ks a := (vpieces w sty j n (opns ks a)).
Notation total ks := (list_sum (map leaves ks)).

Lemma wrap_all n r a : content_ok r -> stacked B h r -> lo <= a -> a + leaves r <= hi -> 
  kall (vpiece w sty j n (opn r a)) (leaves r - 1).
Proof.
  intros Hc Hs H1 H2. pose proof (leaves_pos Hs) as Hp. rewrite (@piece_eq h r a sty j n Hs).
  assert (Hf : far a (leaves r) = false) by (apply far_false; lia). rewrite Hf.
  destruct (Hc h a (Some sty) Hs Hf) as (H & _ & _). specialize (H H1 H2). cbv zeta in H.
  change (Ev (EEnter j n) :: open_layout w (opn r a) (Some sty) ++ [Ev (EExit j n)])
    with ([Ev (EEnter j n)] ++ open_layout w (opn r a) (Some sty) ++ [Ev (EExit j n)]).
  replace (leaves r - 1) with (0 + ((leaves r - 1) + 0)) by lia.
  apply kall_app; [apply kall_one; discriminate|]. apply kall_app; [exact H|]. apply kall_one; discriminate.
Qed.

Lemma wrap_beg n r a : content_ok r -> stacked B h r -> lo <= a -> a < hi -> hi < a + leaves r -> 
  kbeg (vpiece w sty j n (opn r a)) (hi - a - 1).
Proof.
  intros Hc Hs H1 H2 H3. pose proof (leaves_pos Hs) as Hp. rewrite (@piece_eq h r a sty j n Hs).
  assert (Hf : far a (leaves r) = false) by (apply far_false; lia). rewrite Hf.
  destruct (Hc h a (Some sty) Hs Hf) as (_ & H & _). specialize (H H1 H3). cbv zeta in H.
  change (Ev (EEnter j n) :: open_layout w (opn r a) (Some sty) ++ [Ev (EExit j n)])
    with ([Ev (EEnter j n)] ++ open_layout w (opn r a) (Some sty) ++ [Ev (EExit j n)]).
  change (hi - a - 1) with (0 + (hi - a - 1)).
  apply kall_kbeg; [apply kall_one; discriminate|]. apply kbeg_app. exact H.
Qed.

Lemma wrap_end n r a : content_ok r -> stacked B h r -> a < lo -> lo < a + leaves r -> a + leaves r <= hi -> 
  kend (vpiece w sty j n (opn r a)) (a + leaves r - lo - 1).
Proof.
  intros Hc Hs H1 H2 H3. pose proof (leaves_pos Hs) as Hp. rewrite (@piece_eq h r a sty j n Hs).
  assert (Hf : far a (leaves r) = false) by (apply far_false; lia). rewrite Hf.
  destruct (Hc h a (Some sty) Hs Hf) as (_ & _ & H). specialize (H H1 H3). cbv zeta in H.
  change (Ev (EEnter j n) :: open_layout w (opn r a) (Some sty) ++ [Ev (EExit j n)])
    with ([Ev (EEnter j n)] ++ open_layout w (opn r a) (Some sty) ++ [Ev (EExit j n)]).
  apply kend_app. replace (a + leaves r - lo - 1) with ((a + leaves r - lo - 1) + 0) by lia.
  apply kend_kall; [exact H|]. apply kall_one; discriminate.
Qed.

Lemma list_all ks : (forall k, In k ks -> content_ok k /\ stacked B h k) ->
  forall n a, lo <= a -> a + total ks <= hi -> kall (V n ks a) (total ks).
Proof.
  induction ks as [|k ks IH]; intros Hk n a H1 H2; [apply kall_nil|].
  cbn [map list_sum fold_right] in *. cbn [opns vpieces].
  destruct (Hk k ltac:(left; reflexivity)) as [Hc Hs]. pose proof (leaves_pos Hs) as Hp.
  change (NL :: vpiece w sty j n (opn k a) ++ vpieces w sty j (S n) (opns ks (a + leaves k)))
    with ([NL] ++ vpiece w sty j n (opn k a) ++ vpieces w sty j (S n) (opns ks (a + leaves k))).
  replace (leaves k + fold_right Nat.add 0 (map leaves ks)) with (1 + ((leaves k - 1) + total ks)) by (unfold list_sum; lia).
  unfold list_sum in *.
  apply kall_app; [apply kall_nl|]. apply kall_app; [apply wrap_all; auto; lia|]. apply IH; [|lia|lia].
  intros k' H. apply Hk. right. exact H.
Qed.

Lemma list_beg ks : (forall k, In k ks -> content_ok k /\ stacked B h k) ->
  forall n a, lo <= a -> a <= hi -> hi < a + total ks -> kbeg (V n ks a) (hi - a).
Proof.
  unfold list_sum. induction ks as [|k ks IH]; intros Hk n a H1 H2 H3; [simpl in H3; lia|].
  cbn [map fold_right] in *. cbn [opns vpieces].
  destruct (Hk k ltac:(left; reflexivity)) as [Hc Hs]. pose proof (leaves_pos Hs) as Hp.
  destruct (Nat.eq_dec a hi) as [->|Hne].
  { exists []. rewrite Nat.sub_diag. simpl. eauto. }
  change (NL :: vpiece w sty j n (opn k a) ++ vpieces w sty j (S n) (opns ks (a + leaves k)))
    with ([NL] ++ vpiece w sty j n (opn k a) ++ vpieces w sty j (S n) (opns ks (a + leaves k))).
  replace (hi - a) with (1 + (hi - a - 1)) by lia.
  apply kall_kbeg; [apply kall_nl|].
  destruct (le_lt_dec (a + leaves k) hi) as [Hle|Hlt].
  - replace (hi - a - 1) with ((leaves k - 1) + (hi - (a + leaves k))) by lia.
    apply kall_kbeg; [apply wrap_all; auto|]. apply IH; [|lia|lia|lia]. intros k' H. apply Hk. right. exact H.
  - apply kbeg_app. apply wrap_beg; auto. lia.
Qed.

(** A newline, then something that ends with a known part, if followed by a newline. *)
Definition vend (x : list pev) (m : nat) : Prop := exists z u, x ++ [NL] = NL :: z ++ NL :: map Ev u /\ nl u = m.

Lemma nl_front x m : kall x m -> x = [] \/ (exists y, x = NL :: y) ->
  exists u, x ++ [NL] = NL :: map Ev u /\ nl u = m.
Proof.
  intros (u & -> & <-) [E|(y & E)].
  - destruct u; [|discriminate]. exists []. auto.
  - destruct u as [|e u]; [discriminate|]. injection E as -> <-. exists (u ++ [ENewline []]).
    rewrite map_app, nl_app. simpl. split; auto. lia.
Qed.

Lemma V_front n ks a : V n ks a = [] \/ exists y, V n ks a = NL :: y.
Proof. destruct ks; simpl; eauto. Qed.

Lemma list_end ks : (forall k, In k ks -> content_ok k /\ stacked B h k) ->
  forall n a, a < lo -> lo <= a + total ks -> a + total ks <= hi -> vend (V n ks a) (a + total ks - lo).
Proof.
  unfold list_sum. induction ks as [|k ks IH]; intros Hk n a H1 H2 H3; [simpl in *; lia|].
  cbn [map fold_right] in *. cbn [opns vpieces].
  destruct (Hk k ltac:(left; reflexivity)) as [Hc Hs]. pose proof (leaves_pos Hs) as Hp.
  assert (Hk' : forall k', In k' ks -> content_ok k' /\ stacked B h k') by (intros k' H; apply Hk; right; exact H).
  destruct (le_lt_dec lo (a + leaves k)) as [Hle|Hlt].
  - assert (Ha : kall (V (S n) ks (a + leaves k)) (fold_right Nat.add 0 (map leaves ks))) by (apply list_all; auto; unfold list_sum; lia).
    destruct (nl_front Ha (V_front _ _ _)) as (u & E & Eu).
    destruct (Nat.eq_dec lo (a + leaves k)) as [Heq|Hne].
    + exists (vpiece w sty j n (opn k a)), u. cbn [app]. rewrite <- app_assoc, E. split; [reflexivity|]. lia.
    + destruct (@wrap_end n k a Hc Hs) as (z & v & Ev1 & Ev2); try lia.
      exists z, (v ++ ENewline [] :: u). rewrite Ev1. cbn [app]. rewrite map_app. cbn [map]. rewrite <- !app_assoc. cbn [app].
      rewrite E. cbn [app]. split; [reflexivity|]. rewrite nl_app. simpl. lia.
  - destruct (IH Hk' (S n) (a + leaves k)) as (z & u & E & Eu); try lia.
    exists (vpiece w sty j n (opn k a) ++ NL :: z), u. cbn [app]. rewrite <- !app_assoc, E. cbn [app]. rewrite <- ?app_assoc. split; [reflexivity|]. lia.
Qed.
End List.

Lemma content r : content_ok r.
Proof.
  induction r as [i s|i ks IH] using rdoc_ind'; intros h a st Hs Hf.
  - inversion Hs as [h' i' s' Hn|]; subst. destruct (@leaf_layout i s a st Hn Hf) as (t & E). cbv zeta. rewrite E. cbn [leaves].
    apply far_false in Hf. cbn [leaves] in Hf.
    split; [intros _ _; apply kall_one; discriminate|]. split; intros; lia.
  - inversion Hs as [|h' i' ks' Hn Hne Hl Hk]; subst.
    assert (Hks : forall k, In k ks -> content_ok k /\ stacked B h' k) by (intros k H; split; [apply IH; exact H|auto]).
    rewrite (opn_branch _ _ _ Hf). cbv zeta. pose proof Hf as Hfar. apply far_false in Hfar. cbn [leaves] in *.
    assert (HV : NL :: open_layout w (OBranch i (opns ks a)) st = vpieces w (root_style i st) (i_id i) 0 (opns ks a)).
    { destruct ks as [|k ks]; [congruence|]. cbn [opns]. rewrite vlist_layout by exact Hn. reflexivity. }
    pose proof (leaves_pos Hs) as Hp. cbn [leaves] in Hp.
    split; [|split].
    + intros H1 H2. destruct (@list_all (root_style i st) (i_id i) h' ks Hks 0 a H1 H2) as (u & E & Eu).
      rewrite <- HV in E. destruct u as [|e u]; [discriminate|]. injection E as <- E. exists u. split; auto. simpl in Eu. lia.
    + intros H1 H2. destruct (@list_beg (root_style i st) (i_id i) h' ks Hks 0 a H1 ltac:(lia) H2) as (u & z & E & Eu).
      rewrite <- HV in E. destruct u as [|e u]; [simpl in Eu; lia|]. injection E as <- E. exists u, z. split; auto. simpl in Eu. lia.
    + intros H1 H2. destruct (@list_end (root_style i st) (i_id i) h' ks Hks 0 a H1 ltac:(lia) H2) as (z & u & E & Eu).
      rewrite <- HV in E. cbn [app] in E. injection E as E.
      destruct u as [|e u'] using rev_ind; [simpl in Eu; lia|]. clear IHu'.
      rewrite map_app in E. cbn [map] in E. change (NL :: map Ev u' ++ [Ev e]) with ((NL :: map Ev u') ++ [Ev e]) in E.
      rewrite app_assoc in E. apply app_inj_tail in E as [E Ee]. injection Ee as <-.
      exists z, u'. split; auto. rewrite nl_app in Eu. simpl in Eu. lia.
Qed.

End PStack.
