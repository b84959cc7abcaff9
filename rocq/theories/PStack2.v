(** The lines around a leaf of a stack of lines. *)
From Verif Require Export PStack.

Set Implicit Arguments.

Section Leaf.
Context {pd : PrettyDoc}.

(** How many leaves come before the node at a path. *)
Fixpoint leaf_no (r : rdoc) (path : list nat) : nat :=
  match path with
  | [] => 0
  | m :: path' => list_sum (map leaves (firstn m (r_kids r))) +
      match nth_error (r_kids r) m with Some k => leaf_no k path' | None => 0 end
  end.

Lemma onode_app o q n : onode_at o (q ++ [n]) = match onode_at o q with Some x => nth_error (o_kids x) n | None => None end.
Proof.
  revert o. induction q as [|m q IH]; intros o; simpl.
  - destruct (nth_error (o_kids o) n); reflexivity.
  - destruct (nth_error (o_kids o) m); auto.
Qed.

Lemma total_app (x y : list rdoc) : list_sum (map leaves (x ++ y)) = list_sum (map leaves x) + list_sum (map leaves y).
Proof. rewrite map_app. apply list_sum_app. Qed.

Lemma leaf_no_lt B path : forall h r x, stacked B h r -> node_at r path = Some x -> leaf_no r path < leaves r.
Proof.
  induction path as [|m path IH]; intros h r x Hs Hx.
  - simpl. pose proof (leaves_pos Hs). lia.
  - destruct Hs as [h i s Hn|h i ks Hn Hne Hl Hk]; cbn [node_at r_kids] in Hx; [destruct m; discriminate|].
    cbn [leaf_no r_kids leaves]. destruct (nth_error ks m) as [k|] eqn:Ek; [|discriminate].
    pose proof (Hk k (nth_error_In _ _ Ek)) as Hsk. pose proof (IH _ _ _ Hsk Hx) as H.
    destruct (nth_error_split _ _ Ek) as (A & E & -> & Hlen). rewrite total_app. cbn [map list_sum fold_right].
    rewrite <- Hlen, firstn_app, firstn_all, Nat.sub_diag, firstn_O, app_nil_r. lia.
Qed.

End Leaf.

Section PStack2.
Context {pd : PrettyDoc} {env : Env} {ideq : IdEq pd}.
Variable w : N.
Variables lo hi : nat.
Variable B : nat.
Variable root : odoc.
Hypothesis Hv : ovalid root.
Hypothesis Hu : ounique root.

Notation opn := (opn lo hi).
Notation opns := (opns lo hi).
Notation total ks := (list_sum (map leaves ks)).
Notation NL := (@Ev pd (ENewline [])).

Section Node.
Variables (q : list nat) (i : info) (ks : list odoc) (st : option Sty).
Hypothesis Hq : onode_at root q = Some (OBranch i ks).
Notation j := (i_id i).
Notation sty := (root_style i st).

Lemma valid_at o q' x : ovalid o -> onode_at o q' = Some x -> ovalid x.
Proof.
  revert o. induction q' as [|m q' IH]; intros o H E; simpl in E; [injection E as <-; auto|].
  destruct (nth_error (o_kids o) m) as [k|] eqn:Ek; [|discriminate]. apply (IH k); auto.
  apply (ovalid_kid _ H). eapply nth_error_In; eauto.
Qed.

Lemma node_id : oid_at root q = Some j.
Proof. unfold oid_at. rewrite Hq. reflexivity. Qed.

Lemma kid_at n k : nth_error ks n = Some k -> onode_at root (q ++ [n]) = Some k.
Proof. intros H. rewrite onode_app, Hq. exact H. Qed.

Lemma piece_free N0 n k : nth_error ks n = Some k -> n <> N0 -> free j N0 None (vpiece w sty j n k).
Proof.
  intros Hk Hn. unfold vpiece.
  destruct (opens (oelab k (in_style (i_style (o_info k)) (Ctx false [] sty)))) eqn:Eo.
  - assert (Hop : o_open k = true) by (destruct k; auto; discriminate).
    apply free_cons.
    { intros [[Ex|[Ex|Ex]]|(x & Ex & _)]; try discriminate. injection Ex as Ex. contradiction. }
    apply free_app. split.
    + apply (@inner_free _ _ w (oid_at root) Hu q j N0 None) with (r := [n]); try discriminate; auto.
      * apply node_id.
      * unfold oid_at. rewrite (kid_at _ Hk), Hop. reflexivity.
      * apply oelab_lab; [|apply kid_at; auto]. eapply valid_at; [exact Hv|]. apply kid_at. exact Hk.
    + apply free_cons; [|apply free_nil]. intros [[Ex|[Ex|Ex]]|(x & Ex & _)]; discriminate.
  - apply free_cons; [|apply free_nil]. intros [[Ex|[Ex|Ex]]|(x & Ex & _)]; try discriminate. injection Ex as Ex. contradiction.
Qed.

Lemma pieces_free N0 x : forall n, (forall m k, nth_error x m = Some k -> nth_error ks (n + m) = Some k) ->
  n + length x <= N0 -> free j N0 None (vpieces w sty j n x).
Proof.
  induction x as [|k x IH]; intros n Hk Hle; simpl; [apply free_nil|].
  apply free_cons. { intros [[Ex|[Ex|Ex]]|(z & Ex & _)]; discriminate. }
  simpl in Hle. apply free_app. split.
  - apply piece_free; [|lia]. rewrite <- (Nat.add_0_r n). apply Hk. reflexivity.
  - apply IH; [|lia]. intros m k' H. rewrite Nat.add_succ_comm. apply Hk. exact H.
Qed.

Lemma no_exit N0 k st' : nth_error ks N0 = Some k -> o_open k = true -> ~ In (Ev (EExit j N0)) (open_layout w k st').
Proof.
  intros Hk Hop. unfold open_layout, peek_doc.
  destruct (opens (oelab k (root_ctx (forget k) st'))); [|intros [E|[]]; discriminate].
  apply (@content_no_mk _ _ w (oid_at root) (q ++ [N0]) (Some (EExit j N0))) with (r := []).
  - intros e [= <-]. exists j, N0. split; auto. intros j2 s2 (r2 & Hr2 & _) ->.
    pose proof (@Hu q ((q ++ [N0]) ++ r2) j node_id Hr2) as Eq. rewrite <- app_assoc in Eq.
    rewrite <- (app_nil_r q) in Eq at 1. apply app_inv_head in Eq. discriminate.
  - reflexivity.
  - rewrite app_nil_r. unfold oid_at. rewrite (kid_at _ Hk), Hop. reflexivity.
  - rewrite app_nil_r. apply oelab_lab; [|apply kid_at; auto]. eapply valid_at; [exact Hv|]. apply kid_at. exact Hk.
Qed.
End Node.

Lemma path_leads path : forall r h a q st i s, stacked B h r -> onode_at root q = Some (opn r a) ->
  node_at r path = Some (RText i s) ->
  let t := a + leaf_no r path in
  lo <= t -> t < hi ->
  exists b c a', leads (oid_at root) q (open_layout w (opn r a) st) path b c a' /\ kall c 0 /\
    (lo <= a -> kall b (t - a)) /\ (a < lo -> kend b (t - lo)) /\
    (a + leaves r <= hi -> kall a' (a + leaves r - t - 1)) /\ (hi < a + leaves r -> kbeg a' (hi - t - 1)).
Proof.
  induction path as [|m path IH]; intros r h a q st i s Hs Hq Hn t Hlo Hhi; subst t.
  - simpl in Hn. injection Hn as ->. cbn [leaf_no leaves] in *. rewrite Nat.add_0_r in *.
    inversion Hs as [h' i' s' Hi|]; subst.
    destruct (@leaf_layout _ _ w lo hi i s a st Hi) as (t & ->); [apply far_false; lia|].
    exists [], [Ev (EText (i_id i) t)], []. split; [constructor|]. split; [apply kall_one; discriminate|].
    split; [intros; rewrite Nat.sub_diag; apply kall_nil|]. split; [lia|].
    split; [intros; replace (a + 1 - a - 1) with 0 by lia; apply kall_nil|lia].
  - pose proof (leaf_no_lt _ Hs Hn) as Hlt.
    destruct Hs as [h i0 s0 Hi|h i0 ks Hi Hne Hl Hk]; [destruct m; discriminate|].
    assert (Hs : stacked B (S h) (RBranch i0 ks)) by (constructor; auto).
    cbn [node_at r_kids] in Hn. destruct (nth_error ks m) as [k|] eqn:Ek; [|discriminate].
    cbn [leaf_no r_kids] in *. rewrite Ek in *.
    assert (Hf : far lo hi a (leaves (RBranch i0 ks)) = false) by (apply far_false; lia).
    rewrite (opn_branch _ _ _ _ _ Hf) in *. cbn [leaves] in *.
    destruct (nth_error_split _ _ Ek) as (A & E & EQ & Hlen).
    assert (Hfirst : firstn m ks = A).
    { rewrite EQ, <- Hlen, firstn_app, firstn_all, Nat.sub_diag, firstn_O, app_nil_r. reflexivity. }
    rewrite Hfirst in *. rewrite EQ in Hlt |- *. rewrite total_app in Hlt |- *. cbn [map] in Hlt |- *.
    change (list_sum (leaves k :: map leaves E)) with (leaves k + total E) in *.
    set (ak := a + total A) in *.
    assert (Hsk : stacked B h k) by (apply Hk; eapply nth_error_In; eauto).
    assert (HsA : forall x, In x A -> content_ok w lo hi B x /\ stacked B h x).
    { intros x Hx. split; [apply content; auto|]. apply Hk. rewrite EQ. apply in_or_app. auto. }
    assert (HsE : forall x, In x E -> content_ok w lo hi B x /\ stacked B h x).
    { intros x Hx. split; [apply content; auto|]. apply Hk. rewrite EQ. apply in_or_app. simpl. auto. }
    pose proof (leaf_no_lt _ Hsk Hn) as Hltk.
    assert (Hops : opns ks a = opns A a ++ opn k ak :: opns E (ak + leaves k)) by (rewrite EQ, opns_app; reflexivity).
    assert (Hkid : nth_error (opns ks a) m = Some (opn k ak)).
    { rewrite Hops, nth_error_app2 by (rewrite opns_length; lia). rewrite opns_length, Hlen, Nat.sub_diag. reflexivity. }
    assert (Hfk : far lo hi ak (leaves k) = false) by (apply far_false; unfold ak; lia).
    set (sty := root_style i0 st).
    destruct (IH k h ak (q ++ [m]) (Some sty) i s Hsk) as (bk & ck & ek & Hleads & Hc & Hb1 & Hb2 & He1 & He2); auto.
    { eapply kid_at; eauto. }
    { unfold ak. lia. }
    { unfold ak. lia. }
    set (tk := ak + leaf_no k path) in *.
    replace (a + (total A + leaf_no k path)) with tk in * by (unfold tk, ak; lia).
    set (VA := vpieces w sty (i_id i0) 0 (opns A a)) in *.
    set (VE := vpieces w sty (i_id i0) (S m) (opns E (ak + leaves k))) in *.
    (* the layout *)
    assert (Hm : exists m0, VA ++ [NL] = NL :: m0).
    { unfold VA. destruct A; simpl; eauto. }
    destruct Hm as (m0 & Em0).
    assert (HX : open_layout w (OBranch i0 (opns ks a)) st =
      m0 ++ Ev (EEnter (i_id i0) m) :: open_layout w (opn k ak) (Some sty) ++ Ev (EExit (i_id i0) m) :: VE).
    { assert (HV : NL :: open_layout w (OBranch i0 (opns ks a)) st = vpieces w sty (i_id i0) 0 (opns ks a)).
      { destruct ks as [|k0 ks0]; [congruence|]. cbn [PStack.opns]. rewrite vlist_layout by exact Hi. reflexivity. }
      rewrite Hops in HV. unfold sty in HV at 1. rewrite vpieces_app in HV. fold sty in HV.
      cbn [Nat.add vpieces] in HV. rewrite opns_length, Hlen in HV. fold VA VE in HV.
      rewrite (@piece_eq _ _ w lo hi B h k ak sty (i_id i0) m Hsk), Hfk in HV.
      change (VA ++ NL :: ?x) with (VA ++ [NL] ++ x) in HV. rewrite app_assoc, Em0 in HV. cbn [app] in HV. injection HV as HV.
      rewrite Hops, HV. rewrite <- ?app_assoc. reflexivity. }
    exists (m0 ++ Ev (EEnter (i_id i0) m) :: bk), ck, (ek ++ Ev (EExit (i_id i0) m) :: VE).
    assert (Hfree : free (i_id i0) m None m0).
    { assert (Hfr : free (i_id i0) m None (VA ++ [NL])).
      { apply free_app. split.
        - unfold VA, sty. eapply pieces_free; eauto; [|rewrite opns_length; lia].
          intros n0 k0 H. cbn [Nat.add]. rewrite Hops, nth_error_app1; [exact H|]. apply nth_error_Some. congruence.
        - apply free_cons; [|apply free_nil]. intros [[Ex|[Ex|Ex]]|(x & Ex & _)]; discriminate. }
      rewrite Em0 in Hfr. intros e He. apply Hfr. right. exact He. }
    split; [|split; [exact Hc|]].
    { eapply leads_down; [eapply node_id; eauto|rewrite <- EQ; exact HX| | | | |exact Hleads].
      - intros Hin. apply (Hfree _ Hin). left. left. reflexivity.
      - intros Hin. apply (Hfree _ Hin). left. right. left. reflexivity.
      - intros Hin. apply (Hfree _ Hin). left. right. right. reflexivity.
      - eapply no_exit; eauto. rewrite opn_open, Hfk. reflexivity. }
    assert (Hen : kall [Ev (EEnter (i_id i0) m)] 0) by (apply kall_one; discriminate).
    assert (Hex : kall [Ev (EExit (i_id i0) m)] 0) by (apply kall_one; discriminate).
    change (m0 ++ Ev (EEnter (i_id i0) m) :: bk) with (m0 ++ [Ev (EEnter (i_id i0) m)] ++ bk).
    change (ek ++ Ev (EExit (i_id i0) m) :: VE) with (ek ++ [Ev (EExit (i_id i0) m)] ++ VE).
    assert (Hak : a <= ak) by (unfold ak; lia).
    assert (Htk : ak <= tk) by (unfold tk; lia).
    split; [|split; [|split]].
    + intros H. assert (Ha : kall VA (total A)) by (apply list_all with (B := B) (h := h); auto; unfold ak in *; lia).
      destruct (nl_front Ha) as (u & Eu & Enl); [apply V_front|]. rewrite Em0 in Eu. injection Eu as ->.
      replace (tk - a) with (total A + (0 + (tk - ak))) by (unfold tk, ak; lia).
      apply kall_app; [exists u; auto|]. apply kall_app; auto. apply Hb1. lia.
    + intros H. destruct (le_lt_dec lo ak) as [Hle|Hgt].
      * assert (Ha : vend VA (a + total A - lo)) by (apply list_end with (B := B) (h := h); auto; unfold ak in *; lia).
        destruct Ha as (z & u & Eu & Enl). rewrite Em0 in Eu. injection Eu as ->.
        replace (tk - lo) with ((a + total A - lo) + (0 + (tk - ak))) by (unfold tk, ak in *; lia).
        apply kend_kall; [exists z, u; auto|]. apply kall_app; auto.
      * apply kend_app. apply kend_app. apply Hb2. exact Hgt.
    + intros H. replace (a + (total A + (leaves k + total E)) - tk - 1) with ((ak + leaves k - tk - 1) + (0 + total E)) by (unfold tk, ak in *; lia).
      apply kall_app; [apply He1; unfold ak in *; lia|]. apply kall_app; auto.
      apply list_all with (B := B) (h := h); auto; unfold tk, ak in *; lia.
    + intros H. destruct (le_lt_dec (ak + leaves k) hi) as [Hle|Hgt].
      * replace (hi - tk - 1) with ((ak + leaves k - tk - 1) + (0 + (hi - (ak + leaves k)))) by (unfold tk, ak in *; lia).
        apply kall_kbeg; [apply He1; exact Hle|]. apply kall_kbeg; auto.
        apply list_beg with (B := B) (h := h); auto; unfold tk, ak in *; lia.
      * apply kbeg_app. apply He2. exact Hgt.
Qed.

End PStack2.
