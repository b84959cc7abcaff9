(** The work of a window at a focus mark, or in a text, of a document some of
    whose nodes are closed. *)
From Verif Require Export PTag2 PPeek14.

Set Implicit Arguments.

Section PTag3.
Context {pd : PrettyDoc} {env : Env} {ideq : IdEq pd}.
Notation pd0 := (tag_pd (pd := pd)).
Notation tr_line := (map tr_seg).

Lemma tagged_cost o d w st path ft ku kd r :
  orep o d -> ovalid o -> o_open o = true ->
  ev (fun n => @window pd0 env n (o, d) w path ft st ku kd) (Ok r) ->
  forall n, window_cost n d w path ft st ku kd <= 36 * (parts (oelab o (root_ctx (forget o) st)) + 2) ^ 2.
Proof.
  intros Hrep Hv Ho Hw n.
  assert (Hc : @window_cost pd0 env n (o, d) w path ft st ku kd = window_cost n d w path ft st ku kd).
  { destruct (window_cost_sim tag_lockstep) with (n := n) (d' := (o, d)) (d := d) (w := w) (path := path) (ft := ft) (st' := st) (st := st) (ku := ku) (kd := kd) as [(e & He & _)|E]; auto.
    - reflexivity.
    - intros s1 s2 ->. reflexivity.
    - exfalso. destruct (@window_result pd0 env _ _ _ _ _ _ _ _ Hw n) as [E|E]; rewrite E in He; discriminate. }
  rewrite <- Hc.
  eapply Nat.le_trans; [apply (@shut_window pd0 env shutrep tag_shut_orep tag_shut_kid tag_eval_shut (tr_o o))|].
  - apply tr_valid. exact Hv.
  - split; [reflexivity|exact Hrep].
  - rewrite tr_o_open. exact Ho.
  - assert (E : @root_ctx pd0 (forget (tr_o o)) st = tr_ctx (root_ctx (forget o) st)).
    { unfold root_ctx, tr_ctx. rewrite tr_forget, tr_r_info. simpl. reflexivity. }
    rewrite E, tr_elab, tr_parts. apply Nat.le_refl.
Qed.

Lemma root_open_at o w st path b c a mid e R :
  leads (oid_at o) [] (open_layout w o st) path b c a -> c ++ a = map Ev mid ++ Ev e :: R -> o_open o = true.
Proof.
  intros Hl E. destruct o as [| |i]; auto. exfalso.
  change (open_layout w (OClosed i) st) with [@Gap pd GapOther] in Hl.
  inversion Hl as [q l0|q l0 j k m c1 r1 p1 b1 c2 a1 Hj E1]; subst; [|discriminate].
  destruct mid; discriminate.
Qed.

Lemma tr_cut mid e R (c a : list (@pev pd)) : c ++ a = map Ev mid ++ Ev e :: R ->
  map tr_pev c ++ map tr_pev a = map (@Ev pd0) (map tr_ev mid) ++ @Ev pd0 (tr_ev e) :: map tr_pev R.
Proof. intros E. rewrite <- map_app, E, map_app, tr_evs. reflexivity. Qed.

Theorem mark_cost o d w st path j ku kd ups downs l r b c a mid R :
  orep o d -> ovalid o -> ounique o ->
  leads (oid_at o) [] (open_layout w o st) path b c a -> oid_at o path = Some j ->
  c ++ a = map Ev mid ++ Ev (EMark j) :: R -> ~ In (EMark j) mid ->
  above (b ++ map Ev mid ++ [Ev (EMark j)]) ku ups l -> below R kd r downs ->
  forall n, window_cost n d w path FMark st ku kd <= 36 * (parts (oelab o (root_ctx (forget o) st)) + 2) ^ 2.
Proof.
  intros Hrep Hv Hu Hl Hj E Hmid Ha Hb.
  eapply tagged_cost; [exact Hrep|exact Hv|eapply root_open_at; eauto|].
  eapply (@open_window_mark pd0 env tag_ideq (tr_o o)) with (b := map tr_pev b) (c := map tr_pev c) (a := map tr_pev a) (mid := map tr_ev mid)
    (j := j) (R := map tr_pev R).
  - apply tag_orep. exact Hrep.
  - apply tr_valid. exact Hv.
  - apply tr_unique. exact Hu.
  - rewrite tr_open_layout. eapply tr_leads; [apply tr_oid|exact Hl].
  - rewrite tr_oid. exact Hj.
  - exact (tr_cut mid (EMark j) R c a E).
  - intros Hin. apply in_map_iff in Hin as (e & Ee & Hin). destruct e; try discriminate. injection Ee as ->. contradiction.
  - apply tr_above in Ha. rewrite !map_app in Ha. rewrite tr_evs in Ha. exact Ha.
  - apply tr_below. exact Hb.
Qed.

Theorem text_cost o d w st path k ku kd ups downs l r b c a mid j t R :
  orep o d -> ovalid o -> ounique o ->
  leads (oid_at o) [] (open_layout w o st) path b c a ->
  c ++ a = map Ev mid ++ Ev (EText j t) :: R ->
  existsb tftext mid = false -> tx_from_text t = true ->
  (str_width (firstn k (tx_str t)) + str_width (skipn k (tx_str t)) = tx_width t)%N ->
  above (b ++ map Ev mid ++ [Ev (EText j (fst (split_at t k)))]) ku ups l ->
  below (Ev (EText j (snd (split_at t k))) :: R) kd r downs ->
  forall n, window_cost n d w path (FText k) st ku kd <= 36 * (parts (oelab o (root_ctx (forget o) st)) + 2) ^ 2.
Proof.
  intros Hrep Hv Hu Hl E Hmid Ht Hwt Ha Hb.
  eapply tagged_cost; [exact Hrep|exact Hv|eapply root_open_at; eauto|].
  eapply (@open_window_text pd0 env tag_ideq (tr_o o)) with (b := map tr_pev b) (c := map tr_pev c) (a := map tr_pev a) (mid := map tr_ev mid)
    (j := j) (t := tr_tx t) (R := map tr_pev R).
  - apply tag_orep. exact Hrep.
  - apply tr_valid. exact Hv.
  - apply tr_unique. exact Hu.
  - rewrite tr_open_layout. eapply tr_leads; [apply tr_oid|exact Hl].
  - exact (tr_cut mid (EText j t) R c a E).
  - rewrite <- Hmid. clear. induction mid as [|[] mid IH]; simpl; auto. rewrite IH. reflexivity.
  - exact Ht.
  - exact Hwt.
  - apply tr_above in Ha. rewrite !map_app in Ha. rewrite tr_evs in Ha. exact Ha.
  - apply tr_below in Hb. exact Hb.
Qed.

End PTag3.
