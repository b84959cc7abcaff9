(** The focuses of a document are ordered like the first displays of its nodes
    (C71), also when nodes are displayed several times.  Vocabulary: SpecOrder,
    SpecFirst, and [focus_at] of Properties34. *)
From Verif Require Export Properties34 PFirst4.

Set Implicit Arguments.

Section FirstOrder.
Context {pd : PrettyDoc} {env : Env} {ideq : IdEq pd}.
Variables (r : rdoc) (doc : D).
Hypothesis Hrep : rep r doc.
Hypothesis Hv : valid_doc r.
Hypothesis Hu : unique_ids (id_at r).
Variables (w : N) (st : option Sty) (es : list event).
Hypothesis Hes : layout w (doc_shape r st) = Some es.

Notation focus_at := (focus_at doc w st).

Lemma good_es : good (id_at r) [] es.
Proof. exact (proj1 (layout_good Hv _ _ Hes)). Qed.

(** A focus is of a node that is reached through first displays. *)
Lemma printed_fd path ft ups fl downs : (is_text_target ft = true -> splittable r) ->
  printed doc w path ft st ups fl downs -> exists a b c, first_display es path a b c.
Proof.
  intros Hsp (up & down & H1 & _).
  destruct (@first_lab_spec _ _ _ r doc Hrep Hv Hu w path ft st Hsp) as (res & Hev & H).
  pose proof (ev_det Hev H1). subst res. destruct H as (ru & rd & _ & _ & _ & _ & H). rewrite Hes in H.
  destruct H as (? & ? & pre & post & _ & _ & Hdiv & _). eapply first_divided; eauto.
Qed.

Lemma fd_start path a b c p : first_display es path a b c -> focus_at path FStart p -> stands es a p.
Proof.
  intros H (ups & fl & downs & Hp & ->). destruct (C68_start Hrep Hv Hu w st Hes H) as (ups' & fl' & downs' & Hp' & L & _).
  destruct (printed_det Hp Hp') as (-> & -> & ->). split; [exists (b ++ c); exact (fd_parts H)|]. exists ups', (left_segments fl'). auto.
Qed.
Lemma fd_end path a b c p : first_display es path a b c -> focus_at path FEnd p -> stands es (a ++ b) p.
Proof.
  intros H (ups & fl & downs & Hp & ->). destruct (C68_end Hrep Hv Hu w st Hes H) as (ups' & fl' & downs' & Hp' & L & _).
  destruct (printed_det Hp Hp') as (-> & -> & ->). split; [exists c; rewrite <- app_assoc; exact (fd_parts H)|]. exists ups', (left_segments fl'). auto.
Qed.
Lemma start_fd path p : focus_at path FStart p -> exists a b c, first_display es path a b c.
Proof. intros (ups & fl & downs & Hp & _). eapply printed_fd; [|exact Hp]. discriminate. Qed.

(** C71.  A node's range, from its start to its end, contains those of its
    descendants. *)
Theorem C71_nested path below s1 e1 s2 e2 :
  focus_at path FStart s1 -> focus_at path FEnd e1 ->
  focus_at (path ++ below) FStart s2 -> focus_at (path ++ below) FEnd e2 ->
  not_after s1 s2 /\ not_after s2 e2 /\ not_after e2 e1.
Proof.
  intros S1 E1 S2 E2. destruct (start_fd S2) as (a & b & c & H). destruct (fd_nested _ _ H) as (a0 & x & y & c0 & H0 & -> & ->).
  pose proof (fd_start H0 S1) as T1. pose proof (fd_end H0 E1) as T2. pose proof (fd_start H S2) as T3. pose proof (fd_end H E2) as T4.
  split; [|split]; eapply stands_order; eauto. exists y. rewrite <- !app_assoc. reflexivity.
Qed.

(** C71.  The ranges of nodes that are not below each other are apart. *)
Theorem C71_apart path1 path2 s1 e1 s2 e2 :
  (forall x, path2 <> path1 ++ x) -> (forall x, path1 <> path2 ++ x) ->
  focus_at path1 FStart s1 -> focus_at path1 FEnd e1 ->
  focus_at path2 FStart s2 -> focus_at path2 FEnd e2 ->
  not_after e1 s2 \/ not_after e2 s1.
Proof.
  intros N1 N2 S1 E1 S2 E2. destruct (start_fd S1) as (a1 & b1 & c1 & H1). destruct (start_fd S2) as (a2 & b2 & c2 & H2).
  destruct (paths_part N1 N2) as (p & i & j & k1 & k2 & -> & -> & Hij).
  pose proof (fd_start H1 S1) as T1. pose proof (fd_end H1 E1) as T2. pose proof (fd_start H2 S2) as T3. pose proof (fd_end H2 E2) as T4.
  destruct (fd_nested _ _ H1) as (a3 & x3 & y3 & c3 & H3 & -> & ->). destruct (fd_nested _ _ H2) as (a4 & x4 & y4 & c4 & H4 & -> & ->).
  destruct (fd_apart _ good_es _ Hij H3 H4) as [[z ->]|[z ->]]; [left|right].
  - eapply stands_order; [exact T2|exact T3|]. exists (y3 ++ z ++ x4). rewrite <- !app_assoc. reflexivity.
  - eapply stands_order; [exact T4|exact T1|]. exists (y4 ++ z ++ x3). rewrite <- !app_assoc. reflexivity.
Qed.

(** The focus at a mark: the next one of the node. *)
Lemma mark_place path a b c p : first_display es path a b c -> focus_at path FMark p ->
  exists mid j rest, b ++ c = mid ++ EMark j :: rest /\ next_mark a mid path /\ stands es (a ++ mid ++ [EMark j]) p.
Proof.
  intros H (ups & fl & downs & Hp & ->).
  destruct (C68_mark Hrep Hv Hu w st Hes H) as [(ups' & fl' & downs' & mid & j & rest & Hp' & E & Hn & L & _)|[Hf _]].
  - destruct (printed_det Hp Hp') as (-> & -> & ->). exists mid, j, rest. split; [exact E|]. split; [exact Hn|]. split.
    + exists rest. rewrite (fd_parts H), E, <- !app_assoc. reflexivity.
    + exists ups', (left_segments fl'). auto.
  - exfalso. destruct Hp as (up & down & Y & _). pose proof (ev_det Hf Y) as Z. discriminate Z.
Qed.

(** C71.  The FocusMark of a node is not before the node; when the node's first
    display has a mark of the node, it is not after it either; and it is not in the
    range of a child. *)
Theorem C71_mark_after_start path s m :
  focus_at path FStart s -> focus_at path FMark m -> not_after s m.
Proof.
  intros Hs Hm. destruct (start_fd Hs) as (a & b & c & H). destruct (mark_place H Hm) as (mid & j & rest & E & Hn & T).
  eapply stands_order; [exact (fd_start H Hs)|exact T|]. eauto.
Qed.
Theorem C71_mark_before_end path before during after x j y m e :
  first_display es path before during after -> during = x ++ EMark j :: y -> open_path (before ++ x) = path ->
  focus_at path FMark m -> focus_at path FEnd e -> not_after m e.
Proof.
  intros H Ed Ho Hm He. destruct (mark_place H Hm) as (mid & j' & rest & E & [Hn1 Hn2] & T).
  eapply stands_order; [exact T|exact (fd_end H He)|].
  assert (Hl : exists l, x = mid ++ l).
  { rewrite Ed, <- app_assoc in E. destruct (app_compare _ _ _ _ E) as [[l ->]|H0]; [|].
    - destruct l as [|e0 l]; [exists []; rewrite !app_nil_r; reflexivity|].
      rewrite <- app_assoc in E. apply app_inv_head in E. injection E as <- _. exfalso. exact (Hn2 x j l eq_refl Ho).
    - destruct H0 as (z & l & ->). exists (z :: l). reflexivity. }
  destruct Hl as [l ->]. rewrite Ed in E |- *. rewrite <- !app_assoc in E. apply app_inv_head in E.
  destruct l as [|z l]; injection E as E1 E2.
  - subst j'. exists y. rewrite <- !app_assoc. reflexivity.
  - subst z. exists (l ++ EMark j :: y). rewrite <- !app_assoc. reflexivity.
Qed.
Theorem C71_mark_apart path i m s e :
  focus_at path FMark m -> focus_at (path ++ [i]) FStart s -> focus_at (path ++ [i]) FEnd e ->
  not_after m s \/ not_after e m.
Proof.
  intros Hm Hs He. destruct (start_fd Hs) as (a & b & c & H). destruct (fd_nested _ _ H) as (a0 & x & y & c0 & H0 & Ea & Ec).
  destruct (mark_place H0 Hm) as (mid & j & rest & E & [Ho _] & T). pose proof T as [[d Ed] _].
  assert (Hout : ~ in_node (a0 ++ mid ++ [EMark j]) (path ++ [i])).
  { intros [q' Hq]. rewrite app_assoc, open_same, Ho in Hq by discriminate. rewrite <- (app_nil_r path), <- !app_assoc in Hq.
    apply app_inv_head in Hq. discriminate. }
  destruct (fd_outside _ good_es _ H Ed Hout) as [Hx|Hx].
  - left. eapply stands_order; [exact T|exact (fd_start H Hs)|exact Hx].
  - right. eapply stands_order; [exact (fd_end H He)|exact T|exact Hx].
Qed.

(** The focus in a text: the first one displayed from the start of the node. *)
Lemma text_place path a b c n p : splittable r -> first_display es path a b c -> focus_at path (FText n) p ->
  exists mid j t rest, b ++ c = mid ++ EText j t :: rest /\ tx_from_text t = true /\
    (forall j' t', In (EText j' t') mid -> tx_from_text t' = false) /\
    exists ups lb, lines_of (a ++ mid) = rev ups ++ [lb] /\ p = (length ups, segs_to_string lb ++ firstn n (tx_str t)).
Proof.
  intros Hs H (ups & fl & downs & Hp & ->).
  destruct (C68_text Hrep Hv Hu w st Hes n Hs H) as [(ups' & fl' & downs' & mid & j & t & rest & lb & la & Hp' & E & Ht & Hno & L1 & _ & L3 & _)|[Hf _]].
  - destruct (printed_det Hp Hp') as (-> & -> & ->). exists mid, j, t, rest. repeat (split; [assumption|]).
    exists ups', lb. split; [exact L1|]. unfold spot. rewrite L3, segs_app. unfold segs_to_string at 2. cbn [map concat seg_str]. rewrite app_nil_r. reflexivity.
  - exfalso. destruct Hp as (up & down & Y & _). pose proof (ev_det Hf Y) as Z. discriminate Z.
Qed.

(** C71.  A position in a text is not before the node; when the node's first display
    has a text, it is not after it; and the positions are in the order of their
    numbers. *)
Theorem C71_text_after_start path n s p :
  splittable r -> focus_at path FStart s -> focus_at path (FText n) p -> not_after s p.
Proof.
  intros Hsp Hs Hp. destruct (start_fd Hs) as (a & b & c & H).
  destruct (text_place Hsp H Hp) as (mid & j & t & rest & E & _ & _ & ups & lb & L & ->).
  eapply not_after_trans.
  - eapply (@stands_order _ es a (a ++ mid)); [exact (fd_start H Hs)| |eauto].
    split; [exists (EText j t :: rest); rewrite (fd_parts H), E, <- app_assoc; reflexivity|]. exists ups, lb. split; [exact L|reflexivity].
  - right. split; [reflexivity|]. eexists. reflexivity.
Qed.
Theorem C71_text_before_end path before during after j t n p e :
  splittable r -> first_display es path before during after -> In (EText j t) during -> tx_from_text t = true ->
  focus_at path (FText n) p -> focus_at path FEnd e -> not_after p e.
Proof.
  intros Hsp H Hin Ht Hp He.
  destruct (text_place Hsp H Hp) as (mid & j' & t' & rest & E & _ & Hno & ups & lb & L & ->).
  assert (Hl : exists y, during = mid ++ EText j' t' :: y).
  { destruct (app_compare _ _ _ _ (eq_sym E)) as [[l Hl]|(z & l & Hl)].
    - destruct l as [|z l].
      + exfalso. rewrite app_nil_r in Hl. rewrite Hl in Hin. rewrite (Hno _ _ Hin) in Ht. discriminate.
      + rewrite Hl, <- app_assoc in E. apply app_inv_head in E. injection E as E1 E2. subst z. eauto.
    - exfalso. assert (Hin' : In (EText j t) mid) by (rewrite Hl; apply in_or_app; left; exact Hin).
      rewrite (Hno _ _ Hin') in Ht. discriminate. }
  destruct Hl as [y Hl].
  apply (@not_after_trans _ (length ups, segs_to_string (lb ++ [text_seg t']))).
  - right. split; [reflexivity|]. exists (skipn n (tx_str t')). cbn [snd fst]. rewrite segs_app. unfold segs_to_string at 2.
    cbn [map concat seg_str text_seg]. rewrite app_nil_r, <- app_assoc, firstn_skipn. reflexivity.
  - eapply (@stands_order _ es (before ++ mid ++ [EText j' t'])); [|exact (fd_end H He)|exists y; rewrite Hl, <- !app_assoc; reflexivity].
    split; [exists rest; rewrite (fd_parts H), E, <- !app_assoc; reflexivity|].
    exists ups, (lb ++ [text_seg t']). split; [|reflexivity].
    rewrite app_assoc. unfold lines_of in *. destruct (lines_app (before ++ mid) [EText j' t'] []) as (l & ls & A1 & A2). rewrite A1 in L. rewrite A2.
    apply app_inj_tail in L as [-> ->]. reflexivity.
Qed.
Theorem C71_text_order path n m p q :
  splittable r -> n <= m -> focus_at path (FText n) p -> focus_at path (FText m) q -> not_after p q.
Proof.
  intros Hsp Hnm Hp Hq. pose proof Hp as (u & f & d & Hpr & _). destruct (printed_fd (fun _ => Hsp) Hpr) as (a & b & c & H).
  destruct (text_place Hsp H Hp) as (m1 & j1 & t1 & r1 & E1 & F1 & N1 & u1 & l1 & L1 & ->).
  destruct (text_place Hsp H Hq) as (m2 & j2 & t2 & r2 & E2 & F2 & N2 & u2 & l2 & L2 & ->).
  rewrite E1 in E2.
  assert (Em : m1 = m2 /\ t1 = t2).
  { clear - E2 F1 F2 N1 N2. revert m2 N2 E2. induction m1 as [|x m1 IH]; intros [|y m2] N2 E2; cbn [app] in E2.
    - injection E2 as _ E _. auto.
    - injection E2 as E _. subst y. rewrite (N2 _ _ (or_introl eq_refl)) in F1. discriminate.
    - injection E2 as E _. subst x. rewrite (N1 _ _ (or_introl eq_refl)) in F2. discriminate.
    - injection E2 as -> E2. destruct (IH (fun j t H => N1 j t (or_intror H)) m2 (fun j t H => N2 j t (or_intror H)) E2) as [-> ->]. auto. }
  destruct Em as [-> ->]. rewrite L1 in L2. apply app_inj_tail in L2 as [L2 ->]. apply (f_equal (@length _)) in L2. rewrite !rev_length in L2.
  right. cbn [fst snd]. split; [exact L2|]. exists (skipn n (firstn m (tx_str t2))).
  rewrite <- app_assoc. f_equal. rewrite <- (firstn_skipn n (firstn m (tx_str t2))) at 1. f_equal. rewrite firstn_firstn. f_equal. lia.
Qed.

End FirstOrder.
