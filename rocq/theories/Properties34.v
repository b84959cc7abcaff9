(** The focuses of a document are ordered like its nodes (C67).  Vocabulary:
    SpecOrder. *)
From Verif Require Export POrder.

Set Implicit Arguments.

(** The order of places: a partial order. *)
Theorem C67_order :
  (forall p, not_after p p) /\ (forall p q r, not_after p q -> not_after q r -> not_after p r) /\
  (forall p q, not_after p q -> not_after q p -> p = q).
Proof.
  split; [|split].
  - intros p. right. split; [reflexivity|]. exists []. symmetry. apply app_nil_r.
  - exact not_after_trans.
  - intros [r1 s1] [r2 s2] [H1|[H1 [m1 E1]]] [H2|[H2 [m2 E2]]]; cbn [fst snd] in *; try lia. subst r2. f_equal.
    rewrite E1, <- app_assoc in E2. rewrite <- (app_nil_r s1) in E2 at 1. apply app_inv_head in E2. symmetry in E2. apply app_eq_nil in E2 as [-> _].
    rewrite E1, app_nil_r. reflexivity.
Qed.

Section Order.
Context {pd : PrettyDoc} {env : Env} {ideq : IdEq pd}.
Variables (r : rdoc) (doc : D).
Hypothesis Hrep : rep r doc.
Hypothesis Hv : valid_doc r.
Hypothesis Hu : unique_ids (id_at r).
Variables (w : N) (st : option Sty) (es : list event).
Hypothesis Hes : layout w (doc_shape r st) = Some es.
Hypothesis Hlin : linear es.

(** Printing with this focus succeeds, and the focus is at [p]. *)
Definition focus_at (path : list nat) (ft : focus_target) (p : nat * str) : Prop :=
  exists ups fl downs, printed doc w path ft st ups fl downs /\ p = spot ups fl.

(** [a]: the part of the layout before the place [p]. *)
Definition stands (a : list event) (p : nat * str) : Prop :=
  (exists b, es = a ++ b) /\ exists ups l, lines_of a = rev ups ++ [l] /\ p = (length ups, segs_to_string l).

Lemma stands_order a1 a2 p1 p2 : stands a1 p1 -> stands a2 p2 -> (exists x, a2 = a1 ++ x) -> not_after p1 p2.
Proof. intros (_ & u1 & l1 & E1 & ->) (_ & u2 & l2 & E2 & ->) [x ->]. eapply lines_order; eauto. Qed.

Lemma start_stands path p : focus_at path FStart p -> exists a b, es = a ++ b /\ at_start a path /\ stands a p.
Proof.
  intros (ups & fl & downs & H & ->). destruct (C03_start_focus Hrep Hv Hu Hes Hlin H) as (a & b & E & Hs & H1 & _).
  exists a, b. split; [exact E|]. split; [exact Hs|]. split; [exists b; exact E|]. exists ups, (left_segments fl). auto.
Qed.
Lemma end_stands path p : focus_at path FEnd p -> exists a b, es = a ++ b /\ at_end a b path /\ stands a p.
Proof.
  intros (ups & fl & downs & H & ->). destruct (C04_end_focus Hrep Hv Hu Hes Hlin H) as (a & b & E & Hs & H1 & _).
  exists a, b. split; [exact E|]. split; [exact Hs|]. split; [exists b; exact E|]. exists ups, (left_segments fl). auto.
Qed.

Lemma layout_facts : good (id_at r) [] es /\ open_from [] es = [].
Proof. exact (layout_good Hv _ _ Hes). Qed.

(** In a node: not before its start, not after its end. *)
Lemma in_range path s e a p q' : focus_at path FStart s -> focus_at path FEnd e -> stands a p -> open_path a = path ++ q' ->
  not_after s p /\ not_after p e.
Proof.
  intros Hs He Hp Ho. destruct layout_facts as [G Hop].
  destruct (start_stands Hs) as (a1 & b1 & E1 & S1 & T1). destruct (end_stands He) as (a2 & b2 & E2 & S2 & T2).
  destruct Hp as [[b Eb] Hp']. assert (Hw : in_node a path) by (exists q'; exact Ho). split.
  - eapply stands_order; [exact T1|split; [exists b; exact Eb|exact Hp']|]. eapply after_start; eauto.
  - eapply stands_order; [split; [exists b; exact Eb|exact Hp']|exact T2|]. eapply before_end; eauto.
Qed.

Arguments in_range [path s e a p q'] _ _ _ _.

(** C67.  A node's range, from its start to its end, contains those of its
    descendants. *)
Theorem C67_nested path below s1 e1 s2 e2 :
  focus_at path FStart s1 -> focus_at path FEnd e1 ->
  focus_at (path ++ below) FStart s2 -> focus_at (path ++ below) FEnd e2 ->
  not_after s1 s2 /\ not_after s2 e2 /\ not_after e2 e1.
Proof.
  intros S1 E1 S2 E2. destruct layout_facts as [G Hop].
  destruct (start_stands S2) as (a & b & E & Hs & T). destruct (end_stands E2) as (a' & b' & E' & He & T').
  pose proof (start_open Hs) as O. pose proof (end_open E' He Hop) as O'.
  split; [exact (proj1 (in_range S1 E1 T O))|]. split; [|exact (proj2 (in_range S1 E1 T' O'))].
  assert (O2 : open_path a = (path ++ below) ++ []) by (rewrite app_nil_r; exact O).
  exact (proj2 (in_range S2 E2 T O2)).
Qed.

(** C67.  The ranges of nodes that are not below each other are apart. *)
Theorem C67_apart path1 path2 s1 e1 s2 e2 :
  (forall x, path2 <> path1 ++ x) -> (forall x, path1 <> path2 ++ x) ->
  focus_at path1 FStart s1 -> focus_at path1 FEnd e1 ->
  focus_at path2 FStart s2 -> focus_at path2 FEnd e2 ->
  not_after e1 s2 \/ not_after e2 s1.
Proof.
  intros N1 N2 S1 E1 S2 E2. destruct layout_facts as [G Hop].
  destruct (start_stands S1) as (a1 & b1 & A1 & P1 & T1). destruct (end_stands E1) as (c1 & d1 & C1 & Q1 & U1).
  destruct (start_stands S2) as (a2 & b2 & A2 & P2 & T2). destruct (end_stands E2) as (c2 & d2 & C2 & Q2 & U2).
  assert (W1 : ~ in_node a1 path2) by (intros [x H]; rewrite (start_open P1) in H; exact (N2 _ H)).
  assert (W2 : ~ in_node a2 path1) by (intros [x H]; rewrite (start_open P2) in H; exact (N1 _ H)).
  destruct (@outside _ _ _ G Hlin _ _ _ _ _ _ _ Hop A2 P2 C2 Q2 A1 W1) as [H|[x H]]; [right; eapply stands_order; eauto|].
  destruct (@outside _ _ _ G Hlin _ _ _ _ _ _ _ Hop A1 P1 C1 Q1 A2 W2) as [H'|[y H']]; [left; eapply stands_order; eauto|].
  exfalso. assert (E : a1 = a2).
  { rewrite H' in H. rewrite <- app_assoc in H. rewrite <- (app_nil_r a2) in H at 1. apply app_inv_head in H. symmetry in H. apply app_eq_nil in H as [-> _]. rewrite H', app_nil_r. reflexivity. }
  apply (N1 []). rewrite app_nil_r. rewrite <- (start_open P1), <- (start_open P2), E. reflexivity.
Qed.

Lemma mark_stands path p : focus_at path FMark p -> exists a, stands a p /\ open_path a = path.
Proof.
  intros (ups & fl & downs & H & ->).
  assert (Hd : displayed es path).
  { destruct H as (up & down & H1 & _). destruct (@lab_spec _ _ _ r doc Hrep Hv Hu w path FMark st) as (res & Hev & X); [discriminate|].
    pose proof (ev_det Hev H1). subst res. destruct X as (ru & rd & _ & _ & _ & _ & X). rewrite Hes in X.
    destruct X as (? & ? & pre & post & _ & _ & Hdiv & _). eapply divided_displayed; eauto. }
  assert (Hm : mark_displayed es path \/ ~ mark_displayed es path).
  { destruct (path_accepted Hrep Hv Hu w st FMark Hes Hlin (fun X : is_text_target FMark = true => False_ind _ (Bool.diff_false_true X)) Hd) as [(ups' & fl' & downs' & pre & post & Hp & Hdiv & H1 & H2)|[(_ & X & _)|(X & _)]]; auto; try discriminate.
    - left. destruct Hdiv as [E (a & mid & j & -> & Hst & Hj & Hmid)].
      exists (a ++ mid), j, post. split; [rewrite E, <- !app_assoc; reflexivity|].
      destruct layout_facts as [G _]. eapply (@good_mark _ (id_at r)); [exact Hu|exact G| |exact Hj]. rewrite E, <- !app_assoc. reflexivity.
    - exfalso. destruct H as (up & down & Y & _). pose proof (ev_det X Y) as Z. discriminate Z. }
  destruct Hm as [Hm|Hm].
  - destruct (C05_mark_focus Hrep Hv Hu w st Hes Hlin Hm) as (ups' & fl' & downs' & a & b & Hp & E & (a' & j & -> & Ho & _) & H1 & _).
    destruct (printed_det H Hp) as (-> & -> & ->). exists (a' ++ [EMark j]). split.
    + split; [exists b; exact E|]. exists ups', (left_segments fl'). auto.
    + rewrite open_same; [exact Ho|discriminate|discriminate].
  - exfalso. destruct H as (up & down & Y & _). pose proof (ev_det (C05_missing_mark Hrep Hv Hu w st Hes Hlin Hd Hm) Y) as Z. discriminate Z.
Qed.

(** C67.  The FocusMark of a node is in the node's range, and not in the range of a
    child. *)
Theorem C67_mark path s m e :
  focus_at path FStart s -> focus_at path FMark m -> focus_at path FEnd e ->
  not_after s m /\ not_after m e.
Proof.
  intros Hs Hm He. destruct (mark_stands Hm) as (a & T & O). eapply in_range; eauto. rewrite app_nil_r. exact O.
Qed.
Theorem C67_mark_apart path i m s e :
  focus_at path FMark m -> focus_at (path ++ [i]) FStart s -> focus_at (path ++ [i]) FEnd e ->
  not_after m s \/ not_after e m.
Proof.
  intros Hm Hs He. destruct (mark_stands Hm) as (a & T & O). destruct layout_facts as [G Hop].
  destruct (start_stands Hs) as (a1 & b1 & A1 & P1 & T1). destruct (end_stands He) as (c1 & d1 & C1 & Q1 & U1).
  destruct T as [[b E] T].
  destruct (@outside _ _ _ G Hlin _ _ _ _ _ _ _ Hop A1 P1 C1 Q1 E) as [H|H].
  - intros [x H]. rewrite O in H. rewrite <- (app_nil_r path) in H at 1. rewrite <- app_assoc in H. apply app_inv_head in H. discriminate.
  - right. eapply stands_order; [exact U1|split; [exists b; exact E|exact T]|exact H].
  - left. eapply stands_order; [split; [exists b; exact E|exact T]|exact T1|exact H].
Qed.

(** C67.  The positions in the text of a node are in its range, *)
Lemma segs_app l1 l2 : segs_to_string (l1 ++ l2) = segs_to_string l1 ++ segs_to_string l2.
Proof. unfold segs_to_string. rewrite map_app, concat_app. reflexivity. Qed.

Theorem C67_text path i t n s p e :
  splittable r -> node_at r path = Some (RText i t) -> text_displayed es path ->
  focus_at path FStart s -> focus_at path (FText n) p -> focus_at path FEnd e ->
  not_after s p /\ not_after p e.
Proof.
  intros Hsp Hn Ht Hs (ups & fl & downs & H & ->) He.
  destruct (C02_text_focus Hrep Hv Hu w st Hes Hlin n Hsp Hn Ht) as (ups' & fl' & downs' & Hp & _ & before & j & tx & after & lb & la & E & Ho & Etx & L1 & L2 & L3 & _).
  destruct (printed_det H Hp) as (-> & -> & ->). subst t.
  assert (Tb : stands before (length ups', segs_to_string lb)) by (split; [eexists; exact E|]; exists ups', lb; auto).
  assert (Ta : stands (before ++ [EText j tx]) (length ups', segs_to_string (lb ++ [text_seg tx]))).
  { split; [exists after; rewrite <- app_assoc; exact E|]. exists ups', (lb ++ [text_seg tx]). split; [|reflexivity].
    unfold lines_of in *. destruct (lines_app before [EText j tx] []) as (l & ls & A1 & A2). rewrite A1 in L1. rewrite A2.
    apply app_inj_tail in L1 as [-> ->]. reflexivity. }
  unfold spot. rewrite L3, segs_app. cbn [segs_to_string map concat seg_str].
  split.
  - eapply not_after_trans; [apply (in_range Hs He Tb (q' := [])); rewrite app_nil_r; exact Ho|].
    right. split; [reflexivity|]. eexists. reflexivity.
  - eapply not_after_trans; [|apply (in_range Hs He Ta (q' := [])); rewrite app_nil_r, open_same; [exact Ho|discriminate|discriminate]].
    right. split; [reflexivity|]. exists (skipn n (tx_str tx)). cbn [snd fst]. rewrite segs_app. unfold segs_to_string. cbn [map concat seg_str text_seg].
    rewrite !app_nil_r, <- app_assoc, firstn_skipn. reflexivity.
Qed.

(** ... and in the order of their numbers. *)
Theorem C67_text_order path n m p q :
  splittable r -> displayed es path -> n <= m ->
  focus_at path (FText n) p -> focus_at path (FText m) q -> not_after p q.
Proof.
  intros Hsp Hd Hnm (u1 & f1 & d1 & H1 & ->) (u2 & f2 & d2 & H2 & ->). destruct layout_facts as [G Hop].
  assert (X : forall n u f d, printed doc w path (FText n) st u f d -> exists a mid j t rest lb,
    es = (a ++ mid) ++ EText j t :: rest /\ at_start a path /\ tx_from_text t = true /\
    (forall j' t', In (EText j' t') mid -> tx_from_text t' = false) /\
    lines_of (a ++ mid) = rev u ++ [lb] /\ segs_to_string (left_segments f) = segs_to_string lb ++ firstn n (tx_str t)).
  { clear - ideq Hsp Hd Hes Hlin Hrep Hv Hu. intros n u f d H.
    destruct (C07_first_text_from_start Hrep Hv Hu w st Hes Hlin n Hsp Hd) as [(u' & f' & d' & bf & j & t & af & lb & la & Hp & _ & E & Et & (a & mid & -> & Ha & Hm) & L1 & _ & L3 & _)|(Hf & _)].
    - destruct (printed_det H Hp) as (-> & -> & ->). exists a, mid, j, t, af, lb. repeat (split; [assumption|]).
      rewrite L3, segs_app. unfold segs_to_string at 2. cbn [map concat seg_str]. rewrite app_nil_r. reflexivity.
    - exfalso. destruct H as (up & down & Y & _). pose proof (ev_det Hf Y) as Z. discriminate Z. }
  destruct (X _ _ _ _ H1) as (a1 & m1 & j1 & t1 & r1 & lb1 & E1 & S1 & F1 & N1 & L1 & V1).
  destruct (X _ _ _ _ H2) as (a2 & m2 & j2 & t2 & r2 & lb2 & E2 & S2 & F2 & N2 & L2 & V2). clear X H1 H2.
  assert (Ea : a1 = a2).
  { assert (W1 : in_node a1 path) by (exists []; rewrite app_nil_r; apply start_open; exact S1).
    assert (W2 : in_node a2 path) by (exists []; rewrite app_nil_r; apply start_open; exact S2).
    rewrite <- app_assoc in E1, E2.
    destruct (@after_start _ _ _ G Hlin _ _ _ _ _ E1 S1 E2 W2) as [x ->]. destruct (@after_start _ _ _ G Hlin _ _ _ _ _ E2 S2 E1 W1) as [y H].
    rewrite <- app_assoc in H. rewrite <- (app_nil_r a1) in H at 1. apply app_inv_head in H. symmetry in H. apply app_eq_nil in H as [-> _]. symmetry. apply app_nil_r. }
  subst a2. rewrite E1 in E2. rewrite <- !app_assoc in E2. apply app_inv_head in E2.
  assert (Em : m1 = m2 /\ t1 = t2).
  { clear - E2 F1 F2 N1 N2. revert m2 N2 E2. induction m1 as [|x m1 IH]; intros [|y m2] N2 E2; cbn [app] in E2.
    - injection E2 as _ E _. auto.
    - injection E2 as E _. subst y. rewrite (N2 _ _ (or_introl eq_refl)) in F1. discriminate.
    - injection E2 as E _. subst x. rewrite (N1 _ _ (or_introl eq_refl)) in F2. discriminate.
    - injection E2 as -> E2. destruct (IH (fun j t H => N1 j t (or_intror H)) m2 (fun j t H => N2 j t (or_intror H)) E2) as [-> ->]. auto. }
  destruct Em as [-> ->]. rewrite L1 in L2. apply app_inj_tail in L2 as [L2 ->]. apply (f_equal (@length _)) in L2. rewrite !rev_length in L2.
  right. unfold spot. cbn [fst snd]. split; [exact L2|]. rewrite V1, V2. exists (skipn n (firstn m (tx_str t2))).
  rewrite <- app_assoc. f_equal. rewrite <- (firstn_skipn n (firstn m (tx_str t2))) at 1. f_equal. rewrite firstn_firstn. f_equal. lia.
Qed.
End Order.
