(** Focusing inside a text. *)
From Verif Require Export PFocus2.

Set Implicit Arguments.

Section Sees.
Context {pd : PrettyDoc} {env : Env}.

(** [T q e]: event [e] may happen while the current node is at [q]. *)
Fixpoint sees (T : list nat -> event -> Prop) (stk : list nat) (es : list event) : Prop :=
  match es with
  | [] => True
  | e :: es' => T (rev stk) e /\ sees T (open_from stk [e]) es'
  end.

Lemma sees_app T stk a b : sees T stk (a ++ b) <-> sees T stk a /\ sees T (open_from stk a) b.
Proof.
  revert stk; induction a as [|e a IH]; intros stk; simpl; [tauto|].
  rewrite IH. replace (open_from (open_from stk [e]) a) with (open_from stk (e :: a)).
  - destruct e; simpl; tauto.
  - change (e :: a) with ([e] ++ a). apply open_from_app.
Qed.

Variable r : rdoc.

Definition fact (q : list nat) (e : event) : Prop :=
  match e with
  | EText _ t => own_text r q t
  | EEnter _ n => node_at r (q ++ [n]) <> None
  | _ => True
  end.

Lemma rend_sees w s : forall j k p es p' q,
  rend w s j k p = Some (es, p') -> labelled (id_at r) q s -> texts_in (own_text r) q s ->
  sees fact (rev q) es.
Proof.
  induction s as [f| | |ind|t|a IHa b IHb|a IHa b IHb|n i s IH|]; intros j k p es p' q; simpl; intros H Hl Ht.
  - discriminate.
  - injection H as <- <-. simpl. auto.
  - injection H as <- <-. simpl. auto.
  - apply obind_some in H as [x [_ [= <- <-]]]. simpl. auto.
  - apply obind_some in H as [x [_ [= <- <-]]]. simpl. rewrite rev_involutive. auto.
  - apply obind_some in H as [[e1 p1] [H1 H]]. apply obind_some in H as [[e2 p2] [H2 [= <- <-]]].
    destruct Hl as [Hla Hlb]. destruct Ht as [Hta Htb].
    destruct (rend_stack _ _ _ _ _ H1 (rev q)) as [O1 _].
    rewrite sees_app, O1. eauto.
  - destruct (head_fails a); [discriminate|]. destruct Hl as [Hla Hlb]. destruct Ht as [Hta Htb].
    apply obind_some in H as [f [_ H]]. destruct f; eauto.
  - destruct i as [j'|]; [|discriminate]. destruct Hl as [Hi Hl].
    apply obind_some in H as [[e1 p1] [H1 [= <- <-]]].
    pose proof (IH _ _ _ _ _ _ H1 Hl Ht) as S1. rewrite rev_app_distr in S1. simpl in S1.
    simpl. rewrite sees_app. split.
    + rewrite rev_involutive. specialize (Hi _ eq_refl). unfold id_at in Hi.
      destruct (node_at r (q ++ [n])); [discriminate|]. discriminate.
    + split; auto. simpl. auto.
  - injection H as <- <-. simpl. auto.
Qed.

End Sees.

Section Text.
Context {pd : PrettyDoc} {env : Env} {ideq : IdEq pd}.
Variables (r : rdoc) (doc : D).
Hypothesis Hrep : rep r doc.
Hypothesis Hv : valid_doc r.
Hypothesis Hu : unique_ids (id_at r).

Lemma layout_sees w st es : layout w (doc_shape r st) = Some es -> sees (fact r) [] es.
Proof.
  unfold layout, doc_shape. intros H. destruct (rend w _ _ look_end pos0) as [[es' p']|] eqn:E; [|discriminate].
  injection H as <-. apply (@rend_sees _ _ r _ _ _ _ _ _ _ [] E).
  - apply elab_labelled; auto.
  - apply elab_texts; auto.
Qed.

Lemma text_event w st es a j t b : layout w (doc_shape r st) = Some es -> es = a ++ EText j t :: b ->
  own_text r (open_path a) t.
Proof. intros H ->. apply layout_sees in H. apply sees_app in H as [_ H]. simpl in H. apply H. Qed.

(** Inside a text node, between its start and something in it, only it is open. *)
Lemma leaf_open w st es path i s a x y : layout w (doc_shape r st) = Some es -> linear es ->
  node_at r path = Some (RText i s) -> es = a ++ x ++ y -> start_at (NPL r) path a -> open_path (a ++ x) = path ->
  forall u v, x = u ++ v -> open_path (a ++ u) = path.
Proof.
  intros Hes Hlin Hleaf -> Hst Hx. destruct (layout_good Hv _ _ Hes) as [G _]. pose proof (layout_sees _ _ Hes) as S.
  induction u as [|e u IH] using rev_ind; intros v ->.
  { rewrite app_nil_r. destruct (@start_at_start _ _ r Hv Hu _ _ _ _ _ _ Hes eq_refl Hst) as [[-> ->]|(a' & j & n & -> & <-)]; auto.
    unfold open_path. rewrite open_from_app. reflexivity. }
  assert (Ho : open_path (a ++ u) = path) by (apply (IH (e :: v)); rewrite <- app_assoc; reflexivity).
  rewrite <- !app_assoc in *. simpl in *.
  rewrite app_assoc in G, S. apply good_app in G as [_ G]. apply sees_app in S as [_ S].
  assert (Hstk : open_from [] (a ++ u) = rev path).
  { apply (f_equal (@rev _)) in Ho. unfold open_path in Ho. rewrite rev_involutive in Ho. exact Ho. }
  rewrite Hstk in G, S. simpl in S. destruct S as [S _].
  unfold open_path. rewrite app_assoc, open_from_app, Hstk.
  destruct e as [j t| |ind|j|j n|j n]; simpl; try apply rev_involutive.
  - exfalso. simpl in S. rewrite rev_involutive in S. apply S. rewrite (node_at_app r path n Hleaf). destruct n; reflexivity.
  - exfalso. simpl in G. destruct G as (stk' & E & Hj & G).
    unfold open_path in Hx. rewrite app_assoc, open_from_app, Hstk in Hx. simpl in Hx.
    apply (f_equal (@rev _)) in Hx. rewrite rev_involutive in Hx. rewrite E in Hx. simpl in Hx.
    apply good_app in G as [G _].
    destruct (@opened _ (id_at r) (length v) v stk' n stk' (le_n _) G Hx) as [(a1 & j1 & b1 & -> & H1 & H2)|[k' H1]].
    2: { apply (f_equal (@length _)) in H1. rewrite app_length in H1. simpl in H1. lia. }
    destruct Hst as [[-> ->]|(q1 & j2 & m & a' & -> & Hq & ->)]; [discriminate|].
    rewrite rev_app_distr in E. simpl in E. injection E as -> E. subst stk'. rewrite rev_involutive in H2.
    assert (j2 = j1) by (unfold NPL in Hq; congruence). subst j2.
    rewrite app_assoc in Hlin.
    eapply (@linear_disjoint _ (a' ++ [EEnter j1 n]) _ j1 n).
    + rewrite <- app_assoc in Hlin. exact Hlin.
    + apply in_or_app. right. left. reflexivity.
    + apply in_or_app. right. right. apply in_or_app. left. apply in_or_app. right. left. reflexivity.
Qed.

(** Nothing of a node is displayed before its start. *)
Lemma nothing_before w st es path a b x e y : layout w (doc_shape r st) = Some es -> linear es ->
  es = a ++ b -> start_at (NPL r) path a -> a = x ++ e :: y ->
  (forall j n, e <> EEnter j n) -> open_path x = path -> False.
Proof.
  intros Hes Hlin -> Hst Ha He Hx. destruct (layout_good Hv _ _ Hes) as [G _].
  destruct Hst as [[-> ->]|(q1 & j1 & m & a' & -> & Hq & ->)]; [destruct x; discriminate|].
  assert (Hy : y <> []).
  { intros ->. apply app_inj_tail in Ha as [_ Ha]. destruct (He j1 m). auto. }
  destruct (exists_last Hy) as (y' & e' & ->).
  rewrite app_comm_cons, app_assoc in Ha. apply app_inj_tail in Ha as [-> <-].
  unfold open_path in Hx. apply (f_equal (@rev _)) in Hx. rewrite rev_involutive, rev_app_distr in Hx. simpl in Hx.
  assert (Gx : good (id_at r) [] x).
  { rewrite <- !app_assoc in G. apply good_app in G. apply G. }
  destruct (@opened _ (id_at r) (length x) x [] m (rev q1) (le_n _) Gx Hx) as [(b1 & j2 & b2 & -> & H1 & H2)|[k' H1]];
    [|destruct k'; discriminate].
  rewrite rev_involutive in H2. assert (j2 = j1) by (unfold NPL in Hq; congruence). subst j2.
  apply (@linear_disjoint _ (b1 ++ [EEnter j1 m]) ((b2 ++ e :: y') ++ EEnter j1 m :: b) j1 m).
  - repeat (rewrite <- app_assoc in Hlin; simpl in Hlin). repeat (rewrite <- app_assoc; simpl). exact Hlin.
  - apply in_or_app. right. left. reflexivity.
  - apply in_or_app. right. left. reflexivity.
Qed.

Lemma existsb_split {A} (f : A -> bool) l : existsb f l = true -> exists a x b, l = a ++ x :: b /\ f x = true /\ existsb f a = false.
Proof.
  induction l as [|y l IH]; simpl; [discriminate|]. destruct (f y) eqn:E.
  - intros _. exists [], y, l. auto.
  - intros H. destruct (IH H) as (a & x & b & -> & H1 & H2). exists (y :: a), x, b. simpl. rewrite E. auto.
Qed.

(** The first text after the start of a text node that displays its text. *)
Lemma own_first w st es path i s a mid j t rest : layout w (doc_shape r st) = Some es -> linear es ->
  node_at r path = Some (RText i s) ->
  (exists x j t y, es = x ++ EText j t :: y /\ tx_from_text t = true /\ open_path x = path) ->
  es = a ++ mid ++ EText j t :: rest -> start_at (NPL r) path a -> existsb is_ftext mid = false ->
  tx_from_text t = true -> open_path (a ++ mid) = path /\ tx_str t = s.
Proof.
  intros Hes Hlin Hleaf (x & j0 & t0 & y & Ex & Ht0 & Hox) E Hst Hmid Ht.
  assert (Ho : open_path (a ++ mid) = path).
  { rewrite E in Ex. apply app_eq_app in Ex as (l & [[E1 E2]|[E1 E2]]).
    - destruct l as [|e l].
      + rewrite app_nil_r in E1. subst x. destruct mid as [|e mid]; [rewrite app_nil_r; exact Hox|].
        exfalso. injection E2 as <- _. simpl in Hmid. rewrite Ht0 in Hmid. discriminate.
      + exfalso. injection E2 as <- _. eapply nothing_before with (x := x) (e := EText j0 t0); eauto. discriminate.
    - symmetry in E2. apply app_eq_app in E2 as (v & [[E3 E4]|[E3 E4]]).
      + subst l. destruct v as [|e v].
        * rewrite app_nil_r in *. subst x. exact Hox.
        * eapply (@leaf_open w st es path i s a (mid ++ e :: v) (EText j0 t0 :: y)); eauto.
          -- rewrite E, E4, <- app_assoc. reflexivity.
          -- rewrite <- E1. exact Hox.
      + destruct v as [|e v].
        * rewrite app_nil_r in E3. subst l x. exact Hox.
        * exfalso. injection E4 as <- _. subst mid. rewrite existsb_app in Hmid. simpl in Hmid.
          rewrite Ht0, orb_true_r in Hmid. discriminate. }
  split; auto. assert (Ht' : own_text r (open_path (a ++ mid)) t).
  { eapply text_event; [exact Hes|]. rewrite <- app_assoc. exact E. }
  destruct Ht' as [_ H]. destruct (H Ht) as [i' Hn]. rewrite Ho, Hleaf in Hn. injection Hn as _ ->. reflexivity.
Qed.

(** Lines with the same strings. *)
Lemma lines_strings es es' : (forall cur cur', segs_to_string cur = segs_to_string cur' ->
    map segs_to_string (lines_from cur es) = map segs_to_string (lines_from cur' es')) ->
  forall a, map segs_to_string (lines_of (a ++ es)) = map segs_to_string (lines_of (a ++ es')).
Proof.
  intros H a. unfold lines_of.
  assert (HH : forall a cur cur', segs_to_string cur = segs_to_string cur' ->
    map segs_to_string (lines_from cur (a ++ es)) = map segs_to_string (lines_from cur' (a ++ es'))).
  { clear a. induction a as [|e a IH]; intros cur cur' Hc; simpl; auto. destruct e; auto.
    - apply IH. unfold segs_to_string in *. rewrite !map_app, !concat_app, Hc. reflexivity.
    - simpl. rewrite Hc. f_equal. apply IH. reflexivity. }
  apply HH. reflexivity.
Qed.

Lemma segs_app a b : segs_to_string (a ++ b) = segs_to_string a ++ segs_to_string b.
Proof. unfold segs_to_string. rewrite map_app, concat_app. reflexivity. Qed.

Lemma cur_strings es : forall cur cur', segs_to_string cur = segs_to_string cur' ->
  map segs_to_string (lines_from cur es) = map segs_to_string (lines_from cur' es).
Proof.
  induction es as [|e es IH]; intros cur cur' H; simpl; [rewrite H; reflexivity|].
  destruct e; auto.
  - apply IH. rewrite !segs_app, H. reflexivity.
  - simpl. rewrite H. reflexivity.
Qed.

Lemma split_strings j t n b a :
  map segs_to_string (lines_of ((a ++ [EText j (fst (split_at t n))]) ++ EText j (snd (split_at t n)) :: b)) =
  map segs_to_string (lines_of (a ++ EText j t :: b)).
Proof.
  rewrite <- app_assoc. apply lines_strings. intros cur cur' H. simpl. apply cur_strings.
  rewrite !segs_app, H, <- app_assoc. f_equal. unfold segs_to_string. simpl. rewrite !app_nil_r. apply firstn_skipn.
Qed.

Lemma last_text a j t : exists ls l, lines_of (a ++ [EText j t]) = ls ++ [l ++ [text_seg t]].
Proof.
  unfold lines_of. destruct (lines_app a [EText j t] []) as (l & ls & H1 & H2). exists ls, l. rewrite H2. reflexivity.
Qed.

Lemma first_text b j t : exists r' ls, lines_from [] (EText j t :: b) = (text_seg t :: r') :: ls.
Proof. simpl. destruct (lines_cur b [text_seg t]) as (x & ls & _ & H). rewrite H. exists x, ls. reflexivity. Qed.

Theorem text_focus w st es path i s n : layout w (doc_shape r st) = Some es -> linear es -> splittable r ->
  node_at r path = Some (RText i s) ->
  (exists x j t y, es = x ++ EText j t :: y /\ tx_from_text t = true /\ open_path x = path) ->
  exists ups fl downs, printed doc w path (FText n) st ups fl downs /\
    map segs_to_string (all_lines ups fl downs) = map segs_to_string (lines_of es) /\
    exists a j t b before after,
      es = a ++ EText j t :: b /\ open_path a = path /\ tx_str t = s /\
      left_segments fl = before ++ [Segment (firstn n s) (str_width (firstn n s)) (tx_style t)] /\
      right_segments fl = Segment (skipn n s) (str_width (skipn n s)) (tx_style t) :: after /\
      lines_of a = rev ups ++ [before] /\ lines_of b = after :: downs.
Proof.
  intros Hes Hlin Hs Hleaf Hdisp.
  assert (Hd : displayed es path).
  { destruct Hdisp as (x & j & t & y & -> & _ & H). exists x, (EText j t :: y). auto. }
  destruct (@path_accepted _ _ _ r doc Hrep Hv Hu w st es path (FText n) Hes Hlin (fun _ => Hs) Hd)
    as [(ups & fl & downs & pre & post & Hp & Hdiv & H1 & H2)|[(E & _)|(_ & _ & a & mid & E & Hst & Hm)]]; [|discriminate|].
  2: { exfalso. destruct Hdisp as (x & j & t & y & Ex & Ht & Ho).
       rewrite E in Ex. apply app_eq_app in Ex as (l & [[E1 E2]|[E1 E2]]).
       - destruct l as [|e l].
         + simpl in E2. subst mid. simpl in Hm. rewrite Ht in Hm. discriminate.
         + injection E2 as <- _. eapply nothing_before with (x := x) (e := EText j t); eauto. discriminate.
       - subst mid. rewrite existsb_app in Hm. simpl in Hm. rewrite Ht, orb_true_r in Hm. discriminate. }
  destruct Hdiv as (a & mid & j & t & rest & E & -> & -> & Hst & Hmid & Ht).
  destruct (@own_first w st es path i s a mid j t rest Hes Hlin Hleaf Hdisp E Hst Hmid Ht) as [Ho <-].
  exists ups, fl, downs. split; auto. rewrite app_assoc in H1. split.
  { unfold all_lines. rewrite E, (app_assoc a).
    etransitivity; [|apply (split_strings j t n rest (a ++ mid))]. f_equal. symmetry. apply lines_join; auto. }
  exists (a ++ mid), j, t, rest.
  destruct (lines_app (a ++ mid) [EText j (fst (split_at t n))] []) as (l & ls & A1 & A2).
  unfold lines_of in H1. rewrite A2 in H1. simpl in H1. apply app_inj_tail in H1 as [-> H1].
  simpl in H2. destruct (lines_cur rest [text_seg (snd (split_at t n))]) as (x & ls & B1 & B2).
  cbn [app text_seg tx_str tx_width tx_style split_at snd] in B2. rewrite B2 in H2. injection H2 as H2 ->.
  exists l, x. rewrite <- app_assoc. split; [exact E|]. split; [exact Ho|]. split; [reflexivity|]. split; [symmetry; exact H1|]. split; [symmetry; exact H2|]. split; [exact A1|exact B1].

Qed.

End Text.
