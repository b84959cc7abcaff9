(** The first display of a node, from the generic statement. *)
From Verif Require Export SpecFirst PFirst2 PFocus2.

Set Implicit Arguments.

Section First3.
Context {pd : PrettyDoc} {env : Env} {ideq : IdEq pd}.
Variables (r : rdoc) (doc : D).
Hypothesis Hrep : rep r doc.
Hypothesis Hv : valid_doc r.
Hypothesis Hu : unique_ids (id_at r).
Notation idat := (id_at r).
Notation NPL := (NPL r).
Notation good := (good (id_at r)).
Notation chain := (chain NPL).
Notation under := (under NPL).

Lemma NPL_inj q q' j : NPL q j -> NPL q' j -> q = q'.
Proof. apply Hu. Qed.

(** The generic statement for such documents. *)
Lemma first_lab_spec w path ft st : (is_text_target ft = true -> splittable r) ->
  exists res, ev (fun n => pretty_print n doc w path ft st) res /\
    match res with
    | Ok (up, fl, down) =>
        exists ru rd, ev (fun n => collect n (up_next n) up) ru /\
                      ev (fun n => collect n (down_next n) down) rd /\
          (forall f, ru = Fail f -> val_fail f) /\ (forall f, rd = Fail f -> val_fail f) /\
          match layout w (doc_shape r st) with
          | Some es => exists ups downs pre post, ru = Ok ups /\ rd = Ok downs /\
              divided1 NPL ft path es pre post /\
              lines_of pre = rev ups ++ [left_segments fl] /\
              lines_from [] post = right_segments fl :: downs
          | None => is_ok ru = false \/ is_ok rd = false
          end
    | Fail f =>
        (val_fail f /\ layout w (doc_shape r st) = None) \/
        (exists path1 i path2, path = path1 ++ i :: path2 /\ f = FErr (InvalidPath i) /\
          missing_first NPL path1 i (layout w (doc_shape r st))) \/
        (ft = FMark /\ f = FErr MissingFocusMark /\
           forall es, layout w (doc_shape r st) = Some es ->
           exists j a mid, es = a ++ mid /\ chain path a /\ NPL path j /\ ~ In (EMark j) mid) \/
        (exists n, ft = FText n /\ f = FErr MissingText /\
           forall es, layout w (doc_shape r st) = Some es ->
           exists a mid, es = a ++ mid /\ chain path a /\ existsb is_ftext mid = false)
    end.
Proof.
  intros Hs. apply first_spec with (Q := QL r).
  - apply val_eol.
  - apply val_ovf.
  - intros j a b (q & H1 & [H2 H3] & [H4 H5]). split; exists q; auto.
  - intros j a b (q & H1 & [H2 H3] & [H4 H5]). split; exists q; auto.
  - intros j n j' s (q & H1 & [H2 H3] & H4). exists (q ++ [n]). auto.
  - intros j t n (q & H1 & _ & H2). exists q. split; auto. split; [exact I|]. intros Hf. simpl in *.
    destruct (H2 Hf) as [_ (i & s & pre & Hn & E)]. split; auto.
    exists i, s, (pre ++ firstn n (tx_str t)). split; auto. rewrite <- app_assoc, firstn_skipn. exact E.
  - intros q j n j' s H1 (q' & H2 & [H3 _] & _). assert (q' = q) by (eapply Hu; eauto). subst q'. apply H3. reflexivity.
  - exact NPL_inj.
  - apply split_lab. exact Hs.
  - apply rep_tree; auto.
  - apply root_lab; auto.
Qed.

(** ** Brackets *)

(** Leaving the innermost node of the stack [m :: stk]. *)
Lemma closing : forall es k m stk stk', good (k ++ m :: stk) es -> open_from (k ++ m :: stk) es = stk' ->
  length stk' <= length stk ->
  exists b j c, es = b ++ EExit j m :: c /\ open_from (k ++ m :: stk) b = m :: stk /\
    idat (rev stk) = Some j /\ open_from stk c = stk' /\
    (forall x j' n y, b = x ++ EExit j' n :: y -> open_from (k ++ m :: stk) x <> m :: stk).
Proof.
  induction es as [|e es IH]; intros k m stk stk' G O L.
  - simpl in O. subst stk'. rewrite app_length in L. simpl in L. lia.
  - destruct e.
    1,2,3,4: simpl in G, O; (assert (G' : good (k ++ m :: stk) es) by tauto);
      destruct (IH k m stk stk' G' O L) as (b & j1 & c & -> & H1 & H2 & H3 & H4);
      (eexists (_ :: b), j1, c; split; [reflexivity|]; simpl; repeat (split; [solve [auto]|]);
       intros [|e0 x] j' n y E; simpl in E; [discriminate|]; injection E as <- E; simpl; eauto).
    + simpl in G, O. destruct G as [G1 G].
      destruct (IH (n :: k) m stk stk' G O L) as (b & j1 & c & -> & H1 & H2 & H3 & H4).
      exists (EEnter j n :: b), j1, c. split; [reflexivity|]. simpl. repeat (split; [solve [auto]|]).
      intros [|e0 x] j' n' y E; simpl in E; [discriminate|]. injection E as <- E. simpl. eauto.
    + simpl in G, O. destruct G as (stk1 & E1 & G1 & G). destruct k as [|n0 k]; simpl in E1, O.
      * injection E1 as -> <-. exists [], j, es. split; [reflexivity|]. simpl. repeat (split; [solve [auto]|]).
        intros [|e0 x] j' n' y E; discriminate.
      * injection E1 as -> <-. destruct (IH k m stk stk' G O L) as (b & j1 & c & -> & H1 & H2 & H3 & H4).
        exists (EExit j n :: b), j1, c. split; [reflexivity|]. simpl. repeat (split; [solve [auto]|]).
        intros [|e0 x] j' n' y E; simpl in E; injection E as <- E; simpl; [|eauto].
        intros E2. apply (f_equal (@length _)) in E2. simpl in E2. rewrite app_length in E2. simpl in E2. lia.
Qed.


(** ** The first display *)

Lemma chain_stack es q a b : chain q a -> good [] es -> es = a ++ b -> open_from [] a = rev q.
Proof.
  intros H. revert b. induction H as [|q a j m mid H IH HN Hmid]; intros b G E; [reflexivity|].
  rewrite <- !app_assoc in E.
  assert (O : open_path (a ++ mid) = q).
  { eapply good_enter; [exact Hu|exact G| |exact HN]. rewrite E, <- app_assoc. reflexivity. }
  rewrite !open_from_app. rewrite open_from_app in O || (unfold open_path in O; rewrite open_from_app in O).
  simpl. rewrite rev_app_distr. simpl. rewrite <- (rev_involutive (open_from (open_from [] a) mid)), O. reflexivity.
Qed.

Definition after_first (q : list nat) (c : list event) : Prop :=
  (q = [] /\ c = []) \/ exists q1 m j1 c', q = q1 ++ [m] /\ NPL q1 j1 /\ c = EExit j1 m :: c'.

Lemma exit_not_in q1 m j1 j q mid : q = q1 ++ [m] -> NPL q1 j1 -> NPL q j ->
  Forall (evin0 j (under q)) mid -> ~ In (EExit j1 m) mid.
Proof.
  intros -> H1 Hj Hm Hin. rewrite Forall_forall in Hm. apply Hm in Hin. simpl in Hin.
  destruct Hin as [->|(x & q' & H')].
  - pose proof (NPL_inj H1 Hj) as E. apply (f_equal (@length _)) in E. rewrite app_length in E. simpl in E. lia.
  - pose proof (NPL_inj H1 H') as E. apply (f_equal (@length _)) in E. rewrite !app_length in E. simpl in E. lia.
Qed.

Lemma evin_0 j i U mid : Forall (evin j i U) mid -> Forall (evin0 j U) mid.
Proof. apply Forall_impl. intros e [H _]. exact H. Qed.

Lemma chain_first es q a : good [] es -> open_from [] es = [] -> chain q a -> forall rest, es = a ++ rest ->
  exists b c, rest = b ++ c /\ first_display es q a b c /\ open_from (rev q) b = rev q /\ after_first q c /\
    (forall x j' n y, b = x ++ EExit j' n :: y -> open_from (rev q) x <> rev q).
Proof.
  intros G O H. induction H as [|q a j m mid H IH HN Hmid]; intros rest E.
  - exists es, []. rewrite app_nil_r. simpl in E. split; [auto|]. split; [constructor|]. split; [exact O|].
    split; [left; auto|]. intros x j' n y -> Ox. apply good_app in G as [_ G]. simpl in G, Ox. rewrite Ox in G.
    destruct G as (stk' & G & _). discriminate.
  - rewrite <- !app_assoc in E. simpl in E.
    destruct (IH _ E) as (b0 & c0 & E0 & Hfd & Ob & Haf & Hcl).
    assert (Oa : open_from [] a = rev q) by (eapply chain_stack; eauto).
    assert (Om : open_from (rev q) mid = rev q).
    { assert (Op : open_path (a ++ mid) = q).
      { eapply good_enter; [exact Hu|exact G| |exact HN]. rewrite E, <- app_assoc. reflexivity. }
      unfold open_path in Op. rewrite open_from_app, Oa in Op. rewrite <- Op at 2. rewrite rev_involutive. reflexivity. }
    assert (Hb : exists b', b0 = mid ++ EEnter j m :: b' /\ rest = b' ++ c0).
    { apply app_eq_app in E0 as (l & [[E1 E2]|[E1 E2]]).
      - exfalso. destruct Haf as [[_ ->]|(q1 & m1 & j1 & c' & Eq & HN1 & ->)].
        + destruct l; discriminate.
        + destruct l as [|e l]; [discriminate|]. injection E2 as <- E2.
          eapply exit_not_in; [exact Eq|exact HN1|exact HN|exact (evin_0 Hmid)|]. rewrite E1. apply in_or_app. right. left. reflexivity.
      - destruct l as [|e l].
        + exfalso. simpl in E2. destruct Haf as [[_ ->]|(q1 & m1 & j1 & c' & Eq & HN1 & ->)]; discriminate.
        + injection E2 as <- E2. exists l. auto. }
    destruct Hb as (b' & -> & ->).
    assert (Gb : good (rev q) (mid ++ EEnter j m :: b')).
    { rewrite E in G. apply good_app in G as [_ G]. rewrite Oa in G.
      change (mid ++ EEnter j m :: b' ++ c0) with (mid ++ (EEnter j m :: b') ++ c0) in G. rewrite app_assoc in G.
      apply good_app in G as [G _]. exact G. }
    pose proof Gb as Gb0. apply good_app in Gb as [_ Gb]. rewrite Om in Gb. simpl in Gb. destruct Gb as [_ Gb].
    rewrite open_from_app, Om in Ob. simpl in Ob.
    destruct (@closing b' [] m (rev q) (rev q) Gb Ob (le_n _)) as (b2 & jx & b3 & -> & O2 & Hjx & O3 & Hlast). simpl app in O2, Hlast.
    rewrite rev_involutive in Hjx. assert (jx = j) by (unfold PFocus2.NPL in HN; congruence). subst jx.
    exists b2, (EExit j m :: b3 ++ c0). split; [rewrite <- app_assoc; reflexivity|].
    assert (Oab : open_path (a ++ mid) = q).
    { unfold open_path. rewrite open_from_app, Oa, Om, rev_involutive. reflexivity. }
    assert (Hst : forall x, open_from [] (a ++ mid ++ EEnter j m :: x) = open_from (m :: rev q) x).
    { intros x. rewrite !open_from_app, Oa, Om. reflexivity. }
    split.
    { apply fd_child; auto.
      - intros x j' y -> Ox. rewrite E in G.
        rewrite <- app_assoc in G. rewrite app_assoc in G. apply good_app in G as [_ G]. simpl in G. destruct G as [G _].
        change (rev (open_from [] (a ++ x))) with (open_path (a ++ x)) in G. rewrite Ox in G.
        assert (j' = j) by (unfold PFocus2.NPL in HN; congruence). subst j'.
        apply Forall_app in Hmid as [_ Hmid]. inversion Hmid as [|? ? [_ Hne] _]. congruence.
      - unfold open_path. rewrite Hst, O2. simpl. rewrite rev_involutive. reflexivity.
      - intros x j' y -> Ox. unfold open_path in Ox. rewrite Hst in Ox.
        apply (Hlast x j' m y eq_refl). simpl. rewrite <- (rev_involutive (open_from (m :: rev q) x)), Ox, rev_app_distr. reflexivity. }
    rewrite rev_app_distr. simpl. split; [exact O2|].
    split; [right; exists q, m, j, (b3 ++ c0); auto|]. exact Hlast.
Qed.

Lemma fd_parts es q a b c : first_display es q a b c -> es = a ++ b ++ c.
Proof.
  induction 1 as [|q a b1 j i b2 b3 c H IH _ _ _ _]; [rewrite app_nil_r; reflexivity|].
  rewrite IH at 1. rewrite <- !app_assoc. simpl. rewrite <- !app_assoc. reflexivity.
Qed.

Lemma fd_inv es q i a b c : first_display es (q ++ [i]) a b c ->
  exists a0 b1 j b3 c0, first_display es q a0 (b1 ++ EEnter j i :: b ++ EExit j i :: b3) c0 /\
    open_path (a0 ++ b1) = q /\
    (forall x j' y, b1 = x ++ EEnter j' i :: y -> open_path (a0 ++ x) <> q) /\
    open_path (a0 ++ b1 ++ EEnter j i :: b) = q ++ [i] /\
    (forall x j' y, b = x ++ EExit j' i :: y -> open_path (a0 ++ b1 ++ EEnter j i :: x) <> q ++ [i]) /\
    a = a0 ++ b1 ++ [EEnter j i] /\ c = EExit j i :: b3 ++ c0.
Proof.
  intros H. remember (q ++ [i]) as q' eqn:Eq. destruct H as [|q0 a0 b1 j i0 b2 b3 c0 H H1 H2 H3 H4].
  - destruct q; discriminate.
  - apply app_inj_tail in Eq as [-> ->]. exists a0, b1, j, b3, c0. repeat (split; [solve [auto]|]). auto.
Qed.

Lemma first_split (X : Type) (R R' : list X -> Prop) e e' u v u' v' :
  u ++ e :: v = u' ++ e' :: v' -> R u -> R' u' ->
  (forall x y, u = x ++ e' :: y -> R' x -> False) -> (forall x y, u' = x ++ e :: y -> R x -> False) ->
  u = u' /\ e = e' /\ v = v'.
Proof.
  intros E Hu1 Hu2 H1 H2. apply app_eq_app in E as (l & [[E1 E2]|[E1 E2]]).
  - destruct l as [|z l]; simpl in E2.
    + rewrite app_nil_r in E1. injection E2 as -> ->. auto.
    + injection E2 as <- E2. exfalso. eapply H1; eauto.
  - destruct l as [|z l]; simpl in E2.
    + rewrite app_nil_r in E1. injection E2 as -> ->. auto.
    + injection E2 as <- E2. exfalso. eapply H2; eauto.
Qed.

Lemma fd_det es q : forall a b c a' b' c', first_display es q a b c -> first_display es q a' b' c' ->
  a = a' /\ b = b' /\ c = c'.
Proof.
  induction q as [|i q IH] using rev_ind; intros a b c a' b' c' H H'.
  - assert (Hroot : forall a b c, first_display es [] a b c -> a = [] /\ b = es /\ c = []).
    { clear. intros a b c H. remember [] as q eqn:Eq. destruct H; [auto|]. destruct q; discriminate. }
    apply Hroot in H as (-> & -> & ->). apply Hroot in H' as (-> & -> & ->). auto.
  - apply fd_inv in H as (a0 & b1 & j & b3 & c0 & H & P1 & P2 & P3 & P4 & -> & ->).
    apply fd_inv in H' as (a0' & b1' & j' & b3' & c0' & H' & P1' & P2' & P3' & P4' & -> & ->).
    destruct (IH _ _ _ _ _ _ H H') as (<- & E & <-).
    apply (@first_split _ (fun x => open_path (a0 ++ x) = q) (fun x => open_path (a0 ++ x) = q)) in E as (<- & Ej & E); auto.
    2: { intros x y E2. apply (P2 x j' y E2). }
    2: { intros x y E2. apply (P2' x j y E2). }
    injection Ej as <-.
    apply (@first_split _ (fun x => open_path (a0 ++ b1 ++ EEnter j i :: x) = q ++ [i])
      (fun x => open_path (a0 ++ b1 ++ EEnter j i :: x) = q ++ [i])) in E as (<- & _ & <-); auto.
    + intros x y E2. apply (P4 x j y E2).
    + intros x y E2. apply (P4' x j y E2).
Qed.

Lemma fd_prefix es q k : forall a b c, first_display es (q ++ k) a b c -> exists a' b' c', first_display es q a' b' c'.
Proof.
  induction k as [|i k IH] using rev_ind; intros a b c H.
  - rewrite app_nil_r in H. eauto.
  - rewrite app_assoc in H. apply fd_inv in H as (a0 & b1 & j & b3 & c0 & H & _). eauto.
Qed.

Section Laid.
Variables (w : N) (st : option Sty) (es : list event).
Hypothesis Hes : layout w (doc_shape r st) = Some es.

Lemma es_good : good [] es /\ open_from [] es = [].
Proof. eapply layout_good; eauto. Qed.

(** The first display ends where the node's first display ends. *)
Lemma first_ends q a b c j mid post : first_display es q a b c -> chain q a -> es = a ++ mid ++ post ->
  NPL q j -> Forall (evin0 j (under q)) mid -> end_at NPL q post -> b = mid /\ c = post.
Proof.
  intros Hfd Hch E HN Hmid Hend. destruct es_good as [G O].
  destruct (chain_first G O Hch _ E) as (b' & c' & E' & Hfd' & Ob & Haf & Hcl).
  destruct (fd_det Hfd Hfd') as (_ & <- & <-).
  symmetry in E'. apply app_eq_app in E' as (l & [[E1 E2]|[E1 E2]]).
  - destruct l as [|e l]; [rewrite app_nil_r in E1; simpl in E2; auto|]. exfalso.
    destruct Hend as [[-> ->]|(q1 & j1 & m & b0 & -> & Hq & ->)]; [discriminate|].
    injection E2 as <- E2. apply (Hcl mid j1 m l E1).
    assert (Oa : open_from [] a = rev (q1 ++ [m])) by (eapply chain_stack; eauto).
    rewrite E in G. apply good_app in G as [_ G]. rewrite Oa in G. apply good_app in G as [_ G].
    simpl in G. destruct G as (stk' & Es & G & _). rewrite Es.
    assert (rev stk' = q1) by (eapply Hu; eauto). subst q1. rewrite rev_app_distr, rev_involutive. reflexivity.
  - destruct l as [|e l]; [rewrite app_nil_r in E1; simpl in E2; auto|]. exfalso.
    destruct Haf as [[-> ->]|(q1 & m & j1 & c' & Eq & Hq & ->)]; [discriminate|].
    injection E2 as <- E2. eapply exit_not_in; [exact Eq|exact Hq|exact HN|exact Hmid|]. rewrite E1. apply in_or_app. right. left. reflexivity.
Qed.

Lemma chain_fd q a rest : chain q a -> es = a ++ rest -> exists b c, first_display es q a b c /\ rest = b ++ c.
Proof.
  intros Hch E. destruct es_good as [G O]. destruct (chain_first G O Hch _ E) as (b & c & E' & H & _). eauto.
Qed.

Lemma missing_no_child path1 i : missing_first NPL path1 i (Some es) ->
  exists a b c, first_display es path1 a b c /\ ~ shows_child a b path1 i.
Proof.
  intros Hm. destruct (Hm es eq_refl) as (a & mid & post & j & E & Hch & HN & Hmid & Hend).
  destruct (chain_fd _ Hch E) as (b & c & Hfd & Ebc).
  assert (Hbc : b = mid /\ c = post) by (eapply first_ends; eauto; exact (evin_0 Hmid)).
  destruct Hbc as [-> ->].
  exists a, mid, post. split; [exact Hfd|]. intros (x & j' & y & -> & Ox).
  destruct es_good as [G _]. rewrite E, <- app_assoc, app_assoc in G. apply good_app in G as [_ G]. simpl in G.
  destruct G as [G _]. change (rev (open_from [] (a ++ x))) with (open_path (a ++ x)) in G. rewrite Ox in G.
  assert (j' = j) by (unfold PFocus2.NPL in HN; congruence). subst j'.
  apply Forall_app in Hmid as [_ Hmid]. inversion Hmid as [|? ? [_ Hne] _]. congruence.
Qed.

(** A path whose node has no first display. *)
Lemma first_shows path i a b c : first_display es (path ++ [i]) a b c ->
  exists a0 b0 c0, first_display es path a0 b0 c0 /\ shows_child a0 b0 path i.
Proof.
  intros H. apply fd_inv in H as (a0 & b1 & j & b3 & c0 & H & P1 & _). exists a0, (b1 ++ EEnter j i :: b ++ EExit j i :: b3), c0.
  split; [exact H|]. exists b1, j, (b ++ EExit j i :: b3). auto.
Qed.

(** What the call does, when the node has a first display. *)
Lemma first_accepted path ft a b c : (is_text_target ft = true -> splittable r) -> first_display es path a b c ->
  chain path a /\
  ((exists ups fl downs pre post, printed doc w path ft st ups fl downs /\ divided1 NPL ft path es pre post /\
     lines_of pre = rev ups ++ [left_segments fl] /\ lines_from [] post = right_segments fl :: downs) \/
  (ft = FMark /\ ev (fun n => pretty_print n doc w path ft st) (Fail (FErr MissingFocusMark)) /\
     exists j, NPL path j /\ ~ In (EMark j) (b ++ c)) \/
  (is_text_target ft = true /\ ev (fun n => pretty_print n doc w path ft st) (Fail (FErr MissingText)) /\
     existsb is_ftext (b ++ c) = false)).
Proof.
  intros Hs Hfd.
  assert (Hsame : forall a' rest, chain path a' -> es = a' ++ rest -> a' = a /\ rest = b ++ c).
  { intros a' rest Hch E. destruct (chain_fd _ Hch E) as (b' & c' & Hfd' & ->).
    destruct (fd_det Hfd Hfd') as (<- & <- & <-). auto. }
  assert (Hno : forall p1 i' p2, path = p1 ++ i' :: p2 -> missing_first NPL p1 i' (Some es) -> False).
  { intros p1 i' p2 E Hm. destruct (missing_no_child Hm) as (a1 & b1 & c1 & H1 & H2).
    assert (Hp : exists a' b' c', first_display es (p1 ++ [i']) a' b' c').
    { apply (@fd_prefix es (p1 ++ [i']) p2 a b c). rewrite <- app_assoc. simpl. rewrite <- E. exact Hfd. }
    destruct Hp as (a2 & b2 & c2 & H3). apply first_shows in H3 as (a3 & b3 & c3 & H4 & H5).
    destruct (fd_det H1 H4) as (<- & <- & <-). contradiction. }
  assert (Hch : chain path a).
  { destruct (@first_lab_spec w path FStart st) as (res & Hev & Hr); [discriminate|]. rewrite Hes in Hr.
    destruct res as [[[up fl] down]|f].
    - destruct Hr as (ru & rd & _ & _ & _ & _ & ups & downs & pre & post & _ & _ & [E Hc] & _).
      destruct (Hsame _ _ Hc E) as [-> _]. exact Hc.
    - exfalso. destruct Hr as [[_ H]|[(p1 & i' & p2 & E & -> & Hm)|[(H & _)|(n & H & _)]]]; try discriminate. eauto. }
  split; [exact Hch|].
  destruct (@first_lab_spec w path ft st Hs) as (res & Hev & Hr). rewrite Hes in Hr.
  destruct res as [[[up fl] down]|f].
  - left. destruct Hr as (ru & rd & Hu' & Hd' & _ & _ & ups & downs & pre & post & -> & -> & Hdiv & H1 & H2).
    exists ups, fl, downs, pre, post. split; auto. exists up, down. auto.
  - destruct Hr as [[_ H]|[(p1 & i' & p2 & E & -> & Hm)|[(-> & -> & Hm)|(n & -> & -> & Hm)]]].
    + discriminate.
    + exfalso. eauto.
    + right; left. destruct (Hm es eq_refl) as (j & a' & mid & E & Hc & HN & Hin).
      destruct (Hsame _ _ Hc E) as [_ ->]. eauto.
    + right; right. destruct (Hm es eq_refl) as (a' & mid & E & Hc & Hin).
      destruct (Hsame _ _ Hc E) as [_ ->]. auto.
Qed.

Lemma first_divided path ft pre post : divided1 NPL ft path es pre post ->
  exists a b c, first_display es path a b c.
Proof.
  intros Hd. destruct ft as [| | |n]; simpl in Hd.
  - destruct Hd as [E Hc]. destruct (chain_fd _ Hc E) as (b & c & H & _). eauto.
  - destruct Hd as [E [_ (a & mid & j & -> & Hc & _)]]. rewrite <- app_assoc in E.
    destruct (chain_fd _ Hc E) as (b & c & H & _). eauto.
  - destruct Hd as [E (a & mid & j & -> & Hc & _)]. rewrite <- !app_assoc in E.
    destruct (chain_fd _ Hc E) as (b & c & H & _). eauto.
  - destruct Hd as (a & mid & j & t & rest & E & _ & _ & Hc & _).
    destruct (chain_fd _ Hc E) as (b & c & H & _). eauto.
Qed.

(** A path that leads out of what is displayed first. *)
Lemma first_rejected path1 i path2 ft a b c : (is_text_target ft = true -> splittable r) ->
  first_display es path1 a b c -> ~ shows_child a b path1 i ->
  ev (fun n => pretty_print n doc w (path1 ++ i :: path2) ft st) (Fail (FErr (InvalidPath i))).
Proof.
  intros Hs Hfd Hns.
  assert (Hno : forall a' b' c', ~ first_display es (path1 ++ i :: path2) a' b' c').
  { intros a' b' c' H. assert (Hp : exists a' b' c', first_display es (path1 ++ [i]) a' b' c').
    { apply (@fd_prefix es (path1 ++ [i]) path2 a' b' c'). rewrite <- app_assoc. exact H. }
    destruct Hp as (a2 & b2 & c2 & H3). apply first_shows in H3 as (a3 & b3 & c3 & H4 & H5).
    destruct (fd_det Hfd H4) as (<- & <- & <-). contradiction. }
  destruct (@first_lab_spec w (path1 ++ i :: path2) ft st Hs) as (res & Hev & Hr). rewrite Hes in Hr.
  destruct res as [[[up fl] down]|f].
  - exfalso. destruct Hr as (ru & rd & _ & _ & _ & _ & ups & downs & pre & post & _ & _ & Hdiv & _).
    apply first_divided in Hdiv as (a' & b' & c' & H). eapply Hno; eauto.
  - destruct Hr as [[_ H]|[(p1 & i' & p2 & E & -> & Hm)|[(-> & -> & Hm)|(n & -> & -> & Hm)]]].
    + discriminate.
    + destruct (missing_no_child Hm) as (a1 & b1 & c1 & H1 & H2).
      assert (i' = i) as ->; [|exact Hev].
      apply app_eq_app in E as (l & [[E1 E2]|[E1 E2]]).
      * destruct l as [|x l].
        { simpl in E2. congruence. }
        exfalso. injection E2 as -> E2. subst path1.
        assert (Hp : exists a' b' c', first_display es (p1 ++ [x]) a' b' c').
        { apply (@fd_prefix es (p1 ++ [x]) l a b c). rewrite <- app_assoc. exact Hfd. }
        destruct Hp as (a2 & b2 & c2 & H3). apply first_shows in H3 as (a3 & b3 & c3 & H4 & H5).
        destruct (fd_det H1 H4) as (<- & <- & <-). contradiction.
      * destruct l as [|x l].
        { simpl in E2. congruence. }
        exfalso. injection E2 as -> E2. subst p1.
        assert (Hp : exists a' b' c', first_display es (path1 ++ [x]) a' b' c').
        { apply (@fd_prefix es (path1 ++ [x]) l a1 b1 c1). rewrite <- app_assoc. exact H1. }
        destruct Hp as (a2 & b2 & c2 & H3). apply first_shows in H3 as (a3 & b3 & c3 & H4 & H5).
        destruct (fd_det Hfd H4) as (<- & <- & <-). contradiction.
    + exfalso. destruct (Hm es eq_refl) as (j & a' & mid & E & Hc & _).
      destruct (chain_fd _ Hc E) as (b' & c' & H & _). eapply Hno; eauto.
    + exfalso. destruct (Hm es eq_refl) as (a' & mid & E & Hc & _).
      destruct (chain_fd _ Hc E) as (b' & c' & H & _). eapply Hno; eauto.
Qed.

End Laid.
End First3.
