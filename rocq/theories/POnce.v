(** Documents that show everything once. *)
From Verif Require Export SpecOnce PElab PLab PFocus2 Properties16.

Set Implicit Arguments.

Section Once.
Context {pd : PrettyDoc} {env : Env}.

(** ** Views of shapes *)
Fixpoint views (s : shape) : list (list sight) :=
  match s with
  | SFail _ => []
  | SEmpty | SEol | SMark | SNewline _ => [[]]
  | SText t => if tx_from_text t then [[Own]] else [[]]
  | SConcat a b => flat_map (fun l => map (app l) (views b)) (views a)
  | SChoice a b => views a ++ views b
  | SChild n _ _ => [[Sub n]]
  end.

Fixpoint tops (P : nat -> shape -> Prop) (s : shape) : Prop :=
  match s with
  | SConcat a b | SChoice a b => tops P a /\ tops P b
  | SChild n _ s' => P n s'
  | _ => True
  end.

Section Note.
Variable r : rdoc.
Variable P : nat -> shape -> Prop.
Hypothesis HP : forall n k c, nth_error (r_kids r) n = Some k -> P n (elab k c).
Let text := match r with RText _ _ => true | RBranch _ _ => false end.
Local Notation m := (length (r_kids r)).

Definition view_env (fe : option foldenv) (lr : option (list (list sight) * nat)) : Prop :=
  match fe, lr with
  | None, None => True
  | Some e, Some (l, i) => fe_index e = i /\
      (exists k, nth_error (r_kids r) i = Some k /\ fe_right e = Kid k (elab k)) /\
      (forall c, incl (views (fe_left e c)) l /\ tops P (fe_left e c))
  | _, _ => False
  end.

Lemma branch_views s e l : incl (views s) l /\ tops P s ->
  incl (views (match r with RBranch _ _ => s | RText _ _ => SFail (FErr e) end)) l /\
  tops P (match r with RBranch _ _ => s | RText _ _ => SFail (FErr e) end).
Proof. intros H. destruct r; auto. simpl. split; auto. intros x []. Qed.

Lemma fold_views (join : foldenv -> ctx -> shape) (vj : list (list sight) -> nat -> list (list sight)) :
  (forall e l i c, view_env (Some e) (Some (l, i)) -> incl (views (join e c)) (vj l i) /\ tops P (join e c)) ->
  forall ks i prev acc pre l, r_kids r = pre ++ prev :: ks -> length pre = i ->
  (forall c, incl (views (acc c)) l /\ tops P (acc c)) ->
  forall c, let s := fold_kids join i (Kid prev (elab prev)) (map (fun k => Kid k (elab k)) ks) acc c in
  incl (views s) (fold_left vj (seq (S i) (length ks)) l) /\ tops P s.
Proof.
  intros Hj. induction ks as [|k ks IH]; intros i prev acc pre l Hks Hi Hacc c; cbv zeta; cbn [map fold_kids length seq fold_left]; auto.
  apply IH with (pre := pre ++ [prev]); auto.
  - rewrite <- app_assoc. exact Hks.
  - rewrite app_length. simpl. lia.
  - intros c'. apply Hj. cbn [view_env fe_index fe_right fe_left]. split; auto. split; auto.
    exists k. split; auto. rewrite Hks, nth_error_app2 by lia. replace (S i - length pre) with 1 by lia. reflexivity.
Qed.

Lemma incl_app_both A (a b a' b' : list A) : incl a a' -> incl b b' -> incl (a ++ b) (a' ++ b').
Proof. intros H1 H2 x Hx. apply in_app_iff in Hx. apply in_app_iff. destruct Hx; auto. Qed.

Lemma note_views_ok n : forall fe lr c, view_env fe lr ->
  incl (views (elab_note r (kids_of r) n fe c)) (note_views text m n lr) /\
  tops P (elab_note r (kids_of r) n fe c).
Proof.
  assert (Hlen : length (kids_of r) = m) by (unfold kids_of; apply map_length).
  assert (Hget : forall i x, nth_error (kids_of r) i = Some x -> exists k, nth_error (r_kids r) i = Some k /\ x = Kid k (elab k)).
  { intros i x Hx. unfold kids_of in Hx. rewrite nth_error_map in Hx. destruct (nth_error (r_kids r) i) as [k|]; [|discriminate].
    injection Hx as <-. eauto. }
  assert (Hsome : forall k i, kid_number k m = Some i -> exists x, nth_error (kids_of r) i = Some x).
  { intros k i. unfold kid_number. intros Hk. destruct (nth_error (kids_of r) i) as [x|] eqn:E; eauto. exfalso.
    apply nth_error_None in E. rewrite Hlen in E. destruct (0 <=? k)%Z eqn:E1.
    - destruct (k <? Z.of_nat m)%Z eqn:E2; [|discriminate]. injection Hk as <-. lia.
    - destruct (- Z.of_nat m <=? k)%Z eqn:E2; [|discriminate]. injection Hk as <-. lia. }
  assert (Hnil : forall l : list (list sight), incl (@nil (list sight)) l) by (intros l x []).
  induction n as [| | |s| |n IH|pre l n IH|a IHa b IHb|a IHa b IHb|cd ps a IHa b IHb|i|l n IH| |z IHz o IHo mm IHm|f IHf jn IHj| |];
    intros fe lr c He; cbn [elab_note note_views]; cbv zeta; try (split; [apply incl_refl|exact I]).
  - unfold text. destruct r; simpl; split; auto; apply incl_refl.
  - apply IH; auto.
  - apply IH; auto.
  - destruct (IHa fe lr c He) as [A1 A2], (IHb fe lr c He) as [B1 B2]. simpl. split; auto.
    intros x Hx. apply in_flat_map in Hx as (l1 & H1 & H2). apply in_map_iff in H2 as (l2 & <- & H2).
    apply in_flat_map. exists l1. split; auto. apply in_map. auto.
  - destruct (IHa fe lr c He) as [A1 A2], (IHb fe lr c He) as [B1 B2]. destruct (x_flat c).
    + split; auto. apply incl_appl. auto.
    + simpl. split; auto. apply incl_app_both; auto.
  - assert (Hgo : forall x, let s := if i_cond (r_info x) cd then elab_note r (kids_of r) a fe c else elab_note r (kids_of r) b fe c in
      incl (views s) (note_views text m a lr ++ note_views text m b lr) /\ tops P s).
    { intros x. destruct (IHa fe lr c He) as [A1 A2], (IHb fe lr c He) as [B1 B2].
      destruct (i_cond _ cd); cbv zeta; split; auto; [apply incl_appl|apply incl_appr]; auto. }
    destruct ps as [|k| |]; auto.
    + apply branch_views. rewrite Hlen. destruct (kid_number k m) as [i|] eqn:Ek; [|simpl; auto].
      destruct (Hsome _ _ Ek) as (x & Hx). rewrite Hx. apply Hgo.
    + destruct fe; [apply Hgo|]. simpl. auto.
    + destruct fe; [apply Hgo|]. simpl. auto.
  - apply branch_views. rewrite Hlen. destruct (kid_number i m) as [j|] eqn:Ek; [|simpl; auto].
    destruct (Hsome _ _ Ek) as (x & Hx). rewrite Hx. destruct (Hget _ _ Hx) as (k & Hk & ->). unfold child. simpl. split; auto. apply incl_refl.
  - apply IH; auto.
  - apply branch_views. rewrite <- Hlen. destruct (kids_of r) as [|k1 [|k2 kk]]; simpl in *; rewrite Hlen; auto.
  - apply branch_views. destruct (r_kids r) as [|k ks] eqn:Ek; [|assert (Em : m = S (length ks)) by (rewrite Ek; reflexivity)].
    + unfold kids_of. rewrite Ek. simpl. split; auto. apply incl_refl.
    + cbn [length]. rewrite <- Em.
      assert (Hkid : kids_of r = Kid k (elab k) :: map (fun k => Kid k (elab k)) ks) by (unfold kids_of; rewrite Ek; reflexivity).
      rewrite Hkid. rewrite Hkid in IHj, IHf. rewrite <- Ek in IHj, IHf.
      apply (@fold_views (fun e c => elab_note r (Kid k (elab k) :: map (fun k => Kid k (elab k)) ks) jn (Some e) c) (fun acc i => note_views text m jn (Some (acc, i)))) with (pre := []); [|exact Ek|reflexivity|].
      * intros e l i c' He'. apply (IHj (Some e) (Some (l, i))). exact He'.
      * intros c'. apply IHf. exact I.
  - destruct fe as [e|], lr as [[l i]|]; try contradiction; auto. apply He.
  - destruct fe as [e|], lr as [[l i]|]; try contradiction; auto.
    destruct He as (<- & (k & Hk & ->) & _). unfold child. simpl. split; auto. apply incl_refl.
Qed.
End Note.

Lemma elab_views r c (P : nat -> shape -> Prop) : (forall n k c, nth_error (r_kids r) n = Some k -> P n (elab k c)) ->
  incl (views (elab r c)) (note_views (match r with RText _ _ => true | RBranch _ _ => false end) (length (r_kids r)) (i_note (r_info r)) None) /\
  tops P (elab r c).
Proof. intros HP. rewrite elab_eq. apply note_views_ok; auto. exact I. Qed.

(** ** What is visited *)
Fixpoint visits (stk : list nat) (es : list event) : list (bool * list nat) :=
  match es with
  | [] => []
  | EEnter _ n :: es' => (true, n :: stk) :: visits (n :: stk) es'
  | EExit _ _ :: es' => visits (tl stk) es'
  | EText _ t :: es' => (if tx_from_text t then [(false, stk)] else []) ++ visits stk es'
  | _ :: es' => visits stk es'
  end.

Lemma visits_app a : forall stk b, visits stk (a ++ b) = visits stk a ++ visits (open_from stk a) b.
Proof. induction a as [|e a IH]; intros stk b; simpl; auto. destruct e; simpl; rewrite IH, ?app_assoc; auto. Qed.

Lemma visits_entered es : forall stk, entered stk es = map snd (filter fst (visits stk es)).
Proof. induction es as [|e es IH]; intros stk; simpl; auto. destruct e; simpl; auto; [|f_equal; auto]. destruct (tx_from_text t); simpl; auto. Qed.

Lemma in_visits : forall es stk b p, In (b, p) (visits stk es) ->
  (b = true /\ exists x j n y, es = x ++ EEnter j n :: y /\ n :: open_from stk x = p) \/
  (b = false /\ exists x j t y, es = x ++ EText j t :: y /\ tx_from_text t = true /\ open_from stk x = p).
Proof.
  assert (Hstep : forall es stk stk' e b p,
    open_from stk [e] = stk' ->
    ((b = true /\ exists x j n y, es = x ++ EEnter j n :: y /\ n :: open_from stk' x = p) \/
     (b = false /\ exists x j t y, es = x ++ EText j t :: y /\ tx_from_text t = true /\ open_from stk' x = p)) ->
    ((b = true /\ exists x j n y, e :: es = x ++ EEnter j n :: y /\ n :: open_from stk x = p) \/
     (b = false /\ exists x j t y, e :: es = x ++ EText j t :: y /\ tx_from_text t = true /\ open_from stk x = p))).
  { intros es stk stk' e b p <- [(-> & x & j & n & y & -> & <-)|(-> & x & j & t & y & -> & Ht & <-)].
    - left. split; auto. exists (e :: x), j, n, y. split; auto. change (e :: x) with ([e] ++ x). rewrite open_from_app. reflexivity.
    - right. split; auto. exists (e :: x), j, t, y. split; auto. split; auto. change (e :: x) with ([e] ++ x). rewrite open_from_app. reflexivity. }
  induction es as [|e es IH]; intros stk b p H; simpl in H; [destruct H|].
  destruct e as [j t| | |j|j n|j n]; simpl in H.
  - apply in_app_iff in H as [H|H]; [|eapply Hstep; [reflexivity|]; apply IH; exact H].
    destruct (tx_from_text t) eqn:E; [|destruct H]. destruct H as [[= <- <-]|[]]. right. split; auto. exists [], j, t, es. auto.
  - eapply Hstep; [reflexivity|]; apply IH; exact H.
  - eapply Hstep; [reflexivity|]; apply IH; exact H.
  - eapply Hstep; [reflexivity|]; apply IH; exact H.
  - destruct H as [[= <- <-]|H]; [|eapply Hstep; [reflexivity|]; apply IH; exact H]. left. split; auto. exists [], j, n, es. auto.
  - eapply Hstep; [reflexivity|]; apply IH; exact H.
Qed.

(** ** What is expected *)
Fixpoint expected (r : rdoc) (stk : list nat) : list (bool * list nat) :=
  match r with
  | RText _ _ => [(false, stk)]
  | RBranch _ ks =>
      (fix go (i : nat) (ks : list rdoc) : list (bool * list nat) :=
        match ks with
        | [] => []
        | k :: ks' => (true, i :: stk) :: expected k (i :: stk) ++ go (S i) ks'
        end) 0 ks
  end.

Definition seen (r : rdoc) (stk : list nat) (x : sight) : list (bool * list nat) :=
  match x with
  | Own => [(false, stk)]
  | Sub n => match nth_error (r_kids r) n with Some k => (true, n :: stk) :: expected k (n :: stk) | None => [] end
  end.

Lemma expected_seen r stk : expected r stk = flat_map (seen r stk) (everything r).
Proof.
  destruct r as [i s|i ks]; simpl; auto.
  assert (H : forall ks2 ks1, ks = ks1 ++ ks2 ->
    (fix go (i : nat) (ks : list rdoc) : list (bool * list nat) :=
        match ks with
        | [] => []
        | k :: ks' => (true, i :: stk) :: expected k (i :: stk) ++ go (S i) ks'
        end) (length ks1) ks2 = flat_map (seen (RBranch i ks) stk) (map Sub (seq (length ks1) (length ks2)))).
  { induction ks2 as [|k ks2 IH]; intros ks1 E; auto. cbn [length seq map flat_map]. cbn [seen r_kids].
    assert (Hn : nth_error ks (length ks1) = Some k) by (rewrite E, nth_error_app2 by lia; rewrite Nat.sub_diag; reflexivity). rewrite Hn.
    specialize (IH (ks1 ++ [k])). rewrite app_length, Nat.add_1_r in IH. cbn [app].
    rewrite IH; [|rewrite <- app_assoc; auto]. reflexivity. }
  apply (H ks []). reflexivity.
Qed.

Definition visits_of (s : shape) (r : rdoc) : Prop :=
  forall w j k p es p', rend w s j k p = Some (es, p') -> forall stk, open_from stk es = stk /\ Permutation (visits stk es) (expected r stk).

Lemma rend_views r s : tops (fun n s' => exists k, nth_error (r_kids r) n = Some k /\ visits_of s' k) s ->
  forall w j k p es p', rend w s j k p = Some (es, p') ->
  exists l, In l (views s) /\ forall stk, open_from stk es = stk /\ Permutation (visits stk es) (flat_map (seen r stk) l).
Proof.
  induction s as [f| | |ind|t|a IHa b IHb|a IHa b IHb|n i s IH|]; intros Ht w j k p es p' H; cbn [rend] in H.
  - discriminate.
  - injection H as <- <-. exists []. simpl. auto.
  - injection H as <- <-. exists []. simpl. auto.
  - destruct (indent_pos ind) as [p1|]; [|discriminate]. injection H as <- <-. exists []. simpl. auto.
  - destruct (text_pos p t) as [p1|]; [|discriminate]. injection H as <- <-. simpl.
    destruct (tx_from_text t); [exists [Own]|exists []]; simpl; auto.
  - destruct Ht as [Ha Hb].
    destruct (rend w a j (fits_s b k) p) as [[e1 p1]|] eqn:E1; [|discriminate]. cbn [obind] in H.
    destruct (rend w b j k p1) as [[e2 p2]|] eqn:E2; [|discriminate]. injection H as <- <-.
    destruct (IHa Ha _ _ _ _ _ _ E1) as (l1 & L1 & H1), (IHb Hb _ _ _ _ _ _ E2) as (l2 & L2 & H2).
    exists (l1 ++ l2). split.
    { simpl. apply in_flat_map. exists l1. split; auto. apply in_map. auto. }
    intros stk. destruct (H1 stk) as [O1 V1], (H2 stk) as [O2 V2].
    rewrite open_from_app, O1. split; auto. rewrite visits_app, O1, flat_map_app. apply Permutation_app; auto.
  - destruct Ht as [Ha Hb]. destruct (head_fails a); [discriminate|].
    destruct (picks_first w a k p) as [[|]|]; [| |discriminate]; cbn [obind] in H.
    + destruct (IHa Ha _ _ _ _ _ _ H) as (l & L & H'). exists l. simpl. split; auto. apply in_app_iff. auto.
    + destruct (IHb Hb _ _ _ _ _ _ H) as (l & L & H'). exists l. simpl. split; auto. apply in_app_iff. auto.
  - destruct i as [j'|]; [|discriminate]. destruct (rend w s j' k p) as [[e1 p1]|] eqn:E1; [|discriminate]. injection H as <- <-.
    destruct Ht as (x & Hx & Hv). exists [Sub n]. split; [left; auto|]. intros stk.
    destruct (Hv _ _ _ _ _ _ E1 (n :: stk)) as [O V]. cbn [open_from visits flat_map seen]. rewrite Hx, open_from_app, O. split; auto.
    rewrite visits_app, O. cbn [visits tl]. rewrite !app_nil_r. constructor. exact V.
  - injection H as <- <-. exists []. simpl. auto.
Qed.

Lemma once_kid i ks n k : all_once (RBranch i ks) -> nth_error ks n = Some k -> all_once k.
Proof. intros H Hk q x Hx. apply (H (n :: q)). simpl. rewrite Hk. exact Hx. Qed.

Theorem once_visits r : all_once r -> forall c, visits_of (elab r c) r.
Proof.
  induction r as [i s|i ks IH] using rdoc_ind'; intros Hr c w j k p es p' H stk.
  - destruct (@elab_views (RText i s) c (fun n s' => exists k, nth_error (r_kids (RText i s)) n = Some k /\ visits_of s' k)) as [V T].
    { intros [|n] y d Hy; discriminate. }
    destruct (rend_views (RText i s) _ T _ _ _ _ H) as (l & L & Hl).
    destruct (Hl stk) as [O Hp]. split; auto. rewrite expected_seen, Hp. apply Permutation_flat_map. apply (Hr [] _ eq_refl). apply V. exact L.
  - destruct (@elab_views (RBranch i ks) c (fun n s' => exists k, nth_error (r_kids (RBranch i ks)) n = Some k /\ visits_of s' k)) as [V T].
    { intros n y d Hy. exists y. split; auto. simpl in Hy. apply (IH y); [eapply nth_error_In; eauto|]. eapply once_kid; eauto. }
    destruct (rend_views (RBranch i ks) _ T _ _ _ _ H) as (l & L & Hl).
    destruct (Hl stk) as [O Hp]. split; auto. rewrite expected_seen, Hp. apply Permutation_flat_map. apply (Hr [] _ eq_refl). apply V. exact L.
Qed.

(** Nothing is expected twice. *)
Lemma expected_under r : forall stk b p, In (b, p) (expected r stk) ->
  exists q, p = q ++ stk /\ (b = true -> q <> []).
Proof.
  induction r as [i s|i ks IH] using rdoc_ind'; intros stk b p H; rewrite expected_seen in H; apply in_flat_map in H as (x & Hx & H).
  - destruct Hx as [<-|[]]. destruct H as [[= <- <-]|[]]. exists []. split; auto. discriminate.
  - cbn [everything] in Hx. apply in_map_iff in Hx as (n & <- & Hn). cbn [seen] in H.
    destruct (nth_error (r_kids (RBranch i ks)) n) as [k|] eqn:E; [|destruct H]. destruct H as [[= <- <-]|H].
    + exists [n]. split; auto. discriminate.
    + destruct (IH k (nth_error_In _ _ E) _ _ _ H) as (q & -> & Hq). exists (q ++ [n]). rewrite <- app_assoc. split; auto.
      intros _ Hc. apply app_eq_nil in Hc as [_ Hc]. discriminate.
Qed.

Lemma nodup_app A (l l' : list A) : NoDup l -> NoDup l' -> (forall x, In x l -> ~ In x l') -> NoDup (l ++ l').
Proof.
  induction l as [|x l IH]; simpl; auto. intros H H' Hd. inversion H; subst. constructor.
  - rewrite in_app_iff. intros [|Hi]; [auto|]. apply (Hd x); auto.
  - apply IH; auto.
Qed.

Lemma nodup_flat_map A B (f : A -> list B) l : NoDup l -> (forall x, In x l -> NoDup (f x)) ->
  (forall x y z, In x l -> In y l -> In z (f x) -> In z (f y) -> x = y) -> NoDup (flat_map f l).
Proof.
  induction l as [|x l IH]; simpl; intros H H1 H2; [constructor|]. inversion H as [|? ? Hn Hd]; subst.
  apply nodup_app; auto.
  - apply IH; auto. intros; eapply H2; eauto.
  - intros z Hz Hz'. apply in_flat_map in Hz' as (y & Hy & Hz'). rewrite (H2 x y z) in Hn; auto.
Qed.

Lemma expected_nodup r : forall stk, NoDup (expected r stk).
Proof.
  induction r as [i s|i ks IH] using rdoc_ind'; intros stk; rewrite expected_seen.
  - simpl. constructor; auto. constructor.
  - cbn [everything]. apply nodup_flat_map.
    + apply nodup_map_inj; [|apply seq_NoDup]. intros a b _ _ [= ->]. auto.
    + intros x Hx. apply in_map_iff in Hx as (n & <- & Hn). cbn [seen].
      destruct (nth_error (r_kids (RBranch i ks)) n) as [k|] eqn:E; [|constructor]. constructor; [|apply IH; eapply nth_error_In; eauto].
      intros H. destruct (expected_under _ _ _ _ H) as (q & Hq & Hn'). apply (Hn' eq_refl).
      apply (f_equal (@length nat)) in Hq. rewrite app_length in Hq. destruct q; auto. simpl in Hq. lia.
    + assert (Hin : forall n b p, In (b, p) (seen (RBranch i ks) stk (Sub n)) -> exists q, p = q ++ n :: stk).
      { intros n b p H. cbn [seen] in H. destruct (nth_error (r_kids (RBranch i ks)) n) as [k|]; [|destruct H]. destruct H as [[= <- <-]|H].
        - exists []. reflexivity.
        - destruct (expected_under _ _ _ _ H) as (q & -> & _). eauto. }
      intros x y [b p] Hx Hy Hzx Hzy. apply in_map_iff in Hx as (n & <- & _). apply in_map_iff in Hy as (m & <- & _).
      destruct (Hin _ _ _ Hzx) as (q & E1), (Hin _ _ _ Hzy) as (q' & E2). f_equal. rewrite E1 in E2.
      assert (L : length q = length q') by (apply (f_equal (@length nat)) in E2; rewrite !app_length in E2; simpl in E2; lia).
      assert (E3 : n :: stk = m :: stk) by (apply (f_equal (skipn (length q))) in E2; rewrite L in E2 at 2; rewrite !skipn_app, !skipn_all, !Nat.sub_diag in E2; exact E2).
      congruence.
Qed.

(** Every node, and every text, is expected. *)
Lemma expected_all r q : forall stk x, node_at r q = Some x ->
  (q <> [] -> In (true, rev q ++ stk) (expected r stk)) /\
  (match x with RText _ _ => In (false, rev q ++ stk) (expected r stk) | _ => True end).
Proof.
  revert r. induction q as [|n q IH]; intros r stk x H; simpl in H.
  - injection H as <-. split; [congruence|]. destruct r; simpl; auto.
  - destruct (nth_error (r_kids r) n) as [k|] eqn:E; [|discriminate]. destruct (IH k (n :: stk) x H) as [H1 H2].
    destruct r as [i s|i ks]; [destruct n; discriminate|].
    assert (Hin : forall z, In z ((true, n :: stk) :: expected k (n :: stk)) -> In z (expected (RBranch i ks) stk)).
    { intros z Hz. rewrite expected_seen. apply in_flat_map. exists (Sub n). split.
      - simpl. apply in_map. apply in_seq. simpl in E. split; [lia|]. apply nth_error_Some. congruence.
      - cbn [seen]. rewrite E. exact Hz. }
    assert (Er : rev (n :: q) ++ stk = rev q ++ n :: stk) by (simpl; rewrite <- app_assoc; auto). rewrite Er.
    split.
    + intros _. apply Hin. destruct q as [|n' q]; [left; auto|right; apply H1; discriminate].
    + destruct x; auto. apply Hin. right. exact H2.
Qed.

Lemma expected_only r : forall stk b p, In (b, p) (expected r stk) ->
  exists q x, p = rev q ++ stk /\ node_at r q = Some x /\ (b = false -> exists i s, x = RText i s).
Proof.
  induction r as [i s|i ks IH] using rdoc_ind'; intros stk b p H; rewrite expected_seen in H; apply in_flat_map in H as (x & Hx & H).
  - destruct Hx as [<-|[]]. destruct H as [[= <- <-]|[]]. exists [], (RText i s). simpl. eauto.
  - cbn [everything] in Hx. apply in_map_iff in Hx as (n & <- & Hn). cbn [seen] in H.
    destruct (nth_error (r_kids (RBranch i ks)) n) as [k|] eqn:E; [|destruct H]. destruct H as [[= <- <-]|H].
    + exists [n], k. simpl. simpl in E. rewrite E. split; auto. split; auto. discriminate.
    + destruct (IH k (nth_error_In _ _ E) _ _ _ H) as (q & x & -> & Hx & Hb). exists (n :: q), x. simpl. simpl in E. rewrite E, <- app_assoc. auto.
Qed.

Lemma open_entered a : forall stk, (exists pre, stk = pre ++ open_from stk a) \/ In (open_from stk a) (entered stk a).
Proof.
  induction a as [|e a IH]; intros stk; simpl.
  - left. exists []. reflexivity.
  - destruct e as [j t| | |j|j n|j n]; auto.
    + destruct (IH (n :: stk)) as [(pre & E)|H]; [|right; right; exact H].
      destruct pre as [|m pre]; [right; left; exact E|]. left. exists pre. injection E; auto.
    + destruct (IH (tl stk)) as [(pre & E)|H]; [|right; exact H]. left. destruct stk as [|m stk]; [exists pre; exact E|]. simpl in E.
      exists (m :: pre). simpl. f_equal. exact E.
Qed.

Lemma entered_app a : forall stk b, entered stk (a ++ b) = entered stk a ++ entered (open_from stk a) b.
Proof. induction a as [|e a IH]; intros stk b; simpl; auto. destruct e; simpl; rewrite ?IH; auto. Qed.

End Once.
