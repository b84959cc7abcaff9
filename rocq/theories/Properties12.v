(** Example documents: BasicStyle (C41), Tree (C39), and the default methods of
    PrettyDoc (C46).  Vocabulary: SpecTree. *)
From Verif Require Export SpecTree Properties1.
From Coq Require Import Permutation String.

Set Implicit Arguments.

(** ** C41 *)

(** C41.  The combined style has the color of the inner style, and is bold iff
    one of the two is. *)
Theorem C41_combine outer inner :
  bs_color (bs_combine outer inner) = bs_color inner /\
  (bs_bold (bs_combine outer inner) = true <-> bs_bold outer = true \/ bs_bold inner = true).
Proof. split; [reflexivity|]. apply orb_true_iff. Qed.

(** C41.  Combination is associative, the default style is neutral on the left,
    and combining a style with itself changes nothing. *)
Theorem C41_associative a b c : bs_combine a (bs_combine b c) = bs_combine (bs_combine a b) c.
Proof. unfold bs_combine. simpl. rewrite orb_assoc. reflexivity. Qed.
Theorem C41_default_neutral a : bs_combine bs_default a = a.
Proof. destruct a. reflexivity. Qed.
Theorem C41_idempotent a : bs_combine a a = a.
Proof. destruct a as [c []]; reflexivity. Qed.

Lemma str_eqb_spec a b : str_eqb a b = true <-> a = b.
Proof.
  revert b; induction a as [|x a IH]; intros [|y b]; simpl; try (split; [discriminate|discriminate]); [tauto|].
  rewrite andb_true_iff, N.eqb_eq, IH. split; [intros [-> ->]; reflexivity|intros H; injection H; auto].
Qed.

(** C41.  A label is the name of a color, or that name after "bold_", and
    denotes that color; any other label denotes the default style. *)
Theorem C41_labels :
  (forall c, bs_from (chars (color_name c)) = BasicStyle c false) /\
  (forall c, bs_from (chars (bold_name c)) = BasicStyle c true) /\
  (forall l, (forall c, l <> chars (color_name c) /\ l <> chars (bold_name c)) -> bs_from l = BasicStyle White false).
Proof.
  split; [intros []; vm_compute; reflexivity|]. split; [intros []; vm_compute; reflexivity|].
  intros l H. unfold bs_from.
  destruct (find (fun arm : string * basic_style => str_eqb l (chars (fst arm))) bs_arms) as [arm|] eqn:E; [exfalso|reflexivity].
  apply find_some in E as [Hin E]. apply str_eqb_spec in E. subst l.
  assert (X : exists c, fst arm = color_name c \/ fst arm = bold_name c).
  { cbn in Hin. repeat (destruct Hin as [<-|Hin]; [first [exists White; solve [auto]|exists Black; solve [auto]|exists Red; solve [auto]
      |exists Green; solve [auto]|exists Yellow; solve [auto]|exists Blue; solve [auto]|exists Magenta; solve [auto]|exists Cyan; solve [auto]]|]). destruct Hin. }
  destruct X as (c & [X|X]); destruct (H c) as [H1 H2]; rewrite X in *; auto.
Qed.

(** ** C46 *)
Section Defaults.
Context {pd : PrettyDoc}.
Hypothesis Hlast : forall d, m_unwrap_last_child d = default_last_child m_num_children m_unwrap_child d.
Hypothesis Hprev : forall d p i, m_unwrap_prev_sibling d p i = default_prev_sibling m_unwrap_child d p i.

(** C46.  If a document type uses the default [unwrap_last_child] and
    [unwrap_prev_sibling], then whatever way a child is reached, it is the one
    that [unwrap_child] returns. *)
Theorem C46_one_way_to_a_child d i x :
  child_handle d i x <-> exists n, m_num_children d = MOk (Some n) /\ i < n /\ m_unwrap_child d i = MOk x.
Proof.
  split.
  - induction 1 as [n i x H1 H2 H3|n x H1 H2|i y x _ (n & H1 & H2 & _) H3].
    + eauto.
    + rewrite Hlast in H2. unfold default_last_child in H2. rewrite H1 in H2. exists (S n). auto.
    + rewrite Hprev in H3. unfold default_prev_sibling in H3. exists n. split; auto. split; [lia|exact H3].
  - intros (n & H1 & H2 & H3). eapply ch_child; eauto.
Qed.

(** C46.  So it is enough that the other methods, and [unwrap_child], behave: *)
Theorem C46_required_methods_suffice i ks d :
  rep_info i d -> m_num_children d = MOk (Some (List.length ks)) ->
  (forall n k, nth_error ks n = Some k -> exists x, m_unwrap_child d n = MOk x /\ rep k x) ->
  rep (RBranch i ks) d.
Proof.
  intros Hi Hn Hc. apply RepBranch; auto.
  - intros n H. destruct (nth_error ks n) as [k|] eqn:E; [destruct (Hc _ _ E) as (x & H1 & _); eauto|apply nth_error_None in E; lia].
  - intros Hne. rewrite Hlast. unfold default_last_child. rewrite Hn.
    destruct ks as [|k0 ks]; [contradiction|]. cbn [List.length].
    destruct (nth_error (k0 :: ks) (List.length ks)) as [k|] eqn:E; [destruct (Hc _ _ E) as (x & H1 & _); eauto|apply nth_error_None in E; simpl in E; lia].
  - intros n y H _. rewrite Hprev. unfold default_prev_sibling.
    destruct (nth_error ks n) as [k|] eqn:E; [destruct (Hc _ _ E) as (x & H1 & _); eauto|apply nth_error_None in E; lia].
  - intros n x k H E. apply C46_one_way_to_a_child in H as (m & _ & _ & H). destruct (Hc _ _ E) as (x' & H1 & H2). congruence.
Qed.
End Defaults.

Section Trees.
Context {ts : TreeStyle}.

Fixpoint tree_ind' (P : tree -> Prop) (HT : forall f s, P (TreeText f s))
  (HK : forall f ks, (forall k, In k ks -> P k) -> P (TreeKids f ks)) (t : tree) : P t :=
  match t with
  | TreeText f s => HT f s
  | TreeKids f ks => HK f ks ((fix go (ks : list tree) : forall k, In k ks -> P k :=
      match ks with
      | [] => fun k H => match H with end
      | x :: ks' => fun k H => match H with
                               | or_introl E => eq_ind x P (tree_ind' P HT HK x) k E
                               | or_intror H' => go ks' k H'
                               end
      end) ks)
  end.

(** C46.  Every Tree behaves as a document is expected to: its methods describe
    the tree, and fail only when they are used otherwise than documented.  (So
    the theorems about well-behaved documents apply to trees whose notations
    were validated.) *)
Theorem C46_tree_is_well_behaved (t : tree) : @rep tree_doc (tree_rdoc t) t.
Proof.
  induction t as [f s|f ks IH] using tree_ind'.
  - apply RepText; [constructor|reflexivity|]; reflexivity.
  - cbn [tree_rdoc]. apply C46_required_methods_suffice; [reflexivity|reflexivity|constructor; reflexivity| |].
    + cbn. unfold tree_num_children. rewrite map_length. reflexivity.
    + intros n k E. rewrite nth_error_map in E. destruct (nth_error ks n) as [x|] eqn:Ex; [|discriminate]. injection E as <-.
      exists x. split; [cbn; rewrite Ex; reflexivity|]. apply IH. eapply nth_error_In; eauto.
Qed.

#[export] Instance tree_ideq : IdEq tree_doc.
Proof. intros a b. apply N.eqb_eq. Qed.

(** C46.  What the builder methods change.  [same_except cs st ls t t']: as
    documents, [t] and [t'] only differ in the conditions [cs], in the node
    style (if [st]), and in the styles of the labels [ls]. *)
Definition same_except (cs : tree_condition -> Prop) (st : bool) (ls : str -> Prop) (t t' : tree) : Prop :=
  let pd := tree_doc in
  m_id (PrettyDoc := pd) t' = m_id (PrettyDoc := pd) t /\ m_notation (PrettyDoc := pd) t' = m_notation (PrettyDoc := pd) t /\
  m_num_children (PrettyDoc := pd) t' = m_num_children (PrettyDoc := pd) t /\
  m_unwrap_text (PrettyDoc := pd) t' = m_unwrap_text (PrettyDoc := pd) t /\
  (forall i, m_unwrap_child (PrettyDoc := pd) t' i = m_unwrap_child (PrettyDoc := pd) t i) /\
  m_unwrap_last_child (PrettyDoc := pd) t' = m_unwrap_last_child (PrettyDoc := pd) t /\
  (forall parent i, m_unwrap_prev_sibling (PrettyDoc := pd) t' parent i = m_unwrap_prev_sibling (PrettyDoc := pd) t parent i) /\
  (forall c, ~ cs c -> m_condition (PrettyDoc := pd) t' c = m_condition (PrettyDoc := pd) t c) /\
  (st = false -> m_node_style (PrettyDoc := pd) t' = m_node_style (PrettyDoc := pd) t) /\
  (forall l, ~ ls l -> m_lookup_style (PrettyDoc := pd) t' l = m_lookup_style (PrettyDoc := pd) t l).

Theorem C46_into_comment t :
  same_except (fun c => c = IsComment) false (fun _ => False) t (tree_into_comment t) /\
  m_condition (PrettyDoc := tree_doc) (tree_into_comment t) IsComment = MOk true.
Proof.
  split; [|destruct t; reflexivity]. unfold same_except.
  destruct t as [f s|f ks]; repeat split; try reflexivity; intros [] H; try reflexivity; destruct (H eq_refl).
Qed.

Theorem C46_with_style t s :
  same_except (fun _ => False) true (fun _ => False) t (tree_with_style s t) /\
  m_node_style (PrettyDoc := tree_doc) (tree_with_style s t) = MOk s.
Proof.
  split; [|destruct t; reflexivity]. unfold same_except.
  destruct t as [f x|f ks]; repeat split; try reflexivity; try discriminate; intros [] H; reflexivity.
Qed.

(** An override has no effect if there already is one for that label. *)
Theorem C46_with_override t label s :
  same_except (fun _ => False) false (fun l => l = label) t (tree_with_override label s t) /\
  m_lookup_style (PrettyDoc := tree_doc) (tree_with_override label s t) label =
    match find (fun o => str_eqb (fst o) label) (t_style_overrides (t_fields t)) with Some o => MOk (snd o) | None => MOk s end.
Proof.
  assert (H : forall l, m_lookup_style (PrettyDoc := tree_doc) (tree_with_override label s t) l =
    match find (fun o => str_eqb (fst o) l) (t_style_overrides (t_fields t)) with
    | Some o => MOk (snd o) | None => if str_eqb label l then MOk s else MOk (ts_from l) end).
  { intros l. cbn. unfold tree_lookup_style, tree_with_override.
    replace (t_style_overrides (t_fields _)) with (t_style_overrides (t_fields t) ++ [(label, s)]) by (destruct t; reflexivity).
    induction (t_style_overrides (t_fields t)) as [|[l' s'] os IH]; cbn [app find fst].
    - destruct (str_eqb label l); reflexivity.
    - destruct (str_eqb l' l); [reflexivity|exact IH]. }
  assert (E : str_eqb label label = true) by (apply str_eqb_spec; reflexivity).
  split; [|rewrite H, E; reflexivity].
  unfold same_except. cbv zeta. do 7 (split; [destruct t; reflexivity|]).
  split; [intros [] _; destruct t; reflexivity|]. split; [intros _; destruct t; reflexivity|].
  intros l Hl. rewrite H. cbn. unfold tree_lookup_style. destruct (find _ _); [reflexivity|].
  destruct (str_eqb label l) eqn:El; [|reflexivity]. apply str_eqb_spec in El. destruct Hl. auto.
Qed.

(** A new node has no overrides and the default style. *)
Theorem C46_new_node checks note counter t counter' :
  (exists s, tree_new_text checks note s counter = Ok (t, counter')) \/
  (exists children, tree_new_branch checks note children counter = Ok (t, counter')) ->
  m_node_style (PrettyDoc := tree_doc) t = MOk ts_default /\
  (forall l, m_lookup_style (PrettyDoc := tree_doc) t l = MOk (ts_from l)) /\
  m_notation (PrettyDoc := tree_doc) t = MOk note /\ m_id (PrettyDoc := tree_doc) t = MOk counter.
Proof.
  unfold tree_new_text, tree_new_branch, next_id, bind.
  intros [(s & H)|(s & H)]; (destruct (addM U32 checks counter 1%N); [|discriminate]; injection H as <- <-; cbn; auto).
Qed.

(** C46.  The style of a label: the first override for that label, or else the
    style that the label denotes. *)
Theorem C46_lookup_style t label :
  (exists before s after, t_style_overrides (t_fields t) = before ++ (label, s) :: after /\
     (forall l x, In (l, x) before -> l <> label) /\ m_lookup_style (PrettyDoc := tree_doc) t label = MOk s) \/
  ((forall l x, In (l, x) (t_style_overrides (t_fields t)) -> l <> label) /\
     m_lookup_style (PrettyDoc := tree_doc) t label = MOk (ts_from label)).
Proof.
  cbn. unfold tree_lookup_style. induction (t_style_overrides (t_fields t)) as [|[l s] os IH].
  - right. split; [intros l x []|reflexivity].
  - cbn [find fst]. destruct (str_eqb l label) eqn:E.
    + apply str_eqb_spec in E. subst. left. exists [], s, os. split; [reflexivity|]. split; [intros ? ? []|reflexivity].
    + assert (Hne : l <> label) by (intros H; apply str_eqb_spec in H; congruence).
      destruct IH as [(b & s' & a & -> & H1 & H2)|[H1 H2]].
      * left. exists ((l, s) :: b), s', a. split; [reflexivity|]. split; [|exact H2].
        intros l' x [H|H]; [injection H as <- <-; exact Hne|eauto].
      * right. split; [|exact H2]. intros l' x [H|H]; [injection H as <- <-; exact Hne|eauto].
Qed.

(** C46.  A tree always answers a condition: [IsEmptyText] exactly if its text is
    empty (and not if it has children, even if it has none of them). *)
Theorem C46_conditions t c :
  (exists b, m_condition (PrettyDoc := tree_doc) t c = MOk b) /\
  (m_condition (PrettyDoc := tree_doc) t IsEmptyText = MOk true <-> m_unwrap_text (PrettyDoc := tree_doc) t = MOk []) /\
  (forall n, m_num_children (PrettyDoc := tree_doc) t = MOk (Some n) -> m_condition (PrettyDoc := tree_doc) t IsEmptyText = MOk false).
Proof.
  split; [eexists; reflexivity|]. split; [|intros n]; destruct t as [f [|ch s]|f ks]; cbn; try split; intros H; first [reflexivity|inversion H|destruct s]; try discriminate H.
Qed.

(** ** C39 *)

Notation comment t := (t_is_comment (t_fields t)).
Fixpoint separated (children : list tree) : list tree :=
  match children with
  | [] => []
  | c :: cs => (if negb (comment c) && existsb (fun x => negb (comment x)) cs then set_separator c else c) :: separated cs
  end.

Lemma mark_reversed_app x : forall l b, mark_reversed b (l ++ [x]) =
  mark_reversed b l ++ [if negb (comment x) && (b || existsb (fun x => negb (comment x)) l) then set_separator x else x].
Proof.
  induction l as [|y l IH]; intros b; simpl.
  - rewrite orb_false_r. destruct (comment x), b; reflexivity.
  - destruct (comment y); rewrite IH; simpl; [reflexivity|]. rewrite orb_true_r. reflexivity.
Qed.

Lemma mark_separated : forall l, mark_separators l = separated l.
Proof.
  unfold mark_separators. induction l as [|x l IH]; [reflexivity|]. simpl. rewrite mark_reversed_app, rev_app_distr. simpl.
  rewrite IH. f_equal. replace (existsb (fun x => negb (comment x)) (rev l)) with (existsb (fun x => negb (comment x)) l); [reflexivity|].
  apply eq_true_iff_eq. rewrite !existsb_exists. split; intros (y & H1 & H2); exists y; rewrite <- in_rev in *; auto.
Qed.

(** C39.  new_branch keeps its children as they are, except that a child is
    marked as needing a separator if it is not a comment and is followed by a
    child that is not one.  (A child that was already marked stays so.) *)
Theorem C39_separators checks note children counter t counter' :
  tree_new_branch checks note children counter = Ok (t, counter') ->
  List.length (t_kids t) = List.length children /\
  forall i child kid, nth_error children i = Some child -> nth_error (t_kids t) i = Some kid ->
    (exists flag, kid = with_separator flag child) /\
    (t_needs_separator (t_fields kid) = true <-> t_needs_separator (t_fields child) = true \/ followed children i).
Proof.
  unfold tree_new_branch, next_id, bind. destruct (addM U32 checks counter 1%N); [|discriminate].
  intros H. injection H as <- _. cbn [t_kids]. rewrite mark_separated. clear.
  assert (Hlen : List.length (separated children) = List.length children) by (induction children; simpl; auto).
  split; [exact Hlen|]. clear Hlen. induction children as [|c cs IH]; intros i child kid H1 H2; [destruct i; discriminate|].
  destruct i as [|i].
  - cbn in H1, H2. injection H1 as ->. injection H2 as <-.
    assert (Hex : negb (comment child) && existsb (fun x => negb (comment x)) cs = true <-> followed (child :: cs) 0).
    { rewrite andb_true_iff, negb_true_iff, existsb_exists. split.
      - intros (Hc & y & Hy & Hyc). apply In_nth_error in Hy as (j & Hj). apply negb_true_iff in Hyc.
        exists (S j), child, y. split; [lia|]. auto.
      - intros ([|j] & c' & y & Hj & E1 & Hc & E2 & Hy); [lia|]. injection E1 as <-. split; auto. exists y. split; [eapply nth_error_In; exact E2|].
        apply negb_true_iff. exact Hy. }
    destruct (negb (comment child) && existsb (fun x => negb (comment x)) cs) eqn:E.
    + split; [exists true; reflexivity|]. split; [intros _; right; apply Hex; reflexivity|]. intros _. destruct child; reflexivity.
    + split; [exists (t_needs_separator (t_fields child)); destruct child as [[] ?|[] ?]; reflexivity|].
      split; [auto|]. intros [H|H]; [exact H|]. apply Hex in H. discriminate.
  - destruct (IH i child kid H1 H2) as [A B]. split; [exact A|]. rewrite B.
    assert (X : followed (c :: cs) (S i) <-> followed cs i).
    { split.
      - intros (j & x & y & Hj & E1 & Hc & E2 & Hy). destruct j as [|j]; [lia|]. exists j, x, y. split; [lia|]. auto.
      - intros (j & x & y & Hj & E1 & Hc & E2 & Hy). exists (S j), x, y. split; [lia|]. auto. }
    tauto.
Qed.

(** C39.  A new node is not a comment and needs no separator, so that ... *)
Theorem C39_new_nodes checks note counter t counter' :
  (exists s, tree_new_text checks note s counter = Ok (t, counter')) \/
  (exists children, tree_new_branch checks note children counter = Ok (t, counter')) ->
  t_is_comment (t_fields t) = false /\ t_needs_separator (t_fields t) = false /\
  t_notation (t_fields t) = note /\ t_id (t_fields t) = counter /\
  t_is_comment (t_fields (tree_into_comment t)) = true /\ t_needs_separator (t_fields (tree_into_comment t)) = false.
Proof.
  unfold tree_new_text, tree_new_branch, next_id, bind.
  intros [(s & H)|(s & H)]; (destruct (addM U32 checks counter 1%N); [|discriminate]; injection H as <- <-; cbn; auto 10).
Qed.

(** C39.  ... if all the children are new, the marks are exactly right. *)
Theorem C39_needs_separator checks note children counter t counter' :
  tree_new_branch checks note children counter = Ok (t, counter') ->
  (forall child, In child children -> t_needs_separator (t_fields child) = false) ->
  forall i kid, nth_error (t_kids t) i = Some kid ->
    (m_condition (PrettyDoc := tree_doc) kid NeedsSeparator = MOk true <-> followed children i).
Proof.
  intros H Hn i kid Hk. destruct (@C39_separators _ _ _ _ _ _ H) as [Hl Hs].
  destruct (nth_error children i) as [child|] eqn:E.
  - destruct (Hs _ _ _ E Hk) as [_ X]. rewrite (Hn child) in X by (eapply nth_error_In; eauto). cbn.
    split; [intros Y; injection Y as Y; apply X in Y as [Y|Y]; [discriminate|exact Y]|]. intros Y. f_equal. apply X. auto.
  - apply nth_error_None in E. assert (i < List.length (t_kids t)) by (apply nth_error_Some; congruence). lia.
Qed.

(** ** Ids *)

Lemma ids_with g t : (forall f, t_id (g f) = t_id f) -> tree_ids (t_with g t) = tree_ids t.
Proof. intros H. destruct t as [f s|f ks]; cbn; rewrite H; reflexivity. Qed.

Lemma separated_ids : forall l, flat_map tree_ids (separated l) = flat_map tree_ids l.
Proof.
  induction l as [|x l IH]; [reflexivity|]. cbn [separated flat_map]. rewrite IH. f_equal.
  destruct (_ && _); [|reflexivity]. apply ids_with. reflexivity.
Qed.

Lemma tree_history_ids checks n c pool : tree_history checks n c pool -> checks = true \/ (n <= U32)%N ->
  (c = n \/ (checks = false /\ n = U32)) /\ (checks = true -> n < U32)%N /\
  NoDup (flat_map tree_ids pool) /\ forall i, In i (flat_map tree_ids pool) -> (i < n)%N.
Proof.
  assert (Hnew : forall n c id c', (c = n \/ (checks = false /\ n = U32)) -> (checks = true -> n < U32)%N -> (checks = true \/ n + 1 <= U32)%N ->
    next_id checks c = Ok (id, c') -> id = n /\ (c' = n + 1 \/ (checks = false /\ n + 1 = U32))%N /\ (checks = true -> n + 1 < U32)%N).
  { intros m d id d' Hc Hlt Hle. assert (d = m) by (destruct Hc as [H|[H1 H2]]; [exact H|destruct Hle; [congruence|lia]]). subst d.
    unfold next_id, addM, bind. destruct (N.ltb_spec (m + 1) U32) as [Hm|Hm].
    - intros H. injection H as <- <-. auto.
    - destruct checks.
      + discriminate.
      + intros H. injection H as <- _. split; [reflexivity|]. destruct Hle as [Hle|Hle]; [discriminate|]. split; [right; split; [reflexivity|lia]|discriminate]. }
  induction 1 as [|n c pool note s t c' _ IH Ht|n c pool note children t c' _ IH Ht|n c t pool _ IH|n c t pool s _ IH|n c t pool l s _ IH|n c t pool _ IH|n c f ks pool _ IH|n c pool pool' _ IH Hp]; intros Hle.
  - split; [left; reflexivity|]. split; [intros _; reflexivity|]. split; [constructor|intros i []].
  - destruct IH as (I1 & I2 & I3 & I4); [destruct Hle; [auto|right; lia]|].
    unfold tree_new_text, bind in Ht. destruct (next_id checks c) as [[id c1]|] eqn:E; [|discriminate]. injection Ht as <- <-.
    destruct (Hnew n c id c1 I1 I2 Hle E) as (-> & H1 & H2). split; [exact H1|]. split; [exact H2|]. cbn. split.
    + constructor; [|exact I3]. intros H. apply I4 in H. lia.
    + intros i [<-|H]; [lia|]. apply I4 in H. lia.
  - destruct IH as (I1 & I2 & I3 & I4); [destruct Hle; [auto|right; lia]|].
    unfold tree_new_branch, bind in Ht. destruct (next_id checks c) as [[id c1]|] eqn:E; [|discriminate]. injection Ht as <- <-.
    destruct (Hnew n c id c1 I1 I2 Hle E) as (-> & H1 & H2). split; [exact H1|]. split; [exact H2|]. rewrite flat_map_app in I3, I4.
    cbn. rewrite mark_separated, separated_ids. split.
    + constructor; [|exact I3]. intros H. apply I4 in H. lia.
    + intros i [<-|H]; [lia|]. apply I4 in H. lia.
  - cbn in *. unfold tree_into_comment. rewrite ids_with by reflexivity. auto.
  - cbn in *. unfold tree_with_style. rewrite ids_with by reflexivity. auto.
  - cbn in *. unfold tree_with_override. rewrite ids_with by reflexivity. auto.
  - destruct (IH Hle) as (I1 & I2 & I3 & I4). split; [exact I1|]. split; [exact I2|]. cbn in I3, I4. split.
    + clear - I3. induction (tree_ids t) as [|x l IHl]; [exact I3|]. inversion I3; auto.
    + intros i H. apply I4. apply in_app_iff. auto.
  - destruct (IH Hle) as (I1 & I2 & I3 & I4). split; [exact I1|]. split; [exact I2|]. cbn in I3, I4. rewrite flat_map_app. split.
    + inversion I3; auto.
    + intros i H. apply I4. right. exact H.
  - destruct (IH Hle) as (I1 & I2 & I3 & I4). split; [exact I1|]. split; [exact I2|]. split.
    + eapply Permutation_NoDup; [apply Permutation_flat_map; exact Hp|exact I3].
    + intros i H. apply I4. eapply Permutation_in; [apply Permutation_flat_map; symmetry; exact Hp|exact H].
Qed.

(** C39.  All the nodes of all the trees that a program owns have different ids,
    whatever it did (but it did not clone a tree or reset the counter), if the
    crate is compiled with overflow checks or no more than 2^32 nodes were
    created. *)
Theorem C39_unique_ids checks n c pool :
  tree_history checks n c pool -> checks = true \/ (n <= U32)%N -> NoDup (flat_map tree_ids pool).
Proof. intros H Hn. apply (tree_history_ids H Hn). Qed.

(** C39.  In particular, within a tree: the hypothesis of the theorems about the
    focus is met. *)
Theorem C39_unique_ids_in_tree checks n c pool t :
  tree_history checks n c pool -> checks = true \/ (n <= U32)%N -> In t pool -> unique_ids (id_at (tree_rdoc t)).
Proof.
  intros H Hn Hin. pose proof (C39_unique_ids H Hn) as Hd. apply ids_unique.
  assert (E : ids (tree_rdoc t) = tree_ids t).
  { clear. induction t as [f s|f ks IH] using tree_ind'; [reflexivity|]. cbn [tree_rdoc ids tree_ids r_info tree_info i_id]. f_equal.
    induction ks as [|k ks IHk]; [reflexivity|]. cbn [map flat_map]. rewrite IH by (left; reflexivity). f_equal. apply IHk. intros x Hx. apply IH. right. exact Hx. }
  rewrite E. clear - Hd Hin. induction pool as [|x pool IH]; [destruct Hin|]. cbn [flat_map] in Hd. destruct Hin as [->|Hin].
  - clear - Hd. induction (tree_ids t) as [|y l IHl]; [constructor|]. inversion Hd; subst. constructor; auto. intros H. apply H1. apply in_app_iff. auto.
  - apply IH; auto. clear - Hd. induction (tree_ids x) as [|y l IHl]; [exact Hd|]. inversion Hd; auto.
Qed.

(** C39.  After reset_id the ids start again: two documents then have common ids
    (which is documented). *)
Theorem C39_reset_repeats_ids checks note1 note2 s1 s2 : exists t1 t2 c1 c2,
  tree_new_text checks note1 s1 tree_reset_id = Ok (t1, c1) /\ tree_new_text checks note2 s2 tree_reset_id = Ok (t2, c2) /\
  t_id (t_fields t1) = 0%N /\ t_id (t_fields t2) = 0%N.
Proof. repeat eexists. Qed.

(** C39.  The flag is never cleared: a child that is taken out of one branch, and
    put at the end of another one, still needs a separator. *)
Theorem C39_stale_separator_refuted checks note : exists children t1 t2 t3 c1 c2 c3,
  tree_new_text checks note [] 0 = Ok (t1, c1) /\ children = [t1; t1] /\
  tree_new_branch checks note children c1 = Ok (t2, c2) /\
  tree_new_branch checks note (firstn 1 (t_kids t2)) c2 = Ok (t3, c3) /\
  map (fun k => m_condition (PrettyDoc := tree_doc) k NeedsSeparator) (t_kids t3) = [MOk true].
Proof. do 7 eexists. split; [reflexivity|]. split; [reflexivity|]. split; [reflexivity|]. split; reflexivity. Qed.

End Trees.
