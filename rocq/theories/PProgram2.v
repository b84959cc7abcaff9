(** The JSON program: its documents, its output, and what that reads as. *)
From Verif Require Export PProgram SpecProgram Properties13.
From Coq Require Import String.

Set Implicit Arguments.

Lemma value_ind' (P : value -> Prop) (H0 : P VNull) (H1 : forall b, P (VBool b)) (H2 : forall s, P (VNumber s)) (H3 : forall s, P (VString s))
  (H4 : forall l, (forall x, In x l -> P x) -> P (VArray l)) (H5 : forall l, (forall k x, In (k, x) l -> P x) -> P (VObject l)) : forall v, P v.
Proof.
  fix IH 1. intros [|b|s|s|l|l]; [exact H0|apply H1|apply H2|apply H3| |].
  - apply H4. induction l as [|x l IHl]; intros y Hy; [destruct Hy|]. destruct Hy as [<-|Hy]; [apply IH|apply IHl; exact Hy].
  - apply H5. induction l as [|[k x] l IHl]; intros k' y Hy; [destruct Hy|]. destruct Hy as [E|Hy]; [injection E as <- <-; apply IH|apply (IHl k'); exact Hy].
Qed.

Lemma value_is_value v : is_value (value_json v).
Proof.
  induction v as [|b|s|s|l IH|l IH] using value_ind'; cbn [value_json]; try constructor.
  - intros x Hx. apply in_map_iff in Hx as (y & <- & Hy). apply e_value. apply IH. exact Hy.
  - intros x Hx. apply in_map_iff in Hx as ([k y] & <- & Hy). apply m_pair. eapply IH. exact Hy.
Qed.
Lemma value_no_comment v : has_comment (value_json v) = false.
Proof.
  induction v as [|b|s|s|l IH|l IH] using value_ind'; cbn [value_json has_comment]; try reflexivity.
  - induction l as [|x l IHl]; [reflexivity|]. cbn [map existsb]. rewrite IH by (left; reflexivity). apply IHl. intros y Hy. apply IH. right. exact Hy.
  - induction l as [|[k x] l IHl]; [reflexivity|]. cbn [map existsb has_comment]. rewrite (IH k) by (left; reflexivity).
    apply IHl. intros k' y Hy. apply (IH k'). right. exact Hy.
Qed.

Section ToDoc.
Variables (checks : bool) (is_white : char -> bool).
Notation tres := (res Empty_set).
Definition elems_to_doc := fix go (l : list value) (c : N) : tres (list json_tree * N) :=
  match l with
  | [] => Ok ([], c)
  | x :: l' => '(t, c) <- json_to_doc checks x c ;; '(ts, c) <- go l' c ;; Ok (t :: ts, c)
  end.
Definition entries_to_doc := fix go (l : list (str * value)) (c : N) : tres (list json_tree * N) :=
  match l with
  | [] => Ok ([], c)
  | (key, val) :: l' =>
      '(t, c) <- json_to_doc checks val c ;;
      '(t, c) <- json_object_pair checks key t c ;;
      '(ts, c) <- go l' c ;;
      Ok (t :: ts, c)
  end.

Lemma to_doc_made v : forall c t c', json_to_doc checks v c = Ok (t, c') -> made checks is_white (value_json v) t.
Proof.
  induction v as [|b|s|s|l IH|l IH] using value_ind'; intros c t c' H; cbn [value_json].
  - eapply made_null; exact H.
  - eapply made_bool; exact H.
  - eapply made_number; exact H.
  - eapply made_string; exact H.
  - change (json_to_doc checks (VArray l) c) with ('(ts, c) <- elems_to_doc l c ;; json_array checks ts c) in H.
    destruct (elems_to_doc l c) as [[ts c1]|] eqn:E; [|discriminate]. cbn [bind] in H. eapply made_array; [|exact H].
    clear H t c'. revert c ts c1 E. induction l as [|x l IHl]; intros c ts c1 E.
    + injection E as <- _. constructor.
    + cbn [elems_to_doc] in E. destruct (json_to_doc checks x c) as [[t c2]|] eqn:E1; [|discriminate]. cbn [bind] in E.
      destruct (elems_to_doc l c2) as [[ts' c3]|] eqn:E2; [|discriminate]. cbn [bind] in E. injection E as <- _.
      cbn [map]. constructor; [eapply IH; [left; reflexivity|exact E1]|]. eapply IHl; [|exact E2]. intros y Hy. apply IH. right. exact Hy.
  - change (json_to_doc checks (VObject l) c) with ('(ts, c) <- entries_to_doc l c ;; json_object checks ts c) in H.
    destruct (entries_to_doc l c) as [[ts c1]|] eqn:E; [|discriminate]. cbn [bind] in H. eapply made_object; [|exact H].
    clear H t c'. revert c ts c1 E. induction l as [|[k x] l IHl]; intros c ts c1 E.
    + injection E as <- _. constructor.
    + cbn [entries_to_doc] in E. destruct (json_to_doc checks x c) as [[t c2]|] eqn:E1; [|discriminate]. cbn [bind] in E.
      destruct (json_object_pair checks k t c2) as [[t' c2']|] eqn:E3; [|discriminate]. cbn [bind] in E.
      destruct (entries_to_doc l c2') as [[ts' c3]|] eqn:E2; [|discriminate]. cbn [bind] in E. injection E as <- _.
      cbn [map]. constructor; [eapply made_pair; [eapply (IH k); [left; reflexivity|exact E1]|exact E3]|].
      eapply IHl; [|exact E2]. intros k' y Hy. apply (IH k'). right. exact Hy.
Qed.
End ToDoc.

(** Without overflow checks, the document can always be made. *)
Lemma next_ok c : exists id c', next_id false c = Ok (id, c').
Proof. unfold next_id, addM. destruct (_ <? _)%N; cbn [bind]; eauto. Qed.
Lemma branch_ok note ks c : exists t c', tree_new_branch (ts := basic_tree_style) false note ks c = Ok (t, c').
Proof. unfold tree_new_branch. destruct (next_ok c) as (i & c' & ->). cbn [bind]. eauto. Qed.
Lemma text_ok note s c : exists t c', tree_new_text (ts := basic_tree_style) false note s c = Ok (t, c').
Proof. unfold tree_new_text. destruct (next_ok c) as (i & c' & ->). cbn [bind]. eauto. Qed.
Lemma pair_ok k x c : exists t c', json_object_pair false k x c = Ok (t, c').
Proof. unfold json_object_pair, json_string. destruct (text_ok JSON_STRING k c) as (t & c' & ->). cbn [bind]. apply branch_ok. Qed.
Lemma to_doc_total v : forall c, exists t c', json_to_doc false v c = Ok (t, c').
Proof.
  induction v as [|b|s|s|l IH|l IH] using value_ind'; intros c.
  - apply branch_ok.
  - destruct b; apply branch_ok.
  - apply text_ok.
  - apply text_ok.
  - change (json_to_doc false (VArray l) c) with ('(ts, c) <- elems_to_doc false l c ;; json_array false ts c).
    assert (H : exists ts c1, elems_to_doc false l c = Ok (ts, c1)).
    { revert c. induction l as [|x l IHl]; intros c; [eexists _, _; reflexivity|]. cbn [elems_to_doc].
      destruct (IH x (or_introl eq_refl) c) as (t & c1 & ->). cbn [bind]. destruct (IHl (fun y Hy => IH y (or_intror Hy)) c1) as (ts & c2 & ->).
      cbn [bind]. eauto. }
    destruct H as (ts & c1 & ->). cbn [bind]. apply branch_ok.
  - change (json_to_doc false (VObject l) c) with ('(ts, c) <- entries_to_doc false l c ;; json_object false ts c).
    assert (H : exists ts c1, entries_to_doc false l c = Ok (ts, c1)).
    { revert c. induction l as [|[k x] l IHl]; intros c; [eexists _, _; reflexivity|]. cbn [entries_to_doc].
      destruct (IH k x (or_introl eq_refl) c) as (t & c1 & ->). cbn [bind]. destruct (pair_ok k t c1) as (t' & c1' & ->). cbn [bind].
      destruct (IHl (fun k y Hy => IH k y (or_intror Hy)) c1') as (ts & c2 & ->). cbn [bind]. eauto. }
    destruct H as (ts & c1 & ->). cbn [bind]. apply branch_ok.
Qed.

(** And with overflow checks, if the ids do not run out. *)
Section Counts.
Variable checks : bool.
Lemma next_counts c : (c + 1 < U32)%N -> next_id checks c = Ok (c, (c + 1)%N).
Proof. intros H. unfold next_id, addM. apply N.ltb_lt in H. rewrite H. reflexivity. Qed.
Lemma branch_counts note ks c : (c + 1 < U32)%N -> exists t, tree_new_branch (ts := basic_tree_style) checks note ks c = Ok (t, (c + 1)%N).
Proof. intros H. unfold tree_new_branch. rewrite next_counts by exact H. cbn [bind]. eauto. Qed.
Lemma text_counts note s c : (c + 1 < U32)%N -> exists t, tree_new_text (ts := basic_tree_style) checks note s c = Ok (t, (c + 1)%N).
Proof. intros H. unfold tree_new_text. rewrite next_counts by exact H. cbn [bind]. eauto. Qed.
Lemma pair_counts k x c : (c + 1 + 1 < U32)%N -> exists t, json_object_pair checks k x c = Ok (t, (c + 1 + 1)%N).
Proof.
  intros H. unfold json_object_pair, json_string. destruct (@text_counts JSON_STRING k c) as (t & ->); [lia|]. cbn [bind]. apply branch_counts. exact H.
Qed.
Definition nodes_list := fix go (l : list value) : N := match l with [] => 0 | x :: l' => nodes x + go l' end%N.
Definition nodes_members := fix go (l : list (str * value)) : N := match l with [] => 0 | (_, x) :: l' => nodes x + 2 + go l' end%N.
Lemma to_doc_counts v : forall c, (c + nodes v < U32)%N -> exists t, json_to_doc checks v c = Ok (t, (c + nodes v)%N).
Proof.
  induction v as [|b|s|s|l IH|l IH] using value_ind'; intros c Hc.
  - apply branch_counts. exact Hc.
  - destruct b; apply branch_counts; exact Hc.
  - apply text_counts. exact Hc.
  - apply text_counts. exact Hc.
  - change (json_to_doc checks (VArray l) c) with ('(ts, c) <- elems_to_doc checks l c ;; json_array checks ts c).
    change (nodes (VArray l)) with (1 + nodes_list l)%N in *.
    assert (H : exists ts, elems_to_doc checks l c = Ok (ts, (c + nodes_list l)%N)).
    { assert (Hc' : (c + nodes_list l < U32)%N) by lia. clear Hc. revert c Hc'.
      induction l as [|x l IHl]; intros c Hc; [cbn; rewrite N.add_0_r; eauto|]. cbn [elems_to_doc nodes_list] in *.
      destruct (IH x (or_introl eq_refl) c) as (t & ->); [lia|]. cbn [bind].
      destruct (IHl (fun y Hy => IH y (or_intror Hy)) (c + nodes x)%N) as (ts & ->); [lia|]. cbn [bind]. exists (t :: ts). do 2 f_equal. fold nodes_list. lia. }
    destruct H as (ts & ->). cbn [bind]. replace (c + (1 + nodes_list l))%N with (c + nodes_list l + 1)%N by lia. apply branch_counts. lia.
  - change (json_to_doc checks (VObject l) c) with ('(ts, c) <- entries_to_doc checks l c ;; json_object checks ts c).
    change (nodes (VObject l)) with (1 + nodes_members l)%N in *.
    assert (H : exists ts, entries_to_doc checks l c = Ok (ts, (c + nodes_members l)%N)).
    { assert (Hc' : (c + nodes_members l < U32)%N) by lia. clear Hc. revert c Hc'.
      induction l as [|[k x] l IHl]; intros c Hc; [cbn; rewrite N.add_0_r; eauto|]. cbn [entries_to_doc nodes_members] in *.
      destruct (IH k x (or_introl eq_refl) c) as (t & ->); [lia|]. cbn [bind].
      destruct (@pair_counts k t (c + nodes x)%N) as (t2 & ->); [lia|]. cbn [bind].
      destruct (IHl (fun k y Hy => IH k y (or_intror Hy)) (c + nodes x + 1 + 1)%N) as (ts & ->); [lia|]. cbn [bind]. exists (t2 :: ts). do 2 f_equal. fold nodes_members. lia. }
    destruct H as (ts & ->). cbn [bind]. replace (c + (1 + nodes_members l))%N with (c + nodes_members l + 1)%N by lia. apply branch_counts. lia.
Qed.
End Counts.

(** ** Tokens *)
Lemma spaced_inv toks s : spaced toks s ->
  match toks with
  | [] => white_space s
  | t :: toks' => exists a s', s = a ++ t ++ s' /\ white_space a /\ spaced toks' s'
  end.
Proof.
  induction 1 as [|toks s _ IH|toks s _ IH|tok toks s H IH].
  - constructor.
  - destruct toks as [|t toks]; [constructor; auto|]. destruct IH as (a & s' & -> & Ha & H). exists (32%N :: a), s'. split; [reflexivity|]. split; [|exact H].
    constructor; auto.
  - destruct toks as [|t toks]; [constructor; auto|]. destruct IH as (a & s' & -> & Ha & H). exists (10%N :: a), s'. split; [reflexivity|]. split; [|exact H].
    constructor; auto.
  - exists [], s. split; [reflexivity|]. split; [constructor|exact H].
Qed.
Lemma body_plain s : Forall unescaped s -> string_body s s.
Proof. induction 1 as [|c s Hc _ IH]; constructor; assumption. Qed.

Lemma unescaped_array l : unescaped_value (VArray l) -> forall x, In x l -> unescaped_value x.
Proof. cbn [unescaped_value]. induction l as [|x l IH]; intros H y Hy; [destruct Hy|]. destruct H as [H1 H2]. destruct Hy as [<-|Hy]; auto. Qed.
Lemma unescaped_object l : unescaped_value (VObject l) -> forall k x, In (k, x) l -> Forall unescaped k /\ unescaped_value x.
Proof.
  cbn [unescaped_value]. induction l as [|[k x] l IH]; intros H k' y Hy; [destruct Hy|]. destruct H as [H1 [H2 H3]].
  destruct Hy as [E|Hy]; [injection E as <- <-; auto|eauto].
Qed.

Lemma tokens_read v : unescaped_value v -> forall rest s, spaced (tokens (value_json v) ++ rest) s ->
  exists a s1 s2, s = a ++ s1 ++ s2 /\ white_space a /\ reads v s1 /\ spaced rest s2.
Proof.
  induction v as [|b|x|x|l IH|l IH] using value_ind'; intros Hu rest s Hs; cbn [value_json tokens app] in Hs.
  - apply spaced_inv in Hs as (a & s' & -> & Ha & H). exists a, (chars "null"), s'. repeat split; auto. constructor.
  - destruct b; cbn [app] in Hs; apply spaced_inv in Hs as (a & s' & -> & Ha & H); eexists a, _, s'; (split; [reflexivity|]); repeat split; auto; constructor.
  - apply spaced_inv in Hs as (a & s' & -> & Ha & H). exists a, x, s'. repeat split; auto. constructor. exact Hu.
  - apply spaced_inv in Hs as (a & s' & -> & Ha & H). eexists a, _, s'. split; [reflexivity|]. repeat split; auto.
    apply rd_string. apply body_plain. exact Hu.
  - rewrite <- app_assoc in Hs. cbn [app] in Hs. apply spaced_inv in Hs as (a & s' & -> & Ha & H). pose proof (unescaped_array _ Hu) as Hl. clear Hu.
    destruct l as [|x l].
    + cbn [map separate app] in H. apply spaced_inv in H as (b & s2 & -> & Hb & H).
      exists a, (91%N :: b ++ [93%N]), s2. split; [cbn; rewrite <- app_assoc; reflexivity|]. repeat split; auto. apply rd_no_elements. exact Hb.
    + assert (G : forall l x s, (forall y, In y (x :: l) -> unescaped_value y /\
          forall rest s, spaced (tokens (value_json y) ++ rest) s -> exists a s1 s2, s = a ++ s1 ++ s2 /\ white_space a /\ reads y s1 /\ spaced rest s2) ->
        spaced (separate (chars ",") (map tokens (map value_json (x :: l))) ++ chars "]" :: rest) s ->
        exists s1 s2, s = s1 ++ 93%N :: s2 /\ reads_elements (x :: l) s1 /\ spaced rest s2).
      { clear. induction l as [|y l IHl]; intros x s Hx H.
        - cbn [map separate] in H. apply Hx in H as (a & s1 & s2 & -> & Ha & Hs1 & H); [|left; reflexivity].
          apply spaced_inv in H as (b & s3 & -> & Hb & H). exists (a ++ s1 ++ b), s3. split; [rewrite <- !app_assoc; reflexivity|]. split; [|exact H].
          apply re_one; assumption.
        - cbn [map separate] in H. rewrite <- app_assoc in H. cbn [app] in H. apply Hx in H as (a & s1 & s2 & -> & Ha & Hs1 & H); [|left; reflexivity].
          apply spaced_inv in H as (b & s3 & -> & Hb & H). apply IHl in H as (s4 & s5 & -> & H4 & H5); [|intros z Hz; apply Hx; right; exact Hz].
          exists (a ++ s1 ++ b ++ 44%N :: s4), s5. split; [rewrite <- ?app_assoc; cbn; rewrite <- ?app_assoc; reflexivity|]. split; [|exact H5].
          apply re_more; assumption. }
      apply G in H as (s1 & s2 & -> & H1 & H2).
      * exists a, (91%N :: s1 ++ [93%N]), s2. split; [cbn; rewrite <- !app_assoc; reflexivity|]. repeat split; auto. apply rd_array. exact H1.
      * intros y Hy. split; [apply Hl; exact Hy|]. apply IH; [exact Hy|]. apply Hl. exact Hy.
  - rewrite <- app_assoc in Hs. cbn [app] in Hs. apply spaced_inv in Hs as (a & s' & -> & Ha & H). pose proof (unescaped_object _ Hu) as Hl. clear Hu.
    destruct l as [|[k x] l].
    + cbn [map separate app] in H. apply spaced_inv in H as (b & s2 & -> & Hb & H).
      exists a, (123%N :: b ++ [125%N]), s2. split; [cbn; rewrite <- app_assoc; reflexivity|]. repeat split; auto. apply rd_no_members. exact Hb.
    + assert (G : forall l k x s, (forall k0 y, In (k0, y) ((k, x) :: l) -> Forall unescaped k0 /\
          forall rest s, spaced (tokens (value_json y) ++ rest) s -> exists a s1 s2, s = a ++ s1 ++ s2 /\ white_space a /\ reads y s1 /\ spaced rest s2) ->
        spaced (separate (chars ",") (map tokens (map (fun '(k, x) => JPair k (value_json x)) ((k, x) :: l))) ++ chars "}" :: rest) s ->
        exists s1 s2, s = s1 ++ 125%N :: s2 /\ reads_members ((k, x) :: l) s1 /\ spaced rest s2).
      { clear. induction l as [|[k' y] l IHl]; intros k x s Hx H.
        - cbn [map separate tokens app] in H. apply spaced_inv in H as (a & s0 & -> & Ha & H). apply spaced_inv in H as (b & s1 & -> & Hb & H).
          destruct (Hx k x (or_introl eq_refl)) as [Hk Hr]. apply Hr in H as (c & s2 & s3 & -> & Hc & Hs2 & H).
          apply spaced_inv in H as (d & s4 & -> & Hd & H).
          exists (a ++ 34%N :: k ++ 34%N :: b ++ 58%N :: c ++ s2 ++ d), s4. split; [|split; [apply rm_one; auto using body_plain|exact H]].
          unfold string_token. change (chars ":") with [58%N]; change (chars "}") with [125%N]; change (chars ",") with [44%N].
          do 12 (rewrite <- ?app_assoc; cbn [app]). reflexivity.
        - cbn [map separate tokens] in H. rewrite <- app_assoc in H. cbn [app] in H. apply spaced_inv in H as (a & s0 & -> & Ha & H). apply spaced_inv in H as (b & s1 & -> & Hb & H).
          destruct (Hx k x (or_introl eq_refl)) as [Hk Hr]. apply Hr in H as (c & s2 & s3 & -> & Hc & Hs2 & H).
          apply spaced_inv in H as (d & s4 & -> & Hd & H). apply IHl in H as (s5 & s6 & -> & H5 & H6); [|intros k0 z Hz; apply Hx; right; exact Hz].
          exists (a ++ 34%N :: k ++ 34%N :: b ++ 58%N :: c ++ s2 ++ d ++ 44%N :: s5), s6. split; [|split; [apply rm_more; auto using body_plain|exact H6]].
          unfold string_token. change (chars ":") with [58%N]; change (chars "}") with [125%N]; change (chars ",") with [44%N].
          do 12 (rewrite <- ?app_assoc; cbn [app]). reflexivity. }
      apply G in H as (s1 & s2 & -> & H1 & H2).
      * exists a, (123%N :: s1 ++ [125%N]), s2. split; [cbn; rewrite <- !app_assoc; reflexivity|]. repeat split; auto. apply rd_object. exact H1.
      * intros k' y Hy. destruct (Hl _ _ Hy) as [H1 H2]. split; [exact H1|]. apply (IH k'); [exact Hy|exact H2].
Qed.

Lemma spaced_text v s : unescaped_value v -> spaced (tokens (value_json v)) s -> json_text v s.
Proof.
  intros Hu H. rewrite <- (app_nil_r (tokens _)) in H. apply (tokens_read v Hu) in H as (a & s1 & s2 & -> & Ha & H1 & H2).
  apply spaced_inv in H2. exists a, s1, s2. auto.
Qed.
Lemma text_ws v s b : json_text v s -> white_space b -> json_text v (s ++ b).
Proof.
  intros (a & s1 & c & -> & Ha & H1 & Hc) Hb. exists a, s1, (c ++ b). split; [rewrite <- !app_assoc; reflexivity|]. repeat split; auto.
  apply Forall_app. auto.
Qed.
Lemma text_unique v v' s : json_text v s -> json_text v' s -> v = v'.
Proof.
  intros (a & s1 & b & -> & Ha & H1 & Hb) (a' & s1' & b' & E & Ha' & H1' & Hb').
  apply ws_unique in E as [-> E]; auto; [|eapply value_no_ws; eauto|eapply value_no_ws; eauto].
  destruct reads_unique as [U _]. eapply U in E as (-> & _ & _); eauto.
  - destruct Hb as [|x b Hx _]; cbn; unfold num_char; lia.
  - destruct Hb' as [|x b' Hx _]; cbn; unfold num_char; lia.
Qed.
