(** Properties of all the notation trees of validated documents. *)
From Verif Require Export PElab PTop PTree.

Set Implicit Arguments.

Section Closed.
Context {pd : PrettyDoc} {env : Env}.

(** The errors a validated notation can run into. *)
Definition doc_error (e : perr Er) : Prop :=
  match e with
  | TextNotationOnTextlessDoc | ChildIndexOutOfBounds _ _ | ChildNotationOnChildlessDoc
  | CheckPosChildIndexOutOfBounds _ _ | CheckPosChildOnChildlessDoc
  | CountNotationOnChildlessDoc | NumChildrenChanged => True
  | _ => False
  end.

Variable R : list nat -> rdoc -> shape -> Prop.
Variable RC : ctx -> Prop.
Hypothesis RC_flat : forall c, RC c -> RC (in_flat c).
Hypothesis RC_style : forall s c, RC c -> RC (in_style s c).
Hypothesis RC_indent : forall p s c, RC c -> RC (in_indent p s c).
Hypothesis R_fail : forall q r e, doc_error e -> R q r (SFail (FErr e)).
Hypothesis R_empty : forall q r, R q r SEmpty.
Hypothesis R_eol : forall q r, R q r SEol.
Hypothesis R_mark : forall q r, R q r SMark.
Hypothesis R_newline : forall q r c, RC c -> R q r (SNewline (x_ind c)).
Hypothesis R_text : forall q r c s f, RC c -> (f = true -> exists i, r = RText i s) -> R q r (SText (Textual s (str_width s) (x_sty c) f)).
Hypothesis R_concat : forall q r a b, R q r a -> R q r b -> R q r (SConcat a b).
Hypothesis R_choice : forall q r a b, R q r a -> R q r b -> R q r (SChoice a b).
Hypothesis R_child : forall q r n k s, nth_error (r_kids r) n = Some k -> R (q ++ [n]) k s ->
  R q r (SChild n (Ok (i_id (r_info k))) s).

Section Node.
Variable q : list nat.
Variable r : rdoc.
Hypothesis kids : forall n k, nth_error (r_kids r) n = Some k -> forall c, RC c -> R (q ++ [n]) k (elab k c).

Definition env_closed (injoin : bool) (fe : option foldenv) : Prop :=
  injoin = true -> exists e k, fe = Some e /\ nth_error (r_kids r) (fe_index e) = Some k /\
    fe_right e = Kid k (elab k) /\ forall c, RC c -> R q r (fe_left e c).

Lemma child_closed n k c : nth_error (r_kids r) n = Some k -> RC c -> R q r (child n (Kid k (elab k)) c).
Proof. intros Hk Hc. unfold child. simpl. apply R_child; auto. Qed.

Lemma fold_closed (join : foldenv -> ctx -> shape) :
  (forall e c, env_closed true (Some e) -> RC c -> R q r (join e c)) ->
  forall ks i prev acc pre, r_kids r = pre ++ prev :: ks -> length pre = i ->
  (forall c, RC c -> R q r (acc c)) ->
  forall c, RC c -> R q r (fold_kids join i (Kid prev (elab prev)) (map (fun k => Kid k (elab k)) ks) acc c).
Proof.
  intros Hj. induction ks as [|k ks IH]; intros i prev acc pre Hks Hi Hacc c Hc; simpl; auto.
  apply IH with (pre := pre ++ [prev]); auto.
  - rewrite <- app_assoc. exact Hks.
  - rewrite app_length. simpl. lia.
  - intros c' Hc'. apply Hj; auto. intros _. eexists _, k. split; [reflexivity|]. cbn [fe_index fe_right fe_left]. repeat split; auto.
    rewrite Hks, nth_error_app2 by lia. replace (S i - length pre) with 1 by lia. reflexivity.
Qed.

Lemma branch_closed s e : R q r s -> doc_error e ->
  R q r (match r with RBranch _ _ => s | RText _ _ => SFail (FErr e) end).
Proof. intros. destruct r eqn:E; rewrite <- ?E in *; auto. Qed.

Lemma note_closed n : forall infold injoin fe c, wsc infold injoin n -> env_closed injoin fe -> RC c ->
  R q r (elab_note r (kids_of r) n fe c).
Proof.
  assert (Hlen : length (kids_of r) = length (r_kids r)) by (unfold kids_of; apply map_length).
  induction n as [| | |s| |n IH|pre l n IH|a IHa b IHb|a IHa b IHb|cd ps a IHa b IHb|i|l n IH| |z IHz o IHo m IHm|f IHf jn IHj| |];
    intros infold injoin fe c Hw He Hc; cbn [elab_note]; cbv zeta; auto.
  - apply R_text; auto. discriminate.
  - destruct r eqn:E; rewrite <- E; [apply R_text; eauto|apply R_fail; exact I].
  - eapply IH; eauto.
  - eapply IH; eauto.
  - destruct Hw. apply R_concat; [eapply IHa|eapply IHb]; eauto.
  - destruct Hw. destruct (x_flat c); [eapply IHa; eauto|]. apply R_choice; [eapply IHa|eapply IHb]; eauto.
  - destruct Hw as (Hps & Hwa & Hwb).
    assert (Hgo : forall x, R q r (if i_cond (r_info x) cd then elab_note r (kids_of r) a fe c else elab_note r (kids_of r) b fe c)).
    { intros x. destruct (i_cond _ cd); [eapply IHa|eapply IHb]; eauto. }
    destruct ps as [|k| |]; auto.
    + apply branch_closed; [|exact I]. destruct (kid_number k _); [|apply R_fail; exact I].
      destruct (nth_error _ _); auto.
    + destruct (He Hps) as (e & k & -> & _). auto.
    + destruct (He Hps) as (e & k & -> & _). auto.
  - apply branch_closed; [|exact I]. destruct (kid_number i _) as [m|] eqn:En; [|apply R_fail; exact I].
    rewrite <- kid_number_eq in En. apply normalize_lt in En. rewrite Hlen in En.
    destruct (nth_error (r_kids r) m) as [y|] eqn:Ey; [|apply nth_error_None in Ey; lia].
    rewrite (kid_get _ _ Ey). apply child_closed; auto.
  - eapply IH; eauto.
  - destruct Hw as (Hz & Ho & Hm). apply branch_closed; [|exact I].
    destruct (kids_of r) as [|k1 [|k2 ks]] eqn:E; [eapply IHz|eapply IHo|eapply IHm]; eauto.
  - destruct Hw as (Hin & Hwf & Hwj). apply branch_closed; [|exact I].
    assert (Hk : kids_of r = map (fun k => Kid k (elab k)) (r_kids r)) by reflexivity.
    pose proof (@fold_closed (fun e c => elab_note r (kids_of r) jn (Some e) c)
      (fun e c H1 H2 => IHj true true (Some e) c Hwj H1 H2)) as Hfold.
    destruct (r_kids r) as [|k1 ks] eqn:Ek; cbn [map] in Hk; rewrite Hk at 1; auto.
    apply Hfold with (pre := []); auto.
    intros c' Hc'. eapply IHf; eauto. intros H; discriminate.
  - destruct (He Hw) as (e & k & -> & _ & _ & H). auto.
  - destruct (He Hw) as (e & k & -> & H1 & -> & _). apply child_closed; auto.
Qed.

End Node.

Theorem elab_closed r : valid_doc r -> forall q c, RC c -> R q r (elab r c).
Proof.
  induction r as [i s|i ks IH] using rdoc_ind'; intros Hv q c Hc; rewrite elab_eq.
  - eapply note_closed with (infold := false) (injoin := false); auto.
    + intros n k H. destruct n; discriminate.
    + apply valid_wsc, (valid_note Hv).
    + intros H; discriminate.
  - eapply note_closed with (infold := false) (injoin := false); auto.
    + intros n k Hk c' Hc'. assert (Hin : In k ks) by (eapply nth_error_In; eauto).
      apply IH; auto. apply (valid_kid _ Hv). exact Hin.
    + apply valid_wsc, (valid_note Hv).
    + intros H; discriminate.
Qed.

End Closed.
