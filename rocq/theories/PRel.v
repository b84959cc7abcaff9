(** Documents that are alike have notation trees that are alike. *)
From Verif Require Export SpecLike PElab.

Set Implicit Arguments.

Section Rel.
Context {pd : PrettyDoc} {env : Env}.
Variable RS : Sty -> Sty -> Prop.
Variable RI : Id -> Id -> Prop.
Variable RT : str -> str -> Prop.
Notation info_like := (info_like RS RI RT).
Notation doc_like := (doc_like RS RI RT).
Notation note_like := (note_like RS RT).

Fixpoint doc_like_ind' (P : rdoc -> rdoc -> Prop)
  (Ht : forall i i' s s', info_like i i' -> RT s s' -> P (RText i s) (RText i' s'))
  (Hb : forall i i' ks ks', info_like i i' -> Forall2 doc_like ks ks' -> Forall2 P ks ks' -> P (RBranch i ks) (RBranch i' ks'))
  (r r' : rdoc) (H : doc_like r r') {struct H} : P r r' :=
  match H with
  | dl_text s s' Hi Hs => Ht _ _ s s' Hi Hs
  | dl_branch Hi Hk => Hb _ _ _ _ Hi Hk
      ((fix go ks ks' (F : Forall2 doc_like ks ks') : Forall2 P ks ks' :=
        match F with
        | Forall2_nil _ => Forall2_nil _
        | Forall2_cons _ _ Hx F' => Forall2_cons _ _ (doc_like_ind' Ht Hb Hx) (go _ _ F')
        end) _ _ Hk)
  end.

Variable R : shape -> shape -> Prop.
Variable RC : ctx -> ctx -> Prop.
Hypothesis RC_eq : forall c c', RC c c' -> x_flat c' = x_flat c.
Hypothesis RC_flat : forall c c', RC c c' -> RC (in_flat c) (in_flat c').
Hypothesis RC_style : forall s s' c c', RS s s' -> RC c c' -> RC (in_style s c) (in_style s' c').
Hypothesis RC_indent : forall p p' s s' c c', RT p p' -> match s, s' with None, None => True | Some s, Some s' => RS s s' | _, _ => False end ->
  RC c c' -> RC (in_indent p s c) (in_indent p' s' c').
Hypothesis R_fail : forall f, R (SFail f) (SFail f).
Hypothesis R_empty : R SEmpty SEmpty.
Hypothesis R_eol : R SEol SEol.
Hypothesis R_mark : R SMark SMark.
Hypothesis R_newline : forall c c', RC c c' -> R (SNewline (x_ind c)) (SNewline (x_ind c')).
Hypothesis R_text : forall c c' s s' f, RC c c' -> RT s s' ->
  R (SText (Textual s (str_width s) (x_sty c) f)) (SText (Textual s' (str_width s') (x_sty c') f)).
Hypothesis R_concat : forall a b a' b', R a a' -> R b b' -> R (SConcat a b) (SConcat a' b').
Hypothesis R_choice : forall a b a' b', R a a' -> R b b' -> R (SChoice a b) (SChoice a' b').
Hypothesis R_child : forall n j j' s s', RI j j' -> R s s' -> R (SChild n (Ok j) s) (SChild n (Ok j') s').

Definition kid_rel (k k' : kid) : Prop :=
  info_like (r_info (k_doc k)) (r_info (k_doc k')) /\ forall c c', RC c c' -> R (k_tree k c) (k_tree k' c').

Definition env_rel (e e' : foldenv) : Prop :=
  (forall c c', RC c c' -> R (fe_left e c) (fe_left e' c')) /\
  (forall c, i_cond (r_info (fe_ldoc e')) c = i_cond (r_info (fe_ldoc e)) c) /\
  fe_index e' = fe_index e /\ kid_rel (fe_right e) (fe_right e').

Definition oenv_rel (e e' : option foldenv) : Prop :=
  match e, e' with None, None => True | Some e, Some e' => env_rel e e' | _, _ => False end.

Lemma child_rel n k k' c c' : kid_rel k k' -> RC c c' -> R (child n k c) (child n k' c').
Proof.
  intros [(H1 & H2 & H3 & H4) H] Hc. unfold child. apply R_child; auto.
Qed.

Lemma fold_rel (join join' : foldenv -> ctx -> shape) :
  (forall e e' c c', env_rel e e' -> RC c c' -> R (join e c) (join' e' c')) ->
  forall ks ks', Forall2 kid_rel ks ks' -> forall i prev prev' acc acc' c c',
  (forall cd, i_cond (r_info (k_doc prev')) cd = i_cond (r_info (k_doc prev)) cd) ->
  (forall c c', RC c c' -> R (acc c) (acc' c')) -> RC c c' ->
  R (fold_kids join i prev ks acc c) (fold_kids join' i prev' ks' acc' c').
Proof.
  intros Hj. induction 1 as [|k k' ks ks' Hk Hks IH]; intros i prev prev' acc acc' c c' Hp Ha Hc; simpl; auto.
  apply IH; auto.
  - destruct Hk as [(_ & _ & _ & H) _]. exact H.
  - intros c1 c1' Hc1. apply Hj; auto. repeat split; simpl; auto; apply Hk.
Qed.

Lemma note_rel (r r' : rdoc) kids kids' n n' :
  (match r, r' with RText _ s, RText _ s' => RT s s' | RBranch _ _, RBranch _ _ => True | _, _ => False end) ->
  (forall c, i_cond (r_info r') c = i_cond (r_info r) c) ->
  Forall2 kid_rel kids kids' ->
  note_like (r_info r) (r_info r') n n' ->
  forall fe fe' c c', oenv_rel fe fe' -> RC c c' ->
  R (elab_note r kids n fe c) (elab_note r' kids' n' fe' c').
Proof.
  intros Hr Hcond Hkids Hn.
  assert (Hbr : forall (A A' : shape) e, R A A' ->
    R (match r with RBranch _ _ => A | RText _ _ => SFail (FErr e) end) (match r' with RBranch _ _ => A' | RText _ _ => SFail (FErr e) end)).
  { intros A A' e HA. destruct r, r'; try contradiction; auto. }
  assert (Hlen : length kids' = length kids) by (clear -Hkids; induction Hkids; simpl; congruence).
  assert (Hget : forall m, match nth_error kids m, nth_error kids' m with Some k, Some k' => kid_rel k k' | None, None => True | _, _ => False end).
  { clear -Hkids. induction Hkids as [|k k' ks ks' Hk Hks IH]; intros [|m]; simpl; auto. apply IH. }
  induction Hn as [| | | |s s' Hs|a a' Ha IHa|p p' l l' a a' Hp Hl Ha IHa|a a' b b' Ha IHa Hb IHb|a a' b b' Ha IHa Hb IHb|cd p a a' b b' Ha IHa Hb IHb
    |k|l l' a a' Hl Ha IHa| |a a' b b' d d' Ha IHa Hb IHb Hd IHd|a a' b b' Ha IHa Hb IHb| |];
    intros fe fe' c c' Hfe Hc; cbn [elab_note]; cbv zeta; auto.
  - destruct r as [i0 s0|i0 ks0], r' as [i0' s0'|i0' ks0']; try contradiction; subst; auto.
  - apply IHa; auto. apply RC_indent; auto. unfold lookup_like in Hl. destruct l, l'; simpl; auto.
  - rewrite (RC_eq Hc). destruct (x_flat c); auto.
  - assert (Hgo : forall y y', (forall c, i_cond (r_info y') c = i_cond (r_info y) c) ->
      R (if i_cond (r_info y) cd then elab_note r kids a fe c else elab_note r kids b fe c)
        (if i_cond (r_info y') cd then elab_note r' kids' a' fe' c' else elab_note r' kids' b' fe' c')).
    { intros y y' Hy. rewrite Hy. destruct (i_cond (r_info y) cd); auto. }
    destruct p as [|k| |]; auto.
    + apply Hbr. rewrite Hlen. destruct (kid_number k (length kids)) as [m|]; auto. specialize (Hget m).
      destruct (nth_error kids m), (nth_error kids' m); try contradiction; auto. apply Hgo. apply Hget.
    + destruct fe as [e|], fe' as [e'|]; try contradiction; auto. apply Hgo. apply Hfe.
    + destruct fe as [e|], fe' as [e'|]; try contradiction; auto. apply Hgo. destruct Hfe as (_ & _ & _ & [(_ & _ & _ & H) _]). exact H.
  - apply Hbr. rewrite Hlen. destruct (kid_number k (length kids)) as [m|]; auto. specialize (Hget m).
    destruct (nth_error kids m), (nth_error kids' m); try contradiction; auto. apply child_rel; auto.
  - apply Hbr. destruct kids as [|k1 [|k2 ks]], kids' as [|k1' [|k2' ks']]; try discriminate Hlen; auto.
  - apply Hbr. destruct Hkids as [|k k' ks ks' Hk Hks]; auto.
    apply fold_rel; [intros e e' c1 c1' He Hc1; apply IHb; auto|auto| |intros c1 c1' Hc1; apply IHa; auto; exact I|auto].
    destruct Hk as [(_ & _ & _ & H) _]. exact H.
  - destruct fe as [e|], fe' as [e'|]; try contradiction; auto. apply Hfe. auto.
  - destruct fe as [e|], fe' as [e'|]; try contradiction; auto. destruct Hfe as (_ & _ & -> & Hk). apply child_rel; auto.
Qed.

Theorem elab_rel r r' : doc_like r r' -> forall c c', RC c c' -> R (elab r c) (elab r' c').
Proof.
  intros H0. refine (@doc_like_ind' (fun r r' => forall c c', RC c c' -> R (elab r c) (elab r' c')) _ _ r r' H0); clear r r' H0.
  - intros i i' s s' Hi Hs c c' Hc. rewrite !elab_eq.
    apply note_rel; simpl; auto; try apply Hi. constructor.
  - intros i i' ks ks' Hi Hks IH c c' Hc. rewrite !elab_eq.
    apply note_rel; simpl; auto; try apply Hi.
    unfold kids_of. simpl. clear -IH Hks. induction IH as [|k k' l l' Hk _ IHl]; simpl; [constructor|].
    inversion Hks; subst. constructor; auto. split; simpl; auto.
    match goal with H : doc_like k k' |- _ => destruct H as [? ? ? ? H ?|? ? ? ? H _]; exact H end.
Qed.

End Rel.
