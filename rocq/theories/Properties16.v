(** Styles, style labels and ids do not influence the layout (C49).

    [doc_like RS RI r r'] (SpecLike): [r] and [r'] are the same documents except
    that where [r] has a style [s] (of a node, or that a label stands for), [r']
    has a style [s'] with [RS s s'], and where [r] has an id [i], [r'] has an id
    [i'] with [RI i i'].  [RS] can be any relation that combining styles
    preserves; with the relation that always holds, any styles at all. *)
From Verif Require Export PStyle.

Set Implicit Arguments.

Section Flip.
Context {pd : PrettyDoc}.
Variables (RS : Sty -> Sty -> Prop) (RI : Id -> Id -> Prop) (RT : str -> str -> Prop).
Notation FS := (fun s s' => RS s' s).
Notation FI := (fun i i' => RI i' i).
Notation FT := (fun t t' => RT t' t).

Lemma lookup_flip i i' l l' : lookup_like RS i i' l l' -> lookup_like FS i' i l' l.
Proof. destruct l, l'; simpl; auto. Qed.

Lemma note_flip i i' n n' : note_like RS RT i i' n n' -> note_like FS FT i' i n' n.
Proof. induction 1; constructor; auto. apply lookup_flip; auto. Qed.

Lemma info_flip i i' : info_like RS RI RT i i' -> info_like FS FI FT i' i.
Proof. intros (H1 & H2 & H3 & H4). repeat split; auto. apply note_flip; auto. Qed.

Lemma doc_flip r r' : doc_like RS RI RT r r' -> doc_like FS FI FT r' r.
Proof.
  intros H. apply doc_like_ind' with (RS := RS) (RI := RI) (RT := RT) (P := fun r r' => doc_like FS FI FT r' r); auto.
  - intros i i' s s' Hi Hs. constructor; auto. apply info_flip; auto.
  - intros i i' ks ks' Hi _ Hk. constructor; [apply info_flip; auto|]. clear -Hk. induction Hk; constructor; auto.
Qed.

(** A weaker relation of texts. *)
Lemma doc_like_texts (RT' : str -> str -> Prop) r r' : (forall t t', RT t t' -> RT' t t') -> doc_like RS RI RT r r' -> doc_like RS RI RT' r r'.
Proof.
  intros HT.
  assert (Hn : forall i i' n n', note_like RS RT i i' n n' -> note_like RS RT' i i' n n') by (induction 1; constructor; auto).
  assert (Hi : forall i i', info_like RS RI RT i i' -> info_like RS RI RT' i i') by (intros i i' (H1 & H2 & H3 & H4); repeat split; auto).
  intros H. apply doc_like_ind' with (RS := RS) (RI := RI) (RT := RT) (P := doc_like RS RI RT'); auto.
  - intros i i' s s' H1 H2. constructor; auto.
  - intros i i' ks ks' H1 _ Hk. constructor; auto.
Qed.
End Flip.

Lemma forall2_length A B (P : A -> B -> Prop) l l' : Forall2 P l l' -> length l = length l'.
Proof. induction 1; simpl; congruence. Qed.

Section Linear.
Context {pd : PrettyDoc} {env : Env}.
Variable idat : list nat -> option Id.
Hypothesis uniq : unique_ids idat.

Fixpoint entered (stk : list nat) (es : list event) : list (list nat) :=
  match es with
  | [] => []
  | EEnter _ n :: es' => (n :: stk) :: entered (n :: stk) es'
  | EExit _ _ :: es' => entered (tl stk) es'
  | _ :: es' => entered stk es'
  end.

Definition step_of (p : list nat) : option Id * nat :=
  match p with n :: stk => (idat (rev stk), n) | [] => (None, 0) end.

Lemma enters_paths es : forall stk, good idat stk es ->
  map (fun '(j, n) => (Some j, n)) (enters es) = map step_of (entered stk es) /\
  Forall (fun p => exists n stk' j, p = n :: stk' /\ idat (rev stk') = Some j) (entered stk es).
Proof.
  induction es as [|e es IH]; intros stk G; simpl; auto.
  destruct e; simpl in G |- *; auto; try (apply IH; apply G; fail).
  - destruct G as [G1 G2]. destruct (IH _ G2) as [H1 H2]. simpl. rewrite G1. split; [f_equal; auto|]. constructor; eauto.
  - destruct G as (stk' & -> & _ & G). simpl. auto.
Qed.

Lemma nodup_map A B (f : A -> B) l : NoDup (map f l) -> NoDup l.
Proof.
  induction l as [|x l IH]; simpl; intros H; [constructor|]. inversion H as [|? ? Hn Hd]; subst.
  constructor; auto. intros Hi. apply Hn. apply in_map; auto.
Qed.

Lemma nodup_map_inj A B (f : A -> B) l : (forall x y, In x l -> In y l -> f x = f y -> x = y) -> NoDup l -> NoDup (map f l).
Proof.
  induction l as [|x l IH]; simpl; intros Hf H; [constructor|]. inversion H as [|? ? Hn Hd]; subst.
  constructor; auto. intros Hi. apply in_map_iff in Hi as (y & Hy & Hi). rewrite (Hf x y) in Hn; auto.
Qed.

Lemma linear_entered es : good idat [] es -> (linear es <-> NoDup (entered [] es)).
Proof.
  intros G. destruct (enters_paths _ _ G) as [E F]. unfold linear. split; intros H.
  - apply nodup_map with (f := step_of). rewrite <- E. apply nodup_map_inj; auto.
    intros [j n] [j' n'] _ _ [= -> ->]. auto.
  - apply nodup_map with (f := fun '(j, n) => (Some j, n)). rewrite E. apply nodup_map_inj; auto.
    intros p q Hp Hq. rewrite Forall_forall in F. destruct (F _ Hp) as (n & s & j & -> & Hj). destruct (F _ Hq) as (n' & s' & j' & -> & Hj').
    simpl. intros [= Ej ->]. f_equal. rewrite Hj in Ej. assert (rev s = rev s') by (eapply uniq; [exact Hj|congruence]).
    rewrite <- (rev_involutive s), <- (rev_involutive s'). congruence.
Qed.
End Linear.

Section Alike.
Context {pd : PrettyDoc} {env : Env} {ideq : IdEq pd}.
Variables (RS : Sty -> Sty -> Prop) (RI : Id -> Id -> Prop) (RT : str -> str -> Prop).
Hypothesis RT_width : forall s s', RT s s' -> str_width s' = str_width s.
Hypothesis RS_combine : forall a a' b b', RS a a' -> RS b b' -> RS (style_combine a b) (style_combine a' b').
Variables (r r' : rdoc) (doc doc' : D).
Hypothesis Hrep : rep r doc.
Hypothesis Hrep' : rep r' doc'.
Hypothesis Hv : valid_doc r.
Hypothesis Hv' : valid_doc r'.
Hypothesis Hlike : doc_like RS RI RT r r'.

Lemma like_entered es es' : Forall2 (event_like RS RI RT) es es' -> forall stk, entered stk es' = entered stk es.
Proof. induction 1 as [|e e' es es' He Hes IH]; intros stk; simpl; auto. destruct He; auto. f_equal. auto. Qed.

Lemma like_some w st st' es : opt_like RS st st' -> layout w (doc_shape r st) = Some es ->
  exists es', layout w (doc_shape r' st') = Some es' /\ Forall2 (event_like RS RI RT) es es'.
Proof.
  intros Hs E. pose proof (like_layout RT_width RS_combine w st st' Hlike Hs) as H. rewrite E in H.
  destruct (layout w (doc_shape r' st')) as [es'|]; [|contradiction]. eauto.
Qed.

(** If the one is printed then so is the other: as many lines, with the
    same texts of the same widths, in styles that are alike. *)
Lemma like_same_lines w st st' fl downs :
  opt_like RS st st' -> printed doc w [] FStart st [] fl downs ->
  exists fl' downs', printed doc' w [] FStart st' [] fl' downs' /\
    lines_like RS RT (all_lines [] fl downs) (all_lines [] fl' downs').
Proof.
  intros Hs Hp. destruct (C01_printed_has_layout Hrep Hv (eq_refl : is_text_target FStart = false) Hp) as (es & Hes & E).
  destruct (like_some w _ _ Hs Hes) as (es' & Hes' & Hl).
  destruct (C01_layout_is_printed Hrep' Hv' w st' Hes') as (fl' & downs' & Hp' & E').
  exists fl', downs'. split; auto. rewrite E, <- E'. apply like_lines with (RI := RI) (RT := RT); auto.
Qed.

(** Wherever the focus is (in terms of paths), it is in the same place:
    the same number of lines above and below it, and it divides its line at the
    same place.  Ids must be unique, and no node be displayed twice. *)
Lemma like_same_focus w path ft st st' es ups fl downs :
  unique_ids (id_at r) -> unique_ids (id_at r') ->
  layout w (doc_shape r st) = Some es -> linear es ->
  opt_like RS st st' -> is_text_target ft = false ->
  printed doc w path ft st ups fl downs ->
  exists ups' fl' downs', printed doc' w path ft st' ups' fl' downs' /\
    lines_like RS RT ups ups' /\ line_like RS RT (left_segments fl) (left_segments fl') /\
    line_like RS RT (right_segments fl) (right_segments fl') /\ lines_like RS RT downs downs'.
Proof.
  intros Hu Hu' Hes Hlin Hs Hft Hp.
  destruct (like_some w _ _ Hs Hes) as (es' & Hes' & Hl).
  destruct (layout_good Hv _ _ Hes) as [G O]. destruct (layout_good Hv' _ _ Hes') as [G' O'].
  assert (Hlin' : linear es').
  { rewrite (linear_entered Hu' _ G'), (like_entered Hl). apply (linear_entered Hu _ G). exact Hlin. }
  assert (K : forall before after before' after' ups' fl' downs',
    es = before ++ after -> es' = before' ++ after' -> length before = length before' ->
    lines_of before = rev ups ++ [left_segments fl] -> lines_of after = right_segments fl :: downs ->
    lines_of before' = rev ups' ++ [left_segments fl'] -> lines_of after' = right_segments fl' :: downs' ->
    lines_like RS RT ups ups' /\ line_like RS RT (left_segments fl) (left_segments fl') /\
    line_like RS RT (right_segments fl) (right_segments fl') /\ lines_like RS RT downs downs').
  { intros before after before' after' ups' fl' downs' E E' Hlen B A B' A'. rewrite E in Hl.
    apply like_app in Hl as (x & y & E2 & H1 & H2). rewrite E2 in E'.
    assert (length x = length before') by (rewrite <- Hlen; symmetry; apply forall2_length in H1; exact H1).
    destruct (split_eq x y before' after' E') as [-> ->]; auto.
    pose proof (like_lines H1 (Forall2_nil (seg_like RS RT))) as L1. fold (lines_of before) in L1. fold (lines_of before') in L1.
    pose proof (like_lines H2 (Forall2_nil (seg_like RS RT))) as L2. fold (lines_of after) in L2. fold (lines_of after') in L2.
    rewrite B, B' in L1. rewrite A, A' in L2. inversion L2; subst.
    apply forall2_rev in L1. rewrite !rev_app_distr, !rev_involutive in L1. simpl in L1. inversion L1; subst. repeat split; auto. }
  destruct ft as [| | |n]; try discriminate.
  - destruct (C03_start_focus Hrep Hv Hu Hes Hlin Hp) as (before & after & E & Hst & B & A).
    rewrite E in Hl. pose proof Hl as Hl0. apply like_app in Hl as (x & y & -> & H1 & H2).
    assert (Hd : displayed (x ++ y) path) by (apply start_displayed, (like_start H1 Hst)).
    destruct (C06_displayed_accepted Hrep' Hv' Hu' w st' Hes' Hlin' Hd (or_introl eq_refl)) as (ups' & fl' & downs' & Hp').
    destruct (C03_start_focus Hrep' Hv' Hu' Hes' Hlin' Hp') as (before' & after' & E' & Hst' & B' & A').
    exists ups', fl', downs'. split; auto. apply (K before after before' after'); auto.
    etransitivity; [apply (forall2_length H1)|]. eapply start_unique; eauto. eapply like_start; eauto.
  - destruct (C04_end_focus Hrep Hv Hu Hes Hlin Hp) as (before & after & E & Hst & B & A).
    assert (Hd0 : displayed es path) by (apply (C06_accepted_iff_displayed Hrep Hv Hu w st Hes Hlin path (or_intror eq_refl)); eauto).
    pose proof (like_displayed Hl Hd0) as Hd.
    destruct (C06_displayed_accepted Hrep' Hv' Hu' w st' Hes' Hlin' Hd (or_intror eq_refl)) as (ups' & fl' & downs' & Hp').
    destruct (C04_end_focus Hrep' Hv' Hu' Hes' Hlin' Hp') as (before' & after' & E' & Hst' & B' & A').
    exists ups', fl', downs'. split; auto. apply (K before after before' after'); auto.
    rewrite E in Hl. apply like_app in Hl as (x & y & E2 & H1 & H2).
    etransitivity; [apply (forall2_length H1)|]. eapply end_unique; eauto. eapply like_end; eauto.
  - assert (Hm : mark_displayed es path).
    { assert (Hd0 : displayed es path).
      { destruct Hp as (up & down & Hp1 & Hp2 & Hp3).
        destruct (@lab_spec _ _ _ r doc Hrep Hv Hu w path FMark st) as (res & Hev & H); [discriminate|].
        pose proof (ev_det Hev Hp1). subst res. destruct H as (ru & rd & _ & _ & _ & _ & H). rewrite Hes in H.
        destruct H as (? & ? & pre & post & _ & _ & Hdiv & _). eapply (divided_displayed Hv Hu); eauto. }
      destruct (@path_accepted _ _ _ r doc Hrep Hv Hu w st es path FMark Hes Hlin) as [(u & f & d & pre & post & Hp0 & Hdiv & H1 & H2)|[(_ & H & _)|(H & _)]]; try discriminate; auto.
      - destruct Hdiv as [E (a & mid & j & -> & Hst & Hj & Hmid)].
        exists (a ++ mid), j, post. split; [rewrite E, <- !app_assoc; reflexivity|].
        eapply (@good_mark _ (id_at r) Hu); [exact G| |exact Hj]. rewrite E, <- !app_assoc. reflexivity.
      - destruct Hp as (up & down & Hp1 & Hp2 & Hp3). pose proof (ev_det Hp1 H). discriminate. }
    destruct (C05_mark_focus Hrep Hv Hu w st Hes Hlin Hm) as (ups0 & fl0 & downs0 & before & after & Hp0 & E & Hat & B & A).
    destruct (printed_det Hp Hp0) as (<- & <- & <-).
    destruct (C05_mark_focus Hrep' Hv' Hu' w st' Hes' Hlin' (like_mark_displayed Hl Hm)) as (ups' & fl' & downs' & before' & after' & Hp' & E' & Hat' & B' & A').
    exists ups', fl', downs'. split; auto. apply (K before after before' after'); auto.
    rewrite E in Hl. apply like_app in Hl as (x & y & E2 & H1 & H2).
    etransitivity; [apply (forall2_length H1)|]. eapply mark_unique; eauto. eapply like_mark; eauto.
Qed.

(** The one cannot be printed exactly when the other cannot. *)
Lemma like_same_success w st st' : opt_like RS st st' ->
  (exists fl downs, printed doc w [] FStart st [] fl downs) <-> (exists fl downs, printed doc' w [] FStart st' [] fl downs).
Proof.
  intros Hs. split.
  - intros (fl & downs & Hp). destruct (like_same_lines _ Hs Hp) as (fl' & downs' & H & _). eauto.
  - intros (fl' & downs' & Hp). destruct (C01_printed_has_layout Hrep' Hv' (eq_refl : is_text_target FStart = false) Hp) as (es' & Hes' & _).
    pose proof (like_layout RT_width RS_combine w st st' Hlike Hs) as H. rewrite Hes' in H.
    destruct (layout w (doc_shape r st)) as [es|] eqn:Hes; [|contradiction].
    destruct (C01_layout_is_printed Hrep Hv w st Hes) as (fl & downs & Hq & _). eauto.
Qed.

(** ** In the text of a node *)
Lemma like_node q : forall r r' i' s', doc_like RS RI RT r r' -> node_at r' q = Some (RText i' s') ->
  exists i s, node_at r q = Some (RText i s) /\ RT s s'.
Proof.
  induction q as [|n q IH]; intros r0 r0' i' s' H E.
  - cbn in E. injection E as ->. inversion H; subst. cbn. eauto.
  - cbn [node_at] in *. inversion H as [i1 i2 s1 s2 Hi Hs|i1 i2 ks ks' Hi Hk]; subst; cbn [r_kids] in *; [destruct n; discriminate|].
    destruct (nth_error ks' n) as [k'|] eqn:Ek; [|discriminate].
    assert (G : forall m, match nth_error ks m, nth_error ks' m with Some k, Some k' => doc_like RS RI RT k k' | None, None => True | _, _ => False end).
    { clear -Hk. induction Hk as [|k k' ks ks' H _ IH]; intros [|m]; cbn; auto. apply IH. }
    specialize (G n). rewrite Ek in G. destruct (nth_error ks n) as [k|]; [|contradiction]. eapply IH; eauto.
Qed.

Hypothesis RT_split : forall s s' n, RT s s' -> RT (firstn n s) (firstn n s') /\ RT (skipn n s) (skipn n s').

Lemma like_splittable : splittable r -> splittable r'.
Proof.
  intros H q i' s' E a b c ->. destruct (like_node q Hlike E) as (i & s & En & Hs). specialize (H q i s En).
  destruct (RT_split (length a) Hs) as [_ H1]. rewrite skipn_app, Nat.sub_diag, skipn_all in H1. cbn [app skipn] in H1.
  destruct (RT_split (length b) H1) as [H2 H3].
  rewrite firstn_app, Nat.sub_diag, firstn_all in H2. cbn [firstn] in H2. rewrite app_nil_r in H2.
  rewrite skipn_app, Nat.sub_diag, skipn_all in H3. cbn [app skipn] in H3.
  rewrite (RT_width H1), (RT_width H2), (RT_width H3).
  specialize (H (firstn (length a) s) (firstn (length b) (skipn (length a) s)) (skipn (length b) (skipn (length a) s))).
  rewrite !firstn_skipn in H. apply H. reflexivity.
Qed.

Lemma first_same A (P : A -> Prop) (m m' : list A) e e' y y' :
  m ++ e :: y = m' ++ e' :: y' -> P e -> P e' -> (forall x, In x m -> ~ P x) -> (forall x, In x m' -> ~ P x) ->
  m = m' /\ e = e' /\ y = y'.
Proof.
  revert m'. induction m as [|x m IH]; intros [|x' m'] E He He' Hm Hm'; cbn in E; injection E as Ex Ey.
  - auto.
  - exfalso. apply (Hm' x'); [left; reflexivity|]. subst; assumption.
  - exfalso. apply (Hm x); [left; reflexivity|]. subst; assumption.
  - destruct (IH m' Ey He He') as (-> & -> & ->); subst; auto; intros z Hz; [apply Hm|apply Hm']; right; exact Hz.
Qed.

Definition from_text (e : event) : Prop := match e with EText _ t => tx_from_text t = true | _ => False end.

Lemma like_from_text m m' : Forall2 (event_like RS RI RT) m m' -> (forall x, In x m -> ~ from_text x) -> forall x, In x m' -> ~ from_text x.
Proof.
  induction 1 as [|e e' m m' He Hm IH]; intros H x Hx; [contradiction|]. destruct Hx as [<-|Hx].
  - specialize (H e (or_introl eq_refl)). destruct He; cbn in *; auto. destruct H1 as (_ & _ & -> & _). exact H.
  - apply IH; auto. intros z Hz. apply H. right. exact Hz.
Qed.

Lemma not_from_text mid : (forall j' t', In (EText j' t') mid -> tx_from_text t' = false) -> forall x, In x mid -> ~ from_text x.
Proof. intros H [] Hx; cbn; auto. rewrite (H _ _ Hx). discriminate. Qed.

(** A focus in a text is in the same place of it. *)
Lemma like_same_text_focus w path n st st' es ups fl downs :
  unique_ids (id_at r) -> unique_ids (id_at r') -> splittable r ->
  layout w (doc_shape r st) = Some es -> linear es -> opt_like RS st st' ->
  printed doc w path (FText n) st ups fl downs ->
  exists ups' fl' downs', printed doc' w path (FText n) st' ups' fl' downs' /\
    lines_like RS RT ups ups' /\ line_like RS RT (left_segments fl) (left_segments fl') /\
    line_like RS RT (right_segments fl) (right_segments fl') /\ lines_like RS RT downs downs'.
Proof.
  intros Hu Hu' Hsp Hes Hlin Hs Hp. pose proof (like_splittable Hsp) as Hsp'.
  destruct (like_some w _ _ Hs Hes) as (es' & Hes' & Hl).
  destruct (layout_good Hv _ _ Hes) as [G O]. destruct (layout_good Hv' _ _ Hes') as [G' O'].
  assert (Hlin' : linear es').
  { rewrite (linear_entered Hu' _ G'), (like_entered Hl). apply (linear_entered Hu _ G). exact Hlin. }
  assert (Hd : displayed es path).
  { destruct Hp as (up & down & Hp1 & _ & _).
    destruct (@lab_spec _ _ _ r doc Hrep Hv Hu w path (FText n) st (fun _ => Hsp)) as (res & Hev & H).
    pose proof (ev_det Hev Hp1). subst res. destruct H as (ru & rd & _ & _ & _ & _ & H). rewrite Hes in H.
    destruct H as (? & ? & pre & post & _ & _ & Hdiv & _). eapply (divided_displayed Hv Hu); eauto. }
  pose proof (like_displayed Hl Hd) as Hd'.
  destruct (C07_first_text_from_start Hrep Hv Hu w st Hes Hlin n Hsp Hd) as
    [(ups1 & fl1 & downs1 & before & j & t & after & lb & la & Hp1 & _ & E & Ht & (a & mid & -> & Hst & Hno) & B & A & FL & FR)|(Hf & _)].
  2: { destruct Hp as (? & ? & Hp1 & _). pose proof (ev_det Hp1 Hf). discriminate. }
  destruct (printed_det Hp Hp1) as (<- & <- & <-).
  rewrite E in Hl. rewrite <- app_assoc in Hl. apply like_app in Hl as (a1 & x & E1 & La & Lx). apply like_app in Lx as (mid1 & x2 & -> & Lm & Lx).
  inversion Lx as [|e e1 l l1 He Lf]; subst. inversion He as [jj j1 tt t1 Hj Htx| | | | |]; subst.
  destruct Htx as (T1 & T2 & T3 & T4).
  assert (Hno1 : forall z, In z mid1 -> ~ from_text z) by (apply (like_from_text Lm), not_from_text, Hno).
  assert (Ht1 : from_text (EText j1 t1)) by (cbn; congruence).
  pose proof (like_start La Hst) as Hst1.
  destruct (C07_first_text_from_start Hrep' Hv' Hu' w st' Hes' Hlin' n Hsp' Hd') as
    [(ups' & fl' & downs' & before' & j' & t' & after' & lb' & la' & Hp' & _ & E' & Ht' & (a' & mid' & -> & Hst' & Hno') & B' & A' & FL' & FR')|(_ & a' & mid' & E' & Hst' & Hno')].
  - pose proof E' as E2. rewrite <- app_assoc in E2.
    assert (La' : length a1 = length a') by (eapply start_unique with (es := a1 ++ mid1 ++ EText j1 t1 :: l1); eauto).
    destruct (split_eq _ _ _ _ E2 La') as [-> E3].
    destruct (@first_same _ from_text _ _ _ _ _ _ E3 Ht1 Ht' Hno1 (not_from_text _ Hno')) as (-> & E4 & ->). injection E4 as -> ->.
    exists ups', fl', downs'. split; [exact Hp'|].
    pose proof (like_lines (Forall2_app La Lm) (Forall2_nil (seg_like RS RT))) as L1. fold (lines_of (a ++ mid)) in L1. fold (lines_of (a' ++ mid')) in L1.
    pose proof (like_lines Lf (Forall2_nil (seg_like RS RT))) as L2. fold (lines_of after) in L2. fold (lines_of after') in L2.
    rewrite B, B' in L1. rewrite A, A' in L2. inversion L2 as [|? ? ? ? L3 L4]; subst.
    apply forall2_rev in L1. rewrite !rev_app_distr, !rev_involutive in L1. simpl in L1. inversion L1 as [|? ? ? ? L5 L6]; subst.
    destruct (RT_split n T1) as [S1 S2].
    split; [exact L6|]. rewrite FL, FL', FR, FR'. split; [|split; [|exact L4]].
    + apply Forall2_app; auto. constructor; auto. repeat split; cbn; auto.
    + constructor; auto. repeat split; cbn; auto.
  - exfalso. assert (La' : length a1 = length a') by (eapply start_unique with (es := a1 ++ mid1 ++ EText j1 t1 :: l1); eauto).
    destruct (split_eq _ _ _ _ E' La') as [-> E3].
    apply (not_from_text _ Hno' (EText j1 t1)); [rewrite <- E3; apply in_or_app; right; left; reflexivity|exact Ht1].
Qed.

End Alike.

(** ** C49: the texts are the same *)
Lemma eq_width {pd : PrettyDoc} {env : Env} (s s' : str) : s = s' -> str_width s' = str_width s.
Proof. intros ->. reflexivity. Qed.

Section Styles.
Context {pd : PrettyDoc} {env : Env} {ideq : IdEq pd}.
Variables (RS : Sty -> Sty -> Prop) (RI : Id -> Id -> Prop).

(** C49.  Being alike works both ways, so that what follows does too. *)
Theorem C49_alike_both_ways r r' : doc_like RS RI eq r r' -> doc_like (fun s s' => RS s' s) (fun i i' => RI i' i) eq r' r.
Proof.
  intros H. apply doc_flip in H. revert H. apply doc_like_texts. intros; subst; auto.
Qed.

Hypothesis RS_combine : forall a a' b b', RS a a' -> RS b b' -> RS (style_combine a b) (style_combine a' b').
Variables (r r' : rdoc) (doc doc' : D).
Hypothesis Hrep : rep r doc.
Hypothesis Hrep' : rep r' doc'.
Hypothesis Hv : valid_doc r.
Hypothesis Hv' : valid_doc r'.
Hypothesis Hlike : doc_like RS RI eq r r'.

(** C49.  If the one is printed then so is the other: as many lines, with the
    same texts of the same widths, in styles that are alike. *)
Theorem C49_same_lines w st st' fl downs :
  opt_like RS st st' -> printed doc w [] FStart st [] fl downs ->
  exists fl' downs', printed doc' w [] FStart st' [] fl' downs' /\
    lines_like RS eq (all_lines [] fl downs) (all_lines [] fl' downs').
Proof. exact (@like_same_lines _ _ _ RS RI eq eq_width RS_combine r r' doc doc' Hrep Hrep' Hv Hv' Hlike w st st' fl downs). Qed.

(** C49.  Wherever the focus is (in terms of paths), it is in the same place:
    the same number of lines above and below it, and it divides its line at the
    same place.  Ids must be unique, and no node be displayed twice. *)
Theorem C49_same_focus w path ft st st' es ups fl downs :
  unique_ids (id_at r) -> unique_ids (id_at r') ->
  layout w (doc_shape r st) = Some es -> linear es ->
  opt_like RS st st' -> is_text_target ft = false ->
  printed doc w path ft st ups fl downs ->
  exists ups' fl' downs', printed doc' w path ft st' ups' fl' downs' /\
    lines_like RS eq ups ups' /\ line_like RS eq (left_segments fl) (left_segments fl') /\
    line_like RS eq (right_segments fl) (right_segments fl') /\ lines_like RS eq downs downs'.
Proof. exact (@like_same_focus _ _ _ RS RI eq eq_width RS_combine r r' doc doc' Hrep Hrep' Hv Hv' Hlike w path ft st st' es ups fl downs). Qed.

(** C49.  So is a focus in a text. *)
Theorem C49_same_text_focus w path n st st' es ups fl downs :
  unique_ids (id_at r) -> unique_ids (id_at r') -> splittable r ->
  layout w (doc_shape r st) = Some es -> linear es -> opt_like RS st st' ->
  printed doc w path (FText n) st ups fl downs ->
  exists ups' fl' downs', printed doc' w path (FText n) st' ups' fl' downs' /\
    lines_like RS eq ups ups' /\ line_like RS eq (left_segments fl) (left_segments fl') /\
    line_like RS eq (right_segments fl) (right_segments fl') /\ lines_like RS eq downs downs'.
Proof.
  refine (@like_same_text_focus _ _ _ RS RI eq eq_width RS_combine r r' doc doc' Hrep Hrep' Hv Hv' Hlike _ w path n st st' es ups fl downs).
  intros s s' k ->. auto.
Qed.

(** C49.  The one cannot be printed exactly when the other cannot. *)
Theorem C49_same_success w st st' : opt_like RS st st' ->
  (exists fl downs, printed doc w [] FStart st [] fl downs) <-> (exists fl downs, printed doc' w [] FStart st' [] fl downs).
Proof. exact (@like_same_success _ _ _ RS RI eq eq_width RS_combine r r' doc doc' Hrep Hrep' Hv Hv' Hlike w st st'). Qed.
End Styles.
