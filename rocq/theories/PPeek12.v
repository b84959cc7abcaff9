(** Windows of vertical lists of which only some items are open. *)
From Verif Require Export PPeek11 PPeek14.
From Verif Require Import SpecMask.

Set Implicit Arguments.

Section PPeek12.
Context {pd : PrettyDoc} {env : Env} {ideq : IdEq pd}.
Variable w : N.
Variables (i : info) (st : option Sty).
Hypothesis Hnote : i_note i = Fold (Child 0) (n_xor Left Right).
Notation sty := (root_style i st).
Notation j := (i_id i).
Notation vpiece := (vpiece w sty j).
Notation vpieces := (vpieces w sty j).

(** The layout of an item. *)
Definition item_layout (r : rdoc) (es : list event) : Prop := layout w (doc_shape r (Some sty)) = Some es.

Fixpoint items (n : nat) (ess : list (list event)) : list event :=
  match ess with
  | [] => []
  | es :: ess' => ENewline [] :: EEnter j n :: es ++ EExit j n :: items (S n) ess'
  end.

Lemma vpieces_app x y : forall n, vpieces n (x ++ y) = vpieces n x ++ vpieces (n + length x) y.
Proof.
  induction x as [|k x IH]; intros n; simpl.
  - rewrite Nat.add_0_r. reflexivity.
  - rewrite IH, <- app_assoc, Nat.add_succ_comm. reflexivity.
Qed.

Lemma item_peek r es : item_layout r es ->
  opens (oelab (whole r) (in_style (i_style (r_info r)) (Ctx false [] sty))) = true /\
  fst (peek w (oelab (whole r) (in_style (i_style (r_info r)) (Ctx false [] sty))) (i_id (r_info r)) look_end (Some pos0)) = map Ev es.
Proof.
  unfold item_layout, layout, doc_shape. intros H.
  destruct (rend w (elab r (root_ctx r (Some sty))) (i_id (r_info r)) look_end pos0) as [[es' p]|] eqn:E; [|discriminate].
  injection H as ->. rewrite whole_elab.
  change (in_style (i_style (r_info r)) (Ctx false [] sty)) with (root_ctx r (Some sty)).
  rewrite (rend_opens _ _ _ _ _ E), (peek_full _ _ _ _ _ E). auto.
Qed.

Lemma vpiece_whole n r es : item_layout r es -> vpiece n (whole r) = Ev (EEnter j n) :: map Ev es ++ [Ev (EExit j n)].
Proof.
  intros H. destruct (item_peek H) as [H1 H2]. unfold PPeek11.vpiece. rewrite !whole_info, H1, H2. reflexivity.
Qed.

Lemma vpieces_whole rs ess : Forall2 item_layout rs ess -> forall n, vpieces n (map whole rs) = map Ev (items n ess).
Proof.
  induction 1 as [|r es rs ess H F IH]; intros n; simpl; auto.
  rewrite (vpiece_whole n H), IH. cbn [map app]. rewrite map_app. rewrite <- app_assoc. reflexivity.
Qed.

Lemma lines_items ess : forall n cur, lines_from cur (items n ess) = cur :: concat (map lines_of ess).
Proof.
  induction ess as [|es ess IH]; intros n cur; simpl; auto. f_equal.
  destruct (lines_app es (EExit j n :: items (S n) ess) []) as (l & ls & H1 & H2). rewrite H2. cbn [lines_from].
  rewrite IH. unfold lines_of at 2. rewrite H1, <- app_assoc. reflexivity.
Qed.

Lemma items_lines ess n N : exists u, items n ess ++ [ENewline []; EEnter j N] = ENewline [] :: u /\
  lines_from [] u = concat (map lines_of ess) ++ [[]].
Proof.
  assert (H : exists u, items n ess ++ [ENewline []; EEnter j N] = ENewline [] :: u).
  { destruct ess; simpl; eauto. }
  destruct H as (u & H). exists u. split; auto.
  destruct (lines_app (items n ess) [ENewline []; EEnter j N] []) as (l & ls & H1 & H2).
  rewrite H in H2. cbn [lines_from] in H2. change (rev []) with (@nil segment) in H2.
  rewrite lines_items in H1.
  assert (E : [] :: lines_from [] u = ([] :: concat (map lines_of ess)) ++ [[]]).
  { etransitivity; [exact H2|]. change (ls ++ [l; []]) with (ls ++ [l] ++ [[]]). rewrite app_assoc, <- H1. reflexivity. }
  injection E as E. exact E.
Qed.

(** The document. *)
Variables (A E : list odoc) (B C : list rdoc) (r : rdoc).
Notation ks := (A ++ map whole (B ++ r :: C) ++ E).
Notation o := (OBranch i ks).
Notation N0 := (length A + length B).
Hypothesis Hv : ovalid o.
Hypothesis Hu : ounique o.
Variables (esB esC : list (list event)) (es : list event).
Hypothesis HB : Forall2 item_layout B esB.
Hypothesis Hr : item_layout r es.
Hypothesis HC : Forall2 item_layout C esC.

Lemma kids_nth n k : nth_error ks n = Some k -> onode_at o [n] = Some k.
Proof. intros H. simpl. rewrite H. reflexivity. Qed.

Lemma nth_item : nth_error ks N0 = Some (whole r).
Proof.
  rewrite nth_error_app2 by lia. replace (N0 - length A) with (length B) by lia.
  rewrite map_app, <- app_assoc, nth_error_app2 by (rewrite map_length; lia).
  rewrite map_length, Nat.sub_diag. reflexivity.
Qed.

Lemma vpiece_free n k : nth_error ks n = Some k -> n <> N0 -> free j N0 None (vpiece n k).
Proof.
  intros Hk Hn. unfold PPeek11.vpiece.
  destruct (opens (oelab k (in_style (i_style (o_info k)) (Ctx false [] sty)))) eqn:Eo.
  - assert (Hop : o_open k = true) by (destruct k; auto; discriminate).
    apply free_cons.
    { intros [[Ex|[Ex|Ex]]|(x & Ex & _)]; try discriminate. injection Ex as Ex. contradiction. }
    apply free_app. split.
    + apply (@inner_free _ _ w (oid_at o) Hu [] j N0 None) with (r := [n]); try discriminate; auto.
      * unfold oid_at. cbn [app]. rewrite (kids_nth _ Hk), Hop. reflexivity.
      * cbn [app]. apply oelab_lab; [|apply kids_nth; auto].
        apply (ovalid_kid _ Hv). simpl. eapply nth_error_In; eauto.
    + apply free_cons; [|apply free_nil]. intros [[Ex|[Ex|Ex]]|(x & Ex & _)]; discriminate.
  - apply free_cons; [|apply free_nil]. intros [[Ex|[Ex|Ex]]|(x & Ex & _)]; try discriminate. injection Ex as Ex. contradiction.
Qed.

Lemma vpieces_free x : forall n, (forall m k, nth_error x m = Some k -> nth_error ks (n + m) = Some k) ->
  n + length x <= N0 -> free j N0 None (vpieces n x).
Proof.
  induction x as [|k x IH]; intros n Hk Hle; simpl; [apply free_nil|].
  apply free_cons. { intros [[Ex|[Ex|Ex]]|(z & Ex & _)]; discriminate. }
  simpl in Hle. apply free_app. split.
  - apply vpiece_free; [|lia]. rewrite <- (Nat.add_0_r n). apply Hk. reflexivity.
  - apply IH; [|lia]. intros m k' H. rewrite Nat.add_succ_comm. apply Hk. exact H.
Qed.

(** Before and after the item. *)
Lemma vlist_leads : exists m,
  leads (oid_at o) [] (open_layout w o st) [N0]
    (m ++ [Ev (EEnter j N0)]) (map Ev es) (Ev (EExit j N0) :: vpieces (S N0) (map whole C ++ E)) /\
  (m = [] /\ A = [] /\ B = [] \/ Ev (ENewline []) :: m = vpieces 0 (A ++ map whole B) ++ [Ev (ENewline [])]).
Proof.
  assert (Hks : ks = (A ++ map whole B) ++ whole r :: map whole C ++ E).
  { rewrite map_app. cbn [map]. rewrite <- !app_assoc. reflexivity. }
  assert (HN : length (A ++ map whole B) = N0) by (rewrite app_length, map_length; reflexivity).
  assert (Hfree : free j N0 None (vpieces 0 (A ++ map whole B))).
  { apply vpieces_free; [|lia]. intros m k H. cbn [Nat.add]. rewrite Hks, nth_error_app1; [exact H|]. apply nth_error_Some. rewrite H. discriminate. }
  assert (Hno : ~ In (Ev (EExit j N0)) (map Ev es)).
  { destruct (item_peek Hr) as [H1 <-].
    apply (@content_no_mk _ _ w (oid_at o) [N0] (Some (EExit j N0))) with (r := []).
    - intros e [= <-]. exists j, N0. split; auto. intros j2 s2 (r2 & Hr2 & _) ->.
      assert (H0 : oid_at o [] = Some j) by reflexivity. pose proof (@Hu [] ([N0] ++ r2) j H0 Hr2) as Eq. discriminate.
    - reflexivity.
    - rewrite app_nil_r. unfold oid_at. rewrite (kids_nth _ nth_item).
      assert (Hop : o_open (whole r) = true) by (destruct r; reflexivity). rewrite Hop, whole_info. reflexivity.
    - rewrite app_nil_r. apply oelab_lab; [|apply kids_nth; apply nth_item].
      apply (ovalid_kid _ Hv). simpl. eapply nth_error_In. apply nth_item. }
  assert (Hl : exists k0 ks0, ks = k0 :: ks0 /\ open_layout w o st = vpiece 0 k0 ++ vpieces 1 ks0).
  { destruct ks as [|k0 ks0] eqn:Ek; [rewrite Hks in Ek; destruct (A ++ map whole B); discriminate|]. exists k0, ks0. split; auto. apply vlist_layout. exact Hnote. }
  destruct Hl as (k0 & ks0 & Ek & Hl).
  assert (HV : Ev (ENewline []) :: open_layout w o st =
    vpieces 0 (A ++ map whole B) ++ [Ev (ENewline [])] ++ [Ev (EEnter j N0)] ++ map Ev es ++ Ev (EExit j N0) :: vpieces (S N0) (map whole C ++ E)).
  { transitivity (vpieces 0 ks); [rewrite Hl, Ek; reflexivity|].
    rewrite Hks, vpieces_app. f_equal. cbn [PPeek11.vpieces Nat.add]. rewrite HN, (vpiece_whole _ Hr).
    cbn [app]. rewrite <- app_assoc. reflexivity. }
  assert (Hm : exists m, vpieces 0 (A ++ map whole B) ++ [Ev (ENewline [])] = Ev (ENewline []) :: m /\ free j N0 None m).
  { destruct (A ++ map whole B) as [|k1 ks1] eqn:EA.
    - exists []. split; [reflexivity|apply free_nil].
    - cbn [PPeek11.vpieces] in Hfree |- *. exists ((vpiece 0 k1 ++ vpieces 1 ks1) ++ [Ev (ENewline [])]). split; [reflexivity|].
      apply free_app. split.
      + intros e He. apply Hfree. right. exact He.
      + apply free_cons; [|apply free_nil]. intros [[Ex|[Ex|Ex]]|(x & Ex & _)]; discriminate. }
  destruct Hm as (m & Em & Hfm).
  exists m. split; [|right; auto].
  change (Ev (EExit j N0) :: vpieces (S N0) (map whole C ++ E)) with ([] ++ Ev (EExit j N0) :: vpieces (S N0) (map whole C ++ E)).
  apply leads_down with (c := map Ev es); auto.
  - rewrite (app_assoc (vpieces 0 (A ++ map whole B))), Em in HV. injection HV as HV. exact HV.
  - intros Hin. apply (Hfm _ Hin). left. left. reflexivity.
  - intros Hin. apply (Hfm _ Hin). left. right. left. reflexivity.
  - intros Hin. apply (Hfm _ Hin). left. right. right. reflexivity.
  - constructor.
Qed.

Notation LB := (concat (map lines_of esB)).
Notation LC := (concat (map lines_of esC)).

Lemma vlist_above m :
  (m = [] /\ A = [] /\ B = [] \/ Ev (ENewline []) :: m = vpieces 0 (A ++ map whole B) ++ [Ev (ENewline [])]) ->
  exists u, lines_from [] u = LB ++ [[]] /\
   (m ++ [Ev (EEnter j N0)] = map Ev u \/
    (A <> [] /\ exists z, m ++ [Ev (EEnter j N0)] = z ++ Ev (ENewline []) :: map Ev u)).
Proof.
  intros Hm.
  destruct Hm as [(-> & HA & HB0)|Hm].
  { assert (EB : esB = []) by (rewrite HB0 in HB; inversion HB; reflexivity). rewrite EB. exists [EEnter j N0]. split; [reflexivity|]. left. rewrite HA, HB0. reflexivity. }
  destruct (items_lines esB (length A) N0) as (u & Hu1 & Hu2). exists u. split; auto.
  rewrite vpieces_app, (vpieces_whole HB) in Hm. cbn [Nat.add] in Hm.
  apply (f_equal (fun x => x ++ [Ev (EEnter j N0)])) in Hm. cbn [app] in Hm.
  rewrite <- !app_assoc in Hm. cbn [app] in Hm.
  change [Ev (ENewline []); Ev (EEnter j N0)] with (map Ev [ENewline []; EEnter j N0]) in Hm.
  rewrite <- map_app, Hu1 in Hm. cbn [map] in Hm.
  destruct A as [|k1 A'].
  - left. simpl in Hm. injection Hm as Hm. auto.
  - right. cbn [PPeek11.vpieces app] in Hm. injection Hm as Hm. split; [discriminate|eauto].
Qed.

Lemma vlist_below :
  exists u, (forall cur, lines_from cur u = cur :: LC) /\
    (Ev (EExit j N0) :: vpieces (S N0) (map whole C ++ E) = map Ev u \/
     E <> [] /\ exists z, Ev (EExit j N0) :: vpieces (S N0) (map whole C ++ E) = map Ev u ++ Ev (ENewline []) :: z).
Proof.
  exists (EExit j N0 :: items (S N0) esC). split; [intros; apply lines_items|].
  rewrite vpieces_app, (vpieces_whole HC). destruct E as [|e E'].
  - left. simpl. rewrite app_nil_r. auto.
  - right. split; [discriminate|]. cbn [PPeek11.vpieces]. eexists. cbn [map app]. reflexivity.
Qed.

(** With the focus at the start of the item. *)
Theorem vlist_start d ku kd first rest : orep o d -> lines_of es = first :: rest ->
  A = [] \/ ku <= length LB -> E = [] \/ kd <= length (rest ++ LC) ->
  ev (fun n => window n d w [N0] FStart st ku kd)
    (Ok (firstn ku (rev LB), FocusedLine [] first, firstn kd (rest ++ LC))).
Proof.
  intros Hrep Hes Hku Hkd. destruct vlist_leads as (m & Hl & Hm).
  eapply open_window; try eassumption; auto; cbn [pre_of post_of].
  - destruct (vlist_above Hm) as (u & Hu1 & [E1|(HA & z & E1)]); rewrite E1.
    + left. exists u, (rev LB). rewrite rev_involutive. auto.
    + apply above_le; [rewrite rev_involutive; exact Hu1|rewrite rev_length]. destruct Hku; [contradiction|auto].
  - destruct vlist_below as (u & Hu1 & Hz).
    assert (Hlu : lines_from [] (es ++ u) = first :: rest ++ LC).
    { destruct (lines_app es u []) as (l & ls & H1 & H2). rewrite H2, Hu1.
      change (ls ++ l :: LC) with (ls ++ [l] ++ LC). rewrite app_assoc, <- H1. unfold lines_of in Hes. rewrite Hes. reflexivity. }
    destruct Hz as [E1|(HE & z & E1)]; rewrite E1.
    + rewrite <- map_app. left. exists (es ++ u), (rest ++ LC). auto.
    + rewrite app_assoc, <- map_app. apply below_le; auto. destruct Hkd; [contradiction|auto].
Qed.

(** With the focus at the end of the item. *)
Theorem vlist_end d ku kd init last : orep o d -> lines_of es = init ++ [last] ->
  A = [] \/ ku <= length (LB ++ init) -> E = [] \/ kd <= length LC ->
  ev (fun n => window n d w [N0] FEnd st ku kd)
    (Ok (firstn ku (rev (LB ++ init)), FocusedLine last [], firstn kd LC)).
Proof.
  intros Hrep Hes Hku Hkd. destruct vlist_leads as (m & Hl & Hm).
  eapply open_window; try eassumption; auto; cbn [pre_of post_of].
  - destruct (vlist_above Hm) as (u & Hu1 & Hz).
    assert (Hlu : lines_from [] (u ++ es) = (LB ++ init) ++ [last]).
    { destruct (lines_app u es []) as (l & ls & H1 & H2). rewrite H2. rewrite H1 in Hu1. apply app_inj_tail in Hu1 as [-> ->].
      unfold lines_of in Hes. rewrite Hes, app_assoc. reflexivity. }
    destruct Hz as [E1|(HA & z & E1)]; rewrite E1.
    + rewrite <- map_app. left. exists (u ++ es), (rev (LB ++ init)). rewrite rev_involutive. auto.
    + rewrite <- app_assoc. cbn [app]. rewrite <- map_app.
      apply above_le; [rewrite rev_involutive; exact Hlu|rewrite rev_length]. destruct Hku; [contradiction|auto].
  - destruct vlist_below as (u & Hu1 & Hz).
    destruct Hz as [E1|(HE & z & E1)]; rewrite E1.
    + left. exists u, LC. auto.
    + apply below_le; auto. destruct Hkd; [contradiction|auto].
Qed.

(** With the focus inside the item: [e1] is before it, [e2] after it. *)
Lemma vlist_inside m e1 e2 ku kd init l0 r0 rest :
  (m = [] /\ A = [] /\ B = [] \/ Ev (ENewline []) :: m = vpieces 0 (A ++ map whole B) ++ [Ev (ENewline [])]) ->
  lines_of e1 = init ++ [l0] -> lines_from [] e2 = r0 :: rest ->
  A = [] \/ ku <= length (LB ++ init) -> E = [] \/ kd <= length (rest ++ LC) ->
  above ((m ++ [Ev (EEnter j N0)]) ++ map Ev e1) ku (firstn ku (rev (LB ++ init))) l0 /\
  below (map Ev e2 ++ Ev (EExit j N0) :: vpieces (S N0) (map whole C ++ E)) kd r0 (firstn kd (rest ++ LC)).
Proof.
  intros Hm He1 He2 Hku Hkd. split.
  - destruct (vlist_above Hm) as (u & Hu1 & Hz).
    assert (Hlu : lines_from [] (u ++ e1) = (LB ++ init) ++ [l0]).
    { destruct (lines_app u e1 []) as (l & ls & H1 & H2). rewrite H2. rewrite H1 in Hu1. apply app_inj_tail in Hu1 as [-> ->].
      unfold lines_of in He1. rewrite He1, app_assoc. reflexivity. }
    destruct Hz as [E1|(HA & z & E1)]; rewrite E1.
    + rewrite <- map_app. left. exists (u ++ e1), (rev (LB ++ init)). rewrite rev_involutive. auto.
    + rewrite <- app_assoc. cbn [app]. rewrite <- map_app.
      apply above_le; [rewrite rev_involutive; exact Hlu|rewrite rev_length]. destruct Hku; [contradiction|auto].
  - destruct vlist_below as (u & Hu1 & Hz).
    assert (Hlu : lines_from [] (e2 ++ u) = r0 :: rest ++ LC).
    { destruct (lines_app e2 u []) as (l & ls & H1 & H2). rewrite H2, Hu1.
      change (ls ++ l :: LC) with (ls ++ [l] ++ LC). rewrite app_assoc, <- H1, He2. reflexivity. }
    destruct Hz as [E1|(HE & z & E1)]; rewrite E1.
    + rewrite <- map_app. left. exists (e2 ++ u), (rest ++ LC). auto.
    + rewrite app_assoc, <- map_app. apply below_le; auto. destruct Hkd; [contradiction|auto].
Qed.

(** With the focus at the mark of the item. *)
Theorem vlist_mark d ku kd e1 e2 init l0 r0 rest : orep o d ->
  es = e1 ++ EMark (i_id (r_info r)) :: e2 -> ~ In (EMark (i_id (r_info r))) e1 ->
  lines_of e1 = init ++ [l0] -> lines_from [] e2 = r0 :: rest ->
  A = [] \/ ku <= length (LB ++ init) -> E = [] \/ kd <= length (rest ++ LC) ->
  ev (fun n => window n d w [N0] FMark st ku kd)
    (Ok (firstn ku (rev (LB ++ init)), FocusedLine l0 r0, firstn kd (rest ++ LC))).
Proof.
  intros Hrep Hes Hno He1 He2 Hku Hkd. destruct vlist_leads as (m & Hl & Hm).
  assert (He1' : lines_of (e1 ++ [EMark (i_id (r_info r))]) = init ++ [l0]).
  { unfold lines_of. destruct (lines_app e1 [EMark (i_id (r_info r))] []) as (l & ls & H1 & H2).
    rewrite H2. simpl. rewrite <- H1. exact He1. }
  destruct (@vlist_inside m (e1 ++ [EMark (i_id (r_info r))]) e2 ku kd init l0 r0 rest Hm He1' He2 Hku Hkd) as [Ha Hb].
  eapply open_window_mark with (mid := e1) (j := i_id (r_info r)); try eassumption.
  - unfold oid_at. rewrite (kids_nth _ nth_item).
    assert (Hop : o_open (whole r) = true) by (destruct r; reflexivity). rewrite Hop, whole_info. reflexivity.
  - rewrite Hes, map_app, <- app_assoc. reflexivity.
  - rewrite map_app in Ha. exact Ha.
Qed.

(** With the focus in a text of the item. *)
Theorem vlist_text d k ku kd e1 j2 t e2 init l0 r0 rest : orep o d ->
  es = e1 ++ EText j2 t :: e2 -> existsb tftext e1 = false -> tx_from_text t = true ->
  (str_width (firstn k (tx_str t)) + str_width (skipn k (tx_str t)) = tx_width t)%N ->
  lines_of (e1 ++ [EText j2 (fst (split_at t k))]) = init ++ [l0] ->
  lines_from [] (EText j2 (snd (split_at t k)) :: e2) = r0 :: rest ->
  A = [] \/ ku <= length (LB ++ init) -> E = [] \/ kd <= length (rest ++ LC) ->
  ev (fun n => window n d w [N0] (FText k) st ku kd)
    (Ok (firstn ku (rev (LB ++ init)), FocusedLine l0 r0, firstn kd (rest ++ LC))).
Proof.
  intros Hrep Hes Hno Ht Hw He1 He2 Hku Hkd. destruct vlist_leads as (m & Hl & Hm).
  destruct (@vlist_inside m (e1 ++ [EText j2 (fst (split_at t k))]) (EText j2 (snd (split_at t k)) :: e2) ku kd init l0 r0 rest Hm He1 He2 Hku Hkd) as [Ha Hb].
  eapply open_window_text with (mid := e1) (j := j2) (t := t); try eassumption.
  - rewrite Hes, map_app, <- app_assoc. reflexivity.
  - rewrite map_app in Ha. exact Ha.
  - exact Hb.
Qed.

End PPeek12.
