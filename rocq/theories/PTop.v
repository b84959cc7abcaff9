(** pretty_print as a whole against the layout: the generic statement. *)
From Verif Require Export PFinal.

Set Implicit Arguments.

Section Top.
Context {pd : PrettyDoc} {env : Env} {ideq : IdEq pd}.

Variable P : failure (perr Er) -> Prop.
Hypothesis P_eol : P (FErr TextAfterEndOfLine).
Hypothesis P_ovf : ovf = true -> P (FPanic POverflow).
Variable Q : Id -> shape -> Prop.
Hypothesis Q_concat : forall j a b, Q j (SConcat a b) -> Q j a /\ Q j b.
Hypothesis Q_choice : forall j a b, Q j (SChoice a b) -> Q j a /\ Q j b.
Hypothesis Q_child : forall j n j' s, Q j (SChild n (Ok j') s) -> Q j' s.
Hypothesis Q_text : forall j t n, Q j (SText t) -> Q j (SText (snd (split_at t n))).
Variable NP : list nat -> Id -> Prop.
Hypothesis NP_child : forall q j n j' s, NP q j -> Q j (SChild n (Ok j') s) -> NP (q ++ [n]) j'.

Notation ritems := (ritems P Q).
Notation rblock := (rblock P Q).
Notation okpart := (okpart P Q).

Variable w : N.
Notation rp := (rp P Q w).
Notation vall := (vall w).
Notation start_at := (start_at NP).
Notation end_at := (end_at NP).

Lemma add16_wrap {X} a b : add16 (X := X) false a b = Ok ((a + b) mod U16)%N.
Proof.
  unfold add16. destruct (_ <? _)%N eqn:E; auto. apply N.ltb_lt in E. rewrite N.mod_small; auto.
Qed.

Lemma oadd16_split a b c : obind (oadd16 a b) (fun x => oadd16 x c) = oadd16 a (b + c).
Proof.
  assert (HU : U16 <> 0%N) by discriminate.
  unfold oadd16. destruct ovf.
  - unfold add16. destruct (a + b <? U16)%N eqn:E; cbn [to_option obind].
    + rewrite N.add_assoc. reflexivity.
    + apply N.ltb_ge in E. replace (a + (b + c) <? U16)%N with false by (symmetry; apply N.ltb_ge; lia). reflexivity.
  - rewrite !add16_wrap. cbn [to_option obind]. rewrite add16_wrap. cbn [to_option].
    rewrite N.add_mod_idemp_l, N.add_assoc; auto.
Qed.

(** Splitting a text in two does not change where the line gets to. *)
Lemma text_pos_split p t t1 t2 : (tx_width t1 + tx_width t2 = tx_width t)%N ->
  obind (text_pos p t1) (fun q => text_pos q t2) = text_pos p t.
Proof.
  destruct p as [l []]; auto. intros H. unfold text_pos. rewrite <- H, <- oadd16_split, !obind_assoc. reflexivity.
Qed.

Lemma text_pos_left p t t1 : (tx_width t1 <= tx_width t)%N -> text_pos p t1 = None -> text_pos p t = None.
Proof.
  destruct p as [l []]; simpl; auto. intros H. unfold oadd16, add16.
  destruct (l + tx_width t1 <? U16)%N eqn:E1; simpl; [discriminate|].
  apply N.ltb_ge in E1. replace (l + tx_width t <? U16)%N with false by (symmetry; apply N.ltb_ge; lia).
  destruct ovf; simpl; auto. discriminate.
Qed.

(** How the focus divides the trace [es] into [pre] and [post]. *)
Definition divided (ft : focus_target) (q : list nat) (es pre post : list event) : Prop :=
  match ft with
  | FStart => es = pre ++ post /\ start_at q pre
  | FEnd => es = pre ++ post /\ end_at q post
  | FMark => es = pre ++ post /\
      exists a mid j, pre = a ++ mid ++ [EMark j] /\ start_at q a /\ NP q j /\ ~ In (EMark j) mid
  | FText n => exists a mid j t rest, es = a ++ mid ++ EText j t :: rest /\
      pre = a ++ mid ++ [EText j (fst (split_at t n))] /\ post = EText j (snd (split_at t n)) :: rest /\
      start_at q a /\ existsb is_ftext mid = false /\ tx_from_text t = true
  end.

(** The widths of the two halves of a text add up (only needed for FText). *)
Definition splits (ft : focus_target) : Prop := forall m, ft = FText m -> forall j t n, Q j (SText t) -> tx_from_text t = true ->
  (tx_width (fst (split_at t n)) + tx_width (snd (split_at t n)) = tx_width t)%N.

(** From the focus on: what is observed. *)
Lemma observe_spec ft q V p gp g gn : splits ft ->
  rp p gp (g :: gn) -> focused Q NP w ft q V gp g gn ->
  exists r, ev (fun n => pp_tail n w p) r /\
    match r with
    | Ok (up, fl, down) =>
        exists ru rd, ev (fun n => collect n (up_next n) up) ru /\
                      ev (fun n => collect n (down_next n) down) rd /\
          (forall f, ru = Fail f -> P f) /\ (forall f, rd = Fail f -> P f) /\
          match V with
          | Some es => exists ups downs pre post, ru = Ok ups /\ rd = Ok downs /\
              divided ft q es pre post /\
              lines_of pre = rev ups ++ [left_segments fl] /\
              lines_from [] post = right_segments fl :: downs
          | None => is_ok ru = false \/ is_ok rd = false
          end
    | Fail f => P f /\ V = None
    end.
Proof.
  intros Q_split Hrp Hfoc.
  destruct (tail_spec P_eol P_ovf Q_concat Q_choice Q_child Hrp) as (r & Hev & Hr).
  exists r. split; [exact Hev|].
  (* the split block and the original one *)
  assert (Htext : forall n, ft = FText n -> exists gm mid j t a,
        V = vall gp (gm :: gn) /\
        oapp (vblocks w (rev gp)) (Some (g_done gm)) = oapp a (Some mid) /\
        (forall x, a = Some x -> start_at q x) /\
        existsb is_ftext mid = false /\ tx_from_text t = true /\
        g_done g = g_done gm ++ [EText j (fst (split_at t n))] /\
        (forall x, vblock w gm = Some x -> exists rest, x = g_done gm ++ EText j t :: rest /\
          vblock w g = Some (g_done g ++ EText j (snd (split_at t n)) :: rest)) /\
        (forall y, vblock w g = Some y -> exists z, vblock w gm = Some z)).
  { intros n ->. destruct Hfoc as (gm & mid & j & t & its & a & HV & Hpre & Hst & Hns & Hi & Ht & HQ & Hg).
    exists gm, mid, j, t, a. repeat (split; [solve [auto]|]).
    assert (Hd : g_done g = g_done gm ++ [EText j (fst (split_at t n))]).
    { rewrite Hg. unfold g_done, add_ev. simpl. rewrite app_assoc. reflexivity. }
    split; auto.
    assert (Hgi : g_items g = GI j (SText (snd (split_at t n))) :: its) by (rewrite Hg; reflexivity).
    unfold vblock. rewrite Hgi, Hi, !vfront_text, Hd, <- app_assoc.
    unfold vfront. simpl app. rewrite !prun_app.
    destruct (prun pos0 (g_done gm)) as [p0|]; simpl.
    2: { split; intros ?; discriminate. }
    pose proof (@text_pos_split p0 t _ _ (Q_split n eq_refl _ _ n HQ Ht)) as Hsp. rewrite obind_assoc.
    change (tx_width (fst (split_at t n))) with (str_width (firstn n (tx_str t))) in *.
    set (tl := Textual (firstn n (tx_str t)) (str_width (firstn n (tx_str t))) (tx_style t) (tx_from_text t)).
    set (tr := Textual (skipn n (tx_str t)) (str_width (skipn n (tx_str t))) (tx_style t) (tx_from_text t)).
    change (fst (split_at t n)) with tl in *. change (snd (split_at t n)) with tr in *.
    rewrite <- Hsp. rewrite !obind_assoc. destruct (text_pos p0 tl) as [p1|]; cbn [obind].
    2: { split; intros ?; discriminate. }
    destruct (text_pos p1 tr) as [p2|]; cbn [obind].
    2: { split; intros ?; discriminate. }
    destruct (rend_its w its look_end p2) as [[es p3]|]; cbn [obind].
    2: { split; intros ?; discriminate. }
    rewrite <- !app_assoc. simpl. split.
    - intros x [= <-]. exists es. rewrite <- ?app_assoc. split; reflexivity.
    - intros y _. eexists. reflexivity. }
  assert (HVg : vblock w g = None -> V = None).
  { intros H. destruct ft as [| | |n].
    - destruct Hfoc as [-> _]. apply vall_fail; auto.
    - destruct Hfoc as [-> _]. apply vall_fail; auto.
    - destruct Hfoc as [-> _]. apply vall_fail; auto.
    - destruct (Htext n eq_refl) as (gm & mid & j & t & a & -> & _ & _ & _ & _ & _ & Hx & _).
      apply vall_fail. destruct (vblock w gm) as [x|]; auto.
      destruct (Hx x eq_refl) as (rest & _ & H2). congruence. }
  destruct r as [[[up fl] down]|f].
  2: { destruct Hr as [HP HV]. auto. }
  destruct Hr as (ru & rd & Hu & Hd & Hru & Hrd). exists ru, rd. split; [exact Hu|]. split; [exact Hd|].
  split. { intros f ->. apply Hru. } split. { intros f ->. apply Hrd. }
  destruct V as [es|].
  - assert (Hparts : exists pre post, oapp (vblocks w (rev gp)) (Some (g_done g)) = Some pre /\
      vblocks w (g :: gn) = Some (g_done g ++ post) /\ divided ft q es pre post).
    { destruct ft as [| | |n].
      1-3: destruct Hfoc as [HV Hfoc]; symmetry in HV; rewrite vall_split in HV;
        apply oapp_some in HV as (x & y & Hx & Hy & ->);
        pose proof Hy as Hy0; apply oapp_some in Hy0 as (y1 & y2 & Hy1 & Hy2 & Ey);
        destruct (vfront_incl _ _ _ _ Hy1) as (e1 & E1);
        exists (x ++ g_done g), (e1 ++ y2); rewrite Hx; split; [reflexivity|];
        assert (Hg : vblocks w (g :: gn) = Some (g_done g ++ e1 ++ y2))
          by (cbn [vblocks]; rewrite Hy1, Hy2, E1; cbn [oapp obind]; rewrite <- app_assoc; reflexivity);
        split; [exact Hg|];
        specialize (Hfoc (x ++ g_done g) (e1 ++ y2)); rewrite Hx in Hfoc;
        specialize (Hfoc eq_refl Hg); subst y y1; (split; [rewrite <- !app_assoc; reflexivity|exact Hfoc]).
      destruct (Htext n eq_refl) as (gm & mid & j & t & a & HV & Hpre & Hst & Hns & Hft & Hdone & Hx & _).
      symmetry in HV. rewrite vall_split in HV.
      apply oapp_some in HV as (x & y & Hx1 & Hy & ->). apply oapp_some in Hy as (y1 & y2 & Hy1 & Hy2 & ->).
      apply Hx in Hy1 as (rest & -> & Hg).
      rewrite Hx1 in Hpre. simpl in Hpre. destruct a as [a|]; [|discriminate]. simpl in Hpre. injection Hpre as Hpre.
      exists (x ++ g_done g), (EText j (snd (split_at t n)) :: rest ++ y2). rewrite Hx1.
      split; [reflexivity|]. split.
      { cbn [vblocks]. rewrite Hg, Hy2. cbn [oapp obind]. rewrite <- app_assoc. reflexivity. }
      exists a, mid, j, t, (rest ++ y2). rewrite Hdone, !app_assoc, <- Hpre, <- !app_assoc.
      repeat (split; [solve [auto]|]). auto. }
    destruct Hparts as (pre & post & Hpre & Hpost & Hdiv).
    destruct ru as [ups|f].
    2: { destruct Hru as [_ Hru]. rewrite Hru in Hpre. discriminate. }
    destruct rd as [downs|f].
    2: { destruct Hrd as [_ Hrd]. rewrite Hrd in Hpost. discriminate. }
    destruct Hru as (pre' & Hpre' & Hl1). destruct Hrd as (post' & Hpost' & Hl2).
    rewrite Hpre in Hpre'. injection Hpre' as <-. rewrite Hpost in Hpost'. injection Hpost' as Hp.
    apply app_inv_head in Hp. subst post'. exists ups, downs, pre, post. auto 10.
  - destruct ru as [ups|f]; [|auto]. destruct rd as [downs|f]; [|auto].
    exfalso. destruct Hru as (pre & Hpre & _). destruct Hrd as (post & Hpost & _).
    apply oapp_some in Hpre as (x & y & Hx & _ & _).
    destruct ft as [| | |n].
    1-3: destruct Hfoc as [HV _]; rewrite vall_split, Hx in HV; cbn [vblocks] in Hpost; rewrite Hpost in HV; discriminate.
    destruct (Htext n eq_refl) as (gm & mid & j & t & a & HV & _ & _ & _ & _ & _ & _ & Hgm).
    rewrite vall_split, Hx in HV. cbn [vblocks] in Hpost.
    apply oapp_some in Hpost as (y1 & y2 & Hy1 & Hy2 & _). rewrite Hy2 in HV.
    assert (exists z, vblock w gm = Some z) as [z Hz].
    { eapply Hgm; eauto. }
    rewrite Hz in HV. discriminate.
Qed.

(** ** pretty_print *)

(** The root node's notation unfolds to this tree. *)
Definition doc_tree (doc : D) (st : option Sty) (root : pres Id * shape) : Prop :=
  match with_optional_style doc st with
  | Ok d => denotes d root
  | Fail f => fst root = Fail f
  end.

Definition root_ok (root : pres Id * shape) : Prop :=
  match root with
  | (Ok j, s) => okpart j s /\ NP [] j
  | (Fail f, _) => P f
  end.

(** Up to the focus. *)
Lemma pp_sought doc path ft st root :
  doc_tree doc st root -> root_ok root ->
  (exists p2 gp2 g2 gn2, rp p2 gp2 (g2 :: gn2) /\ focused Q NP w ft path (layout w root) gp2 g2 gn2 /\
     forall r, ev (fun n => pp_tail n w p2) r -> ev (fun n => pretty_print n doc w path ft st) r) \/
  (exists f, ev (fun n => pretty_print n doc w path ft st) (Fail f) /\
    ((P f /\ layout w root = None) \/
        (exists path1 i path2, path = path1 ++ i :: path2 /\ f = FErr (InvalidPath i) /\
          missing_child P Q NP w path1 i (layout w root)) \/
        (ft = FMark /\ f = FErr MissingFocusMark /\
           forall es, layout w root = Some es ->
           exists j a mid, es = a ++ mid /\ start_at path a /\ NP path j /\ ~ In (EMark j) mid) \/
        (exists n, ft = FText n /\ f = FErr MissingText /\
           forall es, layout w root = Some es ->
           exists a mid, es = a ++ mid /\ start_at path a /\ existsb is_ftext mid = false) \/
        (exists n, ft = FText n /\ P f /\ exists gp' gm gn' j2 t its,
           vall gp' (gm :: gn') = layout w root /\ g_items gm = GI j2 (SText t) :: its /\ tx_from_text t = true /\ Q j2 (SText t) /\
           prun pos0 (g_done gm ++ [EText j2 (fst (split_at t n))]) = None))).
Proof.
  intros Hdoc Hroot.
  assert (Heq : forall n, pretty_print n doc w path ft st =
    (p <- printer_new w ;; d <- with_optional_style doc st ;; c <- chunk_new d ;;
     y <- seek_path n p c path ;; p' <- focus_of n (fst y) (snd y) ft ;; pp_tail n w p')).
  { intros n. unfold pretty_print, seek. destruct (printer_new w) as [p|]; [|reflexivity]. cbn [bind].
    destruct (with_optional_style doc st) as [d|]; [|reflexivity]. cbn [bind].
    destruct (chunk_new d) as [c|]; [|reflexivity]. cbn [bind].
    destruct (seek_path n p c path) as [[p1 c1]|]; [|reflexivity]. cbn [bind fst snd].
    unfold focus_of, pp_tail. destruct ft; reflexivity. }
  assert (Hdone : forall r, ev (fun n => p <- printer_new w ;; d <- with_optional_style doc st ;; c <- chunk_new d ;;
     y <- seek_path n p c path ;; p' <- focus_of n (fst y) (snd y) ft ;; pp_tail n w p') r ->
     ev (fun n => pretty_print n doc w path ft st) r).
  { intros r H. eapply ev_ext; [|exact H]. intros; symmetry; apply Heq. }
  unfold doc_tree in Hdoc. destruct root as [i s]. simpl fst in Hdoc.
  change (printer_new w) with (Ok (X := perr Er) (Printer w [] [Block [] 0 false []])) in Hdone.
  cbn [bind] in Hdone.
  destruct (with_optional_style doc st) as [d|f] eqn:Ed.
  2: { right. exists f. split; [apply Hdone; ev_now|]. left. simpl in Hdoc. subst i. split; auto. }
  cbn [bind] in Hdone. destruct Hdoc as [Hid Hden]. simpl in Hid, Hden.
  destruct i as [j|f].
  2: { right. exists f. split; [|left; split; auto].
       apply Hdone. unfold chunk_new. rewrite Hid. ev_now. }
  destruct Hroot as [Hok HN].
  destruct (chunk_new_spec _ _ Hid Hden) as [(c & Ec & Hc & _)|(f & Ec & ->)].
  2: { right. exists f. split; [|left; split; [apply Hok|reflexivity]].
       apply Hdone. rewrite Ec. ev_now. }
  rewrite Ec in Hdone. cbn [bind] in Hdone.
  set (p0 := Printer w [] [Block [] 0 false []]) in *.
  set (g0 := GBlock None [] []).
  assert (An : at_node P Q NP w [] p0 c (layout w (Ok j, s)) [] g0 [] j s).
  { constructor; auto.
    - constructor; simpl; auto.
      constructor; [|constructor]. constructor; simpl; auto; try reflexivity. constructor.
    - left. simpl. auto.
    - unfold PSeek.vall. simpl. unfold vblock, vfront, g_done. simpl.
      rewrite oapp_nil_r. destruct (rend w s j look_end pos0) as [[es p']|]; simpl; auto.
      rewrite app_nil_r. reflexivity. }
  destruct (seek_path_spec P_eol P_ovf Q_concat Q_choice Q_child NP_child path An) as (r & Hev & Hr).
  destruct r as [[p1 c1]|f].
  2: { right. exists f. split.
       { apply Hdone. apply (ev_bind_fail (fun n y => p' <- focus_of n (fst y) (snd y) ft ;; pp_tail n w p')). exact Hev. }
       destruct Hr as [Hr|(path1 & i & path2 & -> & -> & Hm & _)]; [left; auto|].
       right; left. exists path1, i, path2. auto. }
  destruct Hr as (gp & g & gn & j1 & s1 & An1). cbn [app] in An1.
  destruct (focus_spec P_eol P_ovf Q_concat Q_choice Q_child Q_text ft An1) as (r & Hev1 & Hr1).
  assert (Hdone1 : forall r2, ev (fun n => p' <- focus_of n p1 c1 ft ;; pp_tail n w p') r2 ->
    ev (fun n => pretty_print n doc w path ft st) r2).
  { intros r2 H. apply Hdone.
    eapply (ev_bind_ok (fun n y => p' <- focus_of n (fst y) (snd y) ft ;; pp_tail n w p')); [exact Hev|]. exact H. }
  destruct r as [p2|f].
  - destruct Hr1 as (gp2 & g2 & gn2 & Hrp & Hfoc). left. exists p2, gp2, g2, gn2. split; auto. split; auto.
    intros r Hev2. apply Hdone1. eapply (ev_bind_ok (fun n p' => pp_tail n w p')); [exact Hev1|]. exact Hev2.
  - right. exists f. split.
    { apply Hdone1. apply (ev_bind_fail (fun n p' => pp_tail n w p')). exact Hev1. }
    destruct Hr1 as [Hr1|[(-> & -> & Hm)|[(n & -> & -> & Hm)|(n & -> & HP & Hx)]]]; auto.
    + right; right; left. split; auto. split; auto. intros es Hes. destruct (Hm es Hes) as (a & mid & H). eauto.
    + right; right; right; left. exists n. auto.
    + right; right; right; right. exists n. auto.
Qed.

Theorem pp_spec doc path ft st root :
  splits ft -> doc_tree doc st root -> root_ok root ->
  exists r, ev (fun n => pretty_print n doc w path ft st) r /\
    match r with
    | Ok (up, fl, down) =>
        exists ru rd, ev (fun n => collect n (up_next n) up) ru /\
                      ev (fun n => collect n (down_next n) down) rd /\
          (forall f, ru = Fail f -> P f) /\ (forall f, rd = Fail f -> P f) /\
          match layout w root with
          | Some es => exists ups downs pre post, ru = Ok ups /\ rd = Ok downs /\
              divided ft path es pre post /\
              lines_of pre = rev ups ++ [left_segments fl] /\
              lines_from [] post = right_segments fl :: downs
          | None => is_ok ru = false \/ is_ok rd = false
          end
    | Fail f =>
        (P f /\ layout w root = None) \/
        (exists path1 i path2, path = path1 ++ i :: path2 /\ f = FErr (InvalidPath i) /\
          missing_child P Q NP w path1 i (layout w root)) \/
        (ft = FMark /\ f = FErr MissingFocusMark /\
           forall es, layout w root = Some es ->
           exists j a mid, es = a ++ mid /\ start_at path a /\ NP path j /\ ~ In (EMark j) mid) \/
        (exists n, ft = FText n /\ f = FErr MissingText /\
           forall es, layout w root = Some es ->
           exists a mid, es = a ++ mid /\ start_at path a /\ existsb is_ftext mid = false)
    end.
Proof.
  intros Q_split Hdoc Hroot.
  destruct (@pp_sought doc path ft st root Hdoc Hroot) as [(p2 & gp2 & g2 & gn2 & Hrp & Hfoc & Hdone)|(f & Hev & Hr)].
  - destruct (observe_spec path (layout w root) Q_split Hrp Hfoc) as (r & Hev2 & Hr2).
    exists r. split; [auto|]. destruct r as [[[up fl] down]|f]; auto.
  - exists (Fail f). split; auto.
    destruct Hr as [Hr1|[Hr1|[Hr1|[Hr1|(n & -> & HP & gp' & gm & gn' & j2 & t & its & HV & Hi & Ht & HQ & Hpr)]]]]; auto.
    left. split; auto. transitivity (vall gp' (gm :: gn')); [symmetry; exact HV|]. apply vall_fail. unfold vblock. rewrite Hi, vfront_text.
    rewrite prun_app in Hpr. unfold vfront. rewrite prun_app.
    destruct (prun pos0 (g_done gm)) as [q|]; auto. cbn [obind prun] in *. cbn [pstep] in *.
    destruct (text_pos q (fst (split_at t n))) eqn:E; [discriminate|].
    rewrite (@text_pos_left q t (fst (split_at t n))); auto.
    pose proof (Q_split n eq_refl _ _ n HQ Ht). lia.
Qed.

(** Without any assumption about widths: the call and both iterators end. *)
Theorem pp_total doc path ft st root :
  doc_tree doc st root -> root_ok root ->
  exists r, ev (fun n => pretty_print n doc w path ft st) r /\
    match r with
    | Ok (up, fl, down) =>
        exists ru rd, ev (fun n => collect n (up_next n) up) ru /\
                      ev (fun n => collect n (down_next n) down) rd /\
          (forall f, ru = Fail f -> P f) /\ (forall f, rd = Fail f -> P f)
    | Fail f => P f \/ (exists i, In i path /\ f = FErr (InvalidPath i)) \/
        (ft = FMark /\ f = FErr MissingFocusMark) \/ (exists n, ft = FText n /\ f = FErr MissingText)
    end.
Proof.
  intros Hdoc Hroot.
  destruct (@pp_sought doc path ft st root Hdoc Hroot) as [(p2 & gp2 & g2 & gn2 & Hrp & Hfoc & Hdone)|(f & Hev & Hr)].
  - destruct (tail_spec P_eol P_ovf Q_concat Q_choice Q_child Hrp) as (r & Hev & Hr).
    exists r. split; [auto|]. destruct r as [[[up fl] down]|f]; [|left; apply Hr].
    destruct Hr as (ru & rd & Hu & Hd & Hru & Hrd). exists ru, rd. repeat (split; [solve [auto]|]).
    split; intros f ->; [apply Hru|apply Hrd].
  - exists (Fail f). split; auto.
    destruct Hr as [Hr1|[(path1 & i & path2 & -> & -> & _)|[(-> & -> & _)|[(n & -> & -> & _)|(n & -> & HP & _)]]]]; auto.
    + left. apply Hr1.
    + right; left. exists i. split; auto. apply in_or_app. right. left. reflexivity.
    + right; right; right. eauto.
Qed.

End Top.
