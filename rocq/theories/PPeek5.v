(** From the focus on, in documents with holes. *)
From Verif Require Export PPeek4 PMain.
From Verif Require Import SpecMask.

Set Implicit Arguments.

Section PPeek5.
Context {pd : PrettyDoc} {env : Env} {ideq : IdEq pd}.

Variable Q : Id -> shape -> Prop.
Hypothesis Q_concat : forall j a b, Q j (SConcat a b) -> Q j a /\ Q j b.
Hypothesis Q_choice : forall j a b, Q j (SChoice a b) -> Q j a /\ Q j b.
Hypothesis Q_child : forall j n j' s, Q j (SChild n (Ok j') s) -> Q j' s.
Variable w : N.

Notation prblock := (prblock Q).
Notation vbs := (vbs w).
Notation vb := (vb w).
Notation prp := (prp Q w).

Lemma Ev_inj (a b : list event) : map Ev a = map Ev b -> a = b.
Proof.
  revert b; induction a as [|e a IH]; intros [|e' b] H; simpl in H; try discriminate; auto.
  injection H as -> H. f_equal. auto.
Qed.

Lemma map_Ev_app (a : list event) x y : map Ev a = x ++ y -> exists b c, x = map Ev b /\ y = map Ev c /\ a = b ++ c.
Proof.
  revert x; induction a as [|e a IH]; intros x H.
  - destruct x; [|discriminate]. simpl in H. subst y. exists [], []. auto.
  - destruct x as [|p x]; simpl in H.
    + exists [], (e :: a). auto.
    + injection H as <- H. destruct (IH _ H) as (b & c & -> & -> & ->). exists (e :: b), c. auto.
Qed.

(** Known events at the start. *)
Lemma prefix_nonl A X es z : map Ev A ++ X = map Ev es ++ z -> no_newline A -> nsnl z ->
  exists es2, es = A ++ es2 /\ X = map Ev es2 ++ z.
Proof.
  intros E HA Hz. revert es E. unfold no_newline in HA. induction A as [|e A IH]; intros es E; simpl in *.
  - exists es. auto.
  - apply andb_true_iff in HA as [H1 H2]. destruct es as [|e' es]; simpl in E.
    + destruct Hz as [->|Hz]; [discriminate|]. subst z. simpl in Hz. destruct e; try contradiction. discriminate.
    + injection E as <- E. destruct (IH H2 es E) as (es2 & -> & ->). exists es2. auto.
Qed.

Lemma fk_known es z : nsnl z -> fk (map Ev es ++ z).
Proof.
  intros Hz. induction es as [|e es IH]; simpl; [|auto].
  destruct Hz as [->|Hz]; [exact I|]. destruct z as [|[[]|] z]; simpl in *; try contradiction. auto.
Qed.

Lemma lk_known_all es : lk (map Ev es).
Proof. unfold lk. rewrite <- map_rev, <- (app_nil_r (map Ev (rev es))). apply fk_known. left. reflexivity. Qed.

Lemma lk_known_nl z ind es : lk (z ++ Ev (ENewline ind) :: map Ev es).
Proof.
  unfold lk. rewrite rev_app_distr. simpl. rewrite <- map_rev, <- app_assoc. apply fk_known. right. exact I.
Qed.

Lemma above_lk x k ups l : above x k ups l -> lk x.
Proof.
  intros [(u & all & -> & _)|(z & ind & u & -> & _)]; [apply lk_known_all|apply lk_known_nl].
Qed.

Lemma below_fk x y k r ds : below (x ++ y) k r ds -> fk x.
Proof.
  intros [(d & all & E & _)|(d & ind & z & E & _)]; apply (@fk_app_l _ x y); rewrite E.
  - rewrite <- (app_nil_r (map Ev d)). apply fk_known. left. reflexivity.
  - apply fk_known. right. exact I.
Qed.

Lemma nsnl_ev es z : nsnl (map Ev es ++ z) -> es = [] \/ exists ind es', es = ENewline ind :: es'.
Proof.
  intros [H|H]; destruct es as [|e es]; auto; [discriminate|]. simpl in H. destruct e; try contradiction. eauto.
Qed.

Lemma lines_nsnl es cur : es = [] \/ (exists ind es', es = ENewline ind :: es') ->
  exists ls, forall cur', lines_from cur' es = cur' :: ls /\ ls = tl (lines_from cur es).
Proof. intros [->|(ind & es' & ->)]; simpl; eexists; intros; split; reflexivity. Qed.

(** ** Upward *)

Definition upk (gp : list gblock) (x : list pev) (k : nat) (ups : list line) : Prop :=
  (exists es all, x = map Ev es /\ ups_ok gp es all /\ ups = firstn k all) \/
  (exists z ind es, x = z ++ Ev (ENewline ind) :: map Ev es /\ lines_from (rev ind) es = rev ups /\ length ups = k) \/
  (k = 0 /\ ups = []).

Lemma lines_snoc es g cur : has_head g -> no_newline (g_body g) ->
  lines_from cur (es ++ g_done g) = lines_from cur es ++ [g_segs g].
Proof.
  intros Hh Hn. destruct (lines_app es (g_done g) cur) as (l & ls & H1 & H2). rewrite H2, H1.
  rewrite <- (app_nil_r (g_done g)), lines_done_head by auto. simpl. rewrite <- app_assoc. reflexivity.
Qed.

Lemma done_nonl g : g_head g = None -> no_newline (g_body g) -> no_newline (g_done g).
Proof. intros H Hn. unfold g_done. rewrite H. exact Hn. Qed.

Lemma upk_split gp g k ups l :
  heads_ok None (rev gp ++ [g]) -> no_newline (g_body g) ->
  above (vbs (rev gp) ++ map Ev (g_done g)) k ups l ->
  l = g_segs g /\ upk gp (vbs (rev gp)) k ups.
Proof.
  intros Hh Hn [(u & all & E & Hl & Hu)|(z & ind & u & E & Hl & Hk)].
  - symmetry in E. apply map_Ev_app in E as (es & d & E1 & E2 & ->). apply Ev_inj in E2. subst d.
    assert (Hok : exists ups', ups_ok gp es ups').
    { destruct gp as [|g0 gp].
      - exists []. left. simpl in E1. destruct es; [auto|discriminate].
      - exists (rev (lines_of es)). right. split; [discriminate|]. rewrite rev_involutive. reflexivity. }
    destruct Hok as (ups' & Hok). pose proof (ups_line _ Hh Hn Hok) as Hl2. rewrite Hl2 in Hl.
    apply app_inj_tail in Hl as [Hl ->]. split; [reflexivity|].
    apply (f_equal (@rev _)) in Hl. rewrite !rev_involutive in Hl. subst all.
    left. exists es, ups'. auto.
  - destruct (rev gp) as [|g0 gs] eqn:Eg.
    + (* the first block *)
      exfalso. cbn [PPeek1.vbs flat_map app] in E. simpl in Hh. destruct Hh as [Hh _].
      pose proof (done_nonl g Hh Hn) as Hnn. unfold no_newline in Hnn. rewrite forallb_forall in Hnn.
      assert (Hin : In (Ev (ENewline ind)) (map Ev (g_done g))).
      { rewrite E. apply in_or_app. right. left. reflexivity. }
      apply in_map_iff in Hin as (e & E2 & Hin). injection E2 as ->. apply Hnn in Hin. discriminate.
    + assert (Hg : has_head g).
      { simpl in Hh. destruct Hh as [_ Hh]. apply Forall_app in Hh as [_ Hh]. inversion Hh; auto. }
      rewrite <- Eg in *. clear Eg.
      change (Ev (ENewline ind) :: map Ev u) with (map Ev (ENewline ind :: u)) in E.
      destruct (app_eq_app _ _ _ _ E) as (x & [[E1 E2]|[E1 E2]]).
      * (* the known events go beyond this block *)
        change (Ev (ENewline ind) :: map Ev u) with (map Ev (ENewline ind :: u)) in E2.
        apply map_Ev_app in E2 as (es & d & -> & E3 & E4). apply Ev_inj in E3. subst d.
        destruct es as [|e es]; simpl in E4.
        -- (* exactly this block *)
           assert (Hs : lines_from (rev ind) u = [g_segs g]).
           { pose proof (@lines_done_head _ g [] [] Hg Hn) as H. rewrite app_nil_r, <- E4 in H.
             cbn [lines_from] in H. injection H as H. exact H. }
           rewrite Hs in Hl. destruct ups as [|u0 ups].
           ++ simpl in Hl. injection Hl as ->. split; [reflexivity|]. right; right. simpl in Hk. auto.
           ++ exfalso. simpl in Hl. apply (f_equal (@length _)) in Hl. rewrite !app_length in Hl. simpl in Hl. lia.
        -- injection E4 as <- E4. subst u. rewrite lines_snoc in Hl by auto.
           apply app_inj_tail in Hl as [Hl ->]. split; [reflexivity|].
           right; left. exists z, ind, es. auto.
      * (* the known events start inside this block *)
        destruct x as [|e x].
        { (* exactly this block, again *)
          simpl in E2. change (Ev (ENewline ind) :: map Ev u) with (map Ev (ENewline ind :: u)) in E2.
          apply Ev_inj in E2. 
           assert (Hs : lines_from (rev ind) u = [g_segs g]).
           { pose proof (@lines_done_head _ g [] [] Hg Hn) as H. rewrite app_nil_r, E2 in H.
             cbn [lines_from] in H. injection H as H. exact H. }
           rewrite Hs in Hl. destruct ups as [|u0 ups].
           ++ simpl in Hl. injection Hl as ->. split; [reflexivity|]. right; right. simpl in Hk. auto.
           ++ exfalso. simpl in Hl. apply (f_equal (@length _)) in Hl. rewrite !app_length in Hl. simpl in Hl. lia. }
        exfalso. unfold has_head in Hg. unfold g_done in E2. destruct (g_head g) as [ind0|]; [|congruence].
        simpl in E2. injection E2 as _ E2. unfold no_newline in Hn. rewrite forallb_forall in Hn.
        assert (Hin : In (Ev (ENewline ind)) (map Ev (g_body g))).
        { rewrite E2. apply in_or_app. right. left. reflexivity. }
        apply in_map_iff in Hin as (e2 & E3 & Hin). injection E3 as ->. apply Hn in Hin. discriminate.
Qed.

Lemma upk_above gp x k ups : gp <> [] -> upk gp x (S k) ups ->
  exists l ups', ups = l :: ups' /\ above x k ups' l.
Proof.
  intros Hne [(es & all & -> & Hok & ->)|[(z & ind & es & -> & Hl & Hk)|[H _]]]; [| |discriminate].
  - destruct Hok as [[H _]|[_ Hl]]; [contradiction|].
    destruct all as [|l all].
    { exfalso. unfold lines_of in Hl. destruct (lines_app es [] []) as (l0 & ls & H1 & _).
      rewrite H1 in Hl. destruct ls; discriminate. }
    exists l, (firstn k all). split; [reflexivity|]. left. exists es, all. auto.
  - destruct ups as [|l ups]; [discriminate|]. exists l, ups. split; auto. right.
    exists z, ind, es. simpl in Hk. split; auto.
Qed.

Lemma upk_nil x k ups : upk [] x k ups -> x = [] -> ups = [].
Proof.
  intros [(es & all & -> & Hok & ->)|[(z & ind & es & -> & Hl & Hk)|[_ H]]] E; auto.
  - destruct Hok as [(_ & _ & ->)|[H _]]; [destruct k; reflexivity|congruence].
  - destruct z; discriminate.
Qed.

Lemma upk_O gp x ups : upk gp x 0 ups -> ups = [].
Proof.
  intros [(es & all & _ & _ & ->)|[(z & ind & es & _ & _ & Hk)|[_ H]]]; auto. destruct ups; [auto|discriminate].
Qed.

Lemma ptake_up : forall k gp p ups,
  pr_width p = w -> Forall2 prblock (pr_prev p) gp -> heads0 (rev gp) -> upk gp (vbs (rev gp)) k ups ->
  ev (fun n => take_lines (up_next n) k p) (Ok ups).
Proof.
  induction k as [|k IH]; intros gp p ups Hw Hn Hh Hu.
  { apply upk_O in Hu. subst ups. cbn [take_lines]. ev_now. }
  inversion Hn as [E1 E2|b g bs gs' Hb Hn' E1 E2]; subst gp.
  - apply upk_nil in Hu; [|reflexivity]. subst ups. exists 0. intros n _. cbn [take_lines].
    unfold up_next, print_prev_line. rewrite <- E1. reflexivity.
  - symmetry in E1.
    assert (Hh0 : heads_ok None (rev gs' ++ [g])).
    { destruct Hh as [Hh|Hh]; simpl in Hh; auto. apply app_eq_nil in Hh as [_ Hh]. discriminate. }
    apply upk_above in Hu as (l & ups' & -> & Ha); [|discriminate].
    assert (Ex : vbs (rev (g :: gs')) = vbs (rev gs') ++ vb g).
    { simpl. rewrite vbs_app. cbn [PPeek1.vbs flat_map]. rewrite app_nil_r. reflexivity. }
    rewrite Ex in Ha. pose proof (above_lk Ha) as Hlk. apply lk_app_r in Hlk.
    destruct (pprint_prev_line Q_concat Q_choice Q_child p E1 Hw Hb Hlk) as (g' & nbs & gnb & Hev & Hnb & Hhd & Hnl & Hv & Hz).
    assert (Hh1 : heads_ok None (rev (gnb ++ gs') ++ [g'])).
    { rewrite rev_app_distr, <- app_assoc. eapply heads_ok_trans; eauto. }
    rewrite <- Hv, app_assoc, <- vbs_app, <- rev_app_distr in Ha.
    destruct (upk_split _ _ Hh1 Hnl Ha) as [-> Hu].
    cbn [take_lines].
    eapply (ev_bind_ok (fun n x => match x with (p, ol) => _ end)); [exact Hev|]. cbv beta iota.
    eapply (ev_bind_ok (fun n ls => Ok (g_segs g' :: ls))); [|ev_now].
    apply (IH (gnb ++ gs')); auto.
    + simpl. apply Forall2_app; auto.
    + eapply heads0_prefix; eauto.
Qed.

(** ** Downward *)

Definition dnk (x : list pev) (k : nat) (downs : list line) : Prop :=
  exists d z, x = map Ev d ++ z /\
    ((z = [] /\ exists all, lines_from [] d = [] :: all /\ downs = firstn k all) \/
     (snl z /\ lines_from [] d = [] :: downs /\ length downs = k)).

Lemma dnk_split es x k r downs : no_newline es -> nsnl x ->
  below (map Ev es ++ x) k r downs -> r = texts es /\ dnk x k downs.
Proof.
  intros Hn Hx [(d & all & E & Hl & ->)|(d & ind & z & E & Hl & Hk)].
  - rewrite <- (app_nil_r (map Ev d)) in E. apply prefix_nonl in E as (d2 & -> & ->); [|auto|left; reflexivity].
    rewrite lines_nonl in Hl by auto. simpl app in Hl.
    destruct (lines_nsnl [] (nsnl_ev _ _ Hx)) as (ls & Hls).
    rewrite (proj1 (Hls _)) in Hl. injection Hl as <- <-. split; [reflexivity|].
    exists d2, []. split; auto. left. split; auto. exists ls. split; auto. apply Hls.
  - apply prefix_nonl in E as (d2 & -> & ->); [|auto|right; exact I].
    rewrite lines_nonl in Hl by auto. simpl app in Hl.
    destruct (lines_nsnl [] (nsnl_ev _ _ Hx)) as (ls & Hls).
    rewrite (proj1 (Hls _)) in Hl. injection Hl as <- <-. split; [reflexivity|].
    exists d2, (Ev (ENewline ind) :: z). split; auto. right. split; [exact I|]. split; auto. apply Hls.
Qed.

Lemma dnk_head g x k downs : has_head g -> no_newline (g_body g) -> dnk (map Ev (g_done g) ++ x) (S k) downs ->
  (x = [] \/ nsnl x \/ True) ->
  exists l ds, downs = l :: ds /\
    ((exists d all, x = map Ev d /\ lines_from (g_segs g) d = l :: all /\ ds = firstn k all) \/
     (exists d z, x = map Ev d ++ z /\ snl z /\ lines_from (g_segs g) d = l :: ds /\ length ds = k)).
Proof.
  intros Hg Hn (d & z & E & H) _.
  assert (Hgd := Hg). unfold has_head in Hg. destruct (g_head g) as [ind|] eqn:Eh; [|congruence].
  assert (Ed : g_done g = ENewline ind :: g_body g) by (unfold g_done; rewrite Eh; reflexivity).
  rewrite Ed in E. cbn [map app] in E.
  assert (Hz : nsnl z). { destruct H as [[-> _]|[H _]]; [left; reflexivity|right; exact H]. }
  destruct d as [|e d].
  - simpl in E. subst z. exfalso. destruct H as [[H _]|(_ & H1 & H2)]; [discriminate|].
    simpl in H1. injection H1 as <-. discriminate.
  - simpl in E. injection E as <- E. apply prefix_nonl in E as (d2 & -> & ->); auto.
    assert (El : lines_from [] (ENewline ind :: g_body g ++ d2) = [] :: lines_from (g_segs g) d2).
    { cbn [lines_from]. rewrite lines_nonl by auto. unfold g_segs. rewrite Eh. reflexivity. }
    rewrite El in H.
    destruct (lines_from (g_segs g) d2) as [|l all] eqn:El2.
    { exfalso. destruct (lines_app d2 [] (g_segs g)) as (l0 & ls & H1 & _). rewrite H1 in El2. destruct ls; discriminate. }
    destruct H as [[-> (all' & H1 & ->)]|(Hs & H1 & H2)].
    + injection H1 as <-. exists l, (firstn k all). split; [reflexivity|]. left. exists d2, all.
      rewrite app_nil_r. auto.
    + injection H1 as <-. exists l, all. split; [reflexivity|]. right. exists d2, z. simpl in H2. auto.
Qed.

Lemma ptake_down : forall k gs p downs,
  pr_width p = w -> Forall2 prblock (pr_next p) gs -> Forall has_head gs -> dnk (vbs gs) k downs ->
  ev (fun n => take_lines (down_next n) k p) (Ok downs).
Proof.
  induction k as [|k IH]; intros gs p downs Hw Hn Hh Hd.
  { destruct Hd as (d & z & _ & [[_ (all & _ & ->)]|(_ & _ & Hk)]).
    - rewrite firstn_O. cbn [take_lines]. ev_now.
    - destruct downs; [|discriminate]. cbn [take_lines]. ev_now. }
  inversion Hn as [E1 E2|b g bs gs' Hb Hn' E1 E2]; subst gs.
  - destruct Hd as (d & z & E & Hd). cbn [PPeek1.vbs flat_map] in E. symmetry in E. apply app_eq_nil in E as [E3 ->].
    destruct d; [|discriminate]. destruct Hd as [[_ (all & Hl & ->)]|[Hs _]]; [|contradiction].
    simpl in Hl. injection Hl as <-. simpl firstn. exists 0. intros n _. cbn [take_lines].
    unfold down_next, print_next_line. rewrite <- E1. reflexivity.
  - symmetry in E1. pose proof (Forall_inv Hh) as Hg. pose proof (Forall_inv_tail Hh) as Hgs.
    cbn [PPeek1.vbs flat_map] in Hd.
    assert (Hk : fk (tl_of w b g)).
    { rewrite (vb_tl w Hb), <- app_assoc in Hd. apply dnk_head in Hd; auto; [|apply Hb].
      destruct Hd as (l & ds & _ & [(d & all & E & _)|(d & z & E & Hz & _)]);
        eapply fk_app_l; rewrite E.
      - rewrite <- (app_nil_r (map Ev d)). apply fk_known. left. reflexivity.
      - apply fk_known. right. exact Hz. }
    destruct (pprint_next_line Q_concat Q_choice Q_child p E1 Hw Hb Hk)
      as (g' & nbs & gnb & es & Hev & Hnb & Hfr & Hhd & Hbd & Hnl & Hv & Hz).
    assert (Hg' : has_head g') by (unfold has_head in *; congruence).
    rewrite <- Hv, <- app_assoc in Hd. fold (vbs gs') in Hd.
    change (flat_map vb gs') with (vbs gs') in Hd. rewrite <- vbs_app in Hd.
    assert (Hhs : Forall has_head (gnb ++ gs')).
    { apply Forall_app. split; auto. apply fresh_heads; auto. }
    apply dnk_head in Hd as (l & ds & -> & Hd); auto.
    assert (Hdl : l = g_segs g' /\ dnk (vbs (gnb ++ gs')) k ds).
    { pose proof (vbs_nsnl w Hhs) as Hns.
      destruct Hd as [(d & all & E & Hl & ->)|(d & z & E & Hs & Hl & Hkk)];
        change (PPeek1.vbs w (gnb ++ gs')) with (vbs (gnb ++ gs')) in Hns; rewrite E in Hns |- *.
      - rewrite <- (app_nil_r (map Ev d)) in Hns.
        destruct (lines_nsnl [] (nsnl_ev _ _ Hns)) as (ls & Hls).
        rewrite (proj1 (Hls _)) in Hl. injection Hl as <- <-. split; auto.
        exists d, []. rewrite app_nil_r. split; auto. left. split; auto. exists ls. split; auto. apply Hls.
      - destruct (lines_nsnl [] (nsnl_ev _ _ Hns)) as (ls & Hls).
        rewrite (proj1 (Hls _)) in Hl. injection Hl as <- <-. split; auto.
        exists d, z. split; auto. right. split; auto. split; auto. apply Hls. }
    destruct Hdl as [-> Hd'].
    cbn [take_lines].
    eapply (ev_bind_ok (fun n x => match x with (p, ol) => _ end)); [exact Hev|]. cbv beta iota.
    eapply (ev_bind_ok (fun n ls => Ok (g_segs g' :: ls))); [|ev_now].
    apply (IH (gnb ++ gs')); auto.
    simpl. apply Forall2_app; auto.
Qed.

(** ** The end of pretty_print *)

Lemma ptail p b bs gp g gn ku kd ups downs l r :
  prp p gp (g :: gn) -> pr_next p = b :: bs ->
  above (vbs (rev gp) ++ map Ev (g_done g)) ku ups l ->
  below (tl_of w b g ++ vbs gn) kd r downs ->
  exists up down,
    ev (fun n => pp_tail n w p) (Ok (up, FocusedLine l r, down)) /\
    ev (fun n => take_lines (up_next n) ku up) (Ok ups) /\
    ev (fun n => take_lines (down_next n) kd down) (Ok downs).
Proof.
  intros [Hw Hp Hn Hh Hf] E1 Ha Hb0.
  rewrite E1 in Hn. inversion Hn as [|b0 g0 bs0 gn0 Hb Hn' E3 E4]. subst b0 g0 bs0 gn0.
  destruct (heads_ok_one _ _ _ Hh) as [Hh1 Hh2].
  destruct (pprint_next_line Q_concat Q_choice Q_child p E1 Hw Hb (below_fk _ _ Hb0))
    as (g' & nbs & gnb & es & Hev & Hnb & Hfr & Hhd & Hbd & Hnl & Hv & Hz).
  assert (Hsegs : g_segs g' = g_segs g ++ texts es).
  { unfold g_segs. rewrite Hhd, Hbd. unfold texts. rewrite flat_map_app, app_assoc. reflexivity. }
  assert (Hnl1 : no_newline (g_body g)) by apply Hb.
  assert (Hnl2 : no_newline es).
  { unfold no_newline in *. rewrite Hbd, forallb_app in Hnl. apply andb_true_iff in Hnl. apply Hnl. }
  assert (Et : tl_of w b g = map Ev es ++ vbs gnb).
  { rewrite (vb_tl w Hb) in Hv.
    assert (Ed : g_done g' = g_done g ++ es).
    { unfold g_done. rewrite Hhd, Hbd, <- app_assoc. reflexivity. }
    rewrite Ed, map_app, <- app_assoc in Hv. apply app_inv_head in Hv. symmetry. exact Hv. }
  assert (Hgs : Forall has_head (gnb ++ gn)).
  { apply Forall_app. split; auto. apply fresh_heads; auto. }
  destruct (upk_split _ _ Hh1 Hnl1 Ha) as [-> Hu].
  rewrite Et, <- app_assoc, <- vbs_app in Hb0.
  destruct (dnk_split Hnl2 (vbs_nsnl w Hgs) Hb0) as [-> Hd].
  exists (Printer w (pr_prev p) []), (Printer w [] (nbs ++ bs)). split; [|split].
  - unfold pp_tail. rewrite E1. cbv zeta.
    eapply (ev_bind_ok (fun n x => match x with (p, ol) => _ end)); [exact Hev|].
    cbv beta iota. rewrite (prb_segs Hb), Hsegs, app_length.
    replace (length (g_segs g) <=? length (g_segs g) + length (texts es)) with true
      by (symmetry; apply Nat.leb_le; lia).
    rewrite firstn_app, skipn_app, Nat.sub_diag, firstn_all, skipn_all. simpl. rewrite app_nil_r. ev_now.
  - apply ptake_up with (gp := gp); auto. eapply heads0_prefix; eauto.
  - apply ptake_down with (gs := gnb ++ gn); auto. simpl. apply Forall2_app; auto.
Qed.

End PPeek5.
