(** The oracle's layout is the printer's layout. *)
From Verif Require Export POracle.

Set Implicit Arguments.

Section Good.
Context {pd : PrettyDoc} {env : Env}.

(** Trees whose recorded widths are the widths of the strings; either all texts
    have positive width ([mode = true]) or there is no EndOfLine.  [T] bounds
    the widths of texts. *)
Variable mode : bool.
Variable T : N.

Definition seg_ok (g : segment) : Prop := seg_width g = str_width (seg_str g).

Fixpoint gs (s : shape) : Prop :=
  match s with
  | SText t => tx_width t = str_width (tx_str t) /\ (mode = true -> (0 < tx_width t)%N) /\ (tx_width t <= T)%N
  | SNewline ind => Forall seg_ok ind
  | SEol => mode = true
  | SConcat a b | SChoice a b => gs a /\ gs b
  | SChild _ i s' => (exists j, i = Ok j) /\ gs s'
  | _ => True
  end.

(** From documents. *)
Definition text_ok (t : str) : Prop := (mode = true -> (0 < str_width t)%N) /\ (str_width t <= T)%N.
Definition gctx (c : ctx) : Prop := Forall seg_ok (x_ind c).

Definition note_ok (n : note) : Prop := Forall text_ok (note_literals n) /\ (mode = false -> note_has_eol n = false).

Definition gkid (k : kid) : Prop := forall c, gctx c -> gs (k_tree k c).
Definition genv (fe : option foldenv) : Prop :=
  match fe with Some e => (forall c, gctx c -> gs (fe_left e c)) /\ gkid (fe_right e) | None => True end.

Lemma gs_child n k c : gkid k -> gctx c -> gs (child n k c).
Proof. intros Hk Hc. unfold child. simpl. split; eauto. Qed.

Lemma gs_fold (join : foldenv -> ctx -> shape) : (forall e c, genv (Some e) -> gctx c -> gs (join e c)) ->
  forall ks i prev acc, Forall gkid ks -> (forall c, gctx c -> gs (acc c)) -> forall c, gctx c ->
  gs (fold_kids join i prev ks acc c).
Proof.
  intros Hj. induction ks as [|k ks IH]; intros i prev acc Hks Ha c Hc; simpl; auto.
  inversion Hks; subst. apply IH; auto. intros c' Hc'. apply Hj; auto. split; auto.
Qed.

Lemma note_ok2 (f : note -> note -> note) a b : (note_literals (f a b) = note_literals a ++ note_literals b) ->
  (note_has_eol (f a b) = note_has_eol a || note_has_eol b) -> note_ok (f a b) -> note_ok a /\ note_ok b.
Proof.
  intros E1 E2 [H1 H2]. rewrite E1 in H1. rewrite E2 in H2. apply Forall_app in H1 as [Ha Hb].
  split; split; auto; intros Hm; specialize (H2 Hm); apply orb_false_iff in H2; tauto.
Qed.

Lemma gs_note self kids n : Forall gkid kids -> (forall i s, self = RText i s -> text_ok s) ->
  forall fe c, note_ok n -> genv fe -> gctx c -> gs (elab_note self kids n fe c).
Proof.
  intros Hk Hs.
  induction n as [| | |s| |n IH|pre l n IH|a IHa b IHb|a IHa b IHb|cd ps a IHa b IHb|i|l n IH| |z IHz o IHo m IHm|f IHf jn IHj| |];
    intros fe c Hn He Hc; cbn [elab_note]; cbv zeta; cbn [gs]; auto.
  - destruct Hn as [_ H]. simpl in H. destruct mode; auto. exfalso. discriminate H. reflexivity.
  - destruct Hn as [H _]. inversion H as [|? ? [H1 H2] _]; subst. auto.
  - destruct self eqn:E; cbn [gs]; auto. destruct (Hs _ _ eq_refl) as [H1 H2]. auto.
  - apply IH; auto. unfold gctx, in_indent. simpl. constructor; auto. reflexivity.
  - apply (note_ok2 (@Concat _ _)) in Hn as [Ha Hb]; auto.
  - apply (note_ok2 (@Choice _ _)) in Hn as [Ha Hb]; auto. destruct (x_flat c); cbn [gs]; auto.
  - apply (note_ok2 (@Check _ _ cd ps)) in Hn as [Ha Hb]; auto.
    assert (Hgo : forall x, gs (if i_cond (r_info x) cd then elab_note self kids a fe c else elab_note self kids b fe c)).
    { intros x. destruct (i_cond _ cd); auto. }
    destruct ps as [|k| |]; auto.
    + destruct self; simpl; auto. destruct (kid_number _ _); simpl; auto. destruct (nth_error kids n); simpl; auto.
    + destruct fe; simpl; auto.
    + destruct fe; simpl; auto.
  - destruct self; simpl; auto. destruct (kid_number _ _); simpl; auto. destruct (nth_error kids n) eqn:E; simpl; auto.
    apply gs_child; auto. apply nth_error_In in E. rewrite Forall_forall in Hk. auto.
  - destruct Hn as [H1 H2]. simpl in H1, H2. apply Forall_app in H1 as [L1 H1]. apply Forall_app in H1 as [L2 L3].
    assert (E : mode = false -> note_has_eol z = false /\ note_has_eol o = false /\ note_has_eol m = false).
    { intros Hm. specialize (H2 Hm). rewrite !orb_false_iff in H2. tauto. }
    assert (G1 : gs (elab_note self kids z fe c)) by (apply IHz; auto; split; auto; intros; apply E; auto).
    assert (G2 : gs (elab_note self kids o fe c)) by (apply IHo; auto; split; auto; intros; apply E; auto).
    assert (G3 : gs (elab_note self kids m fe c)) by (apply IHm; auto; split; auto; intros; apply E; auto).
    destruct self; simpl; auto. destruct kids as [|? [|]]; auto.
  - apply (note_ok2 (@Fold _ _)) in Hn as [Ha Hb]; auto. destruct self; simpl; auto. destruct kids as [|k ks]; simpl; auto.
    inversion Hk; subst. apply gs_fold; auto. intros. apply IHf; auto. exact I.
  - destruct fe as [e|]; [apply (proj1 He); auto|exact I].
  - destruct fe as [e|]; [apply gs_child; [apply (proj2 He)|auto]|exact I].
Qed.

Definition gdoc (r : rdoc) : Prop := Forall text_ok (doc_texts r) /\ (mode = false -> doc_has_eol r = false).

Lemma gs_elab r : gdoc r -> forall c, gctx c -> gs (elab r c).
Proof.
  induction r as [i s|i ks IH] using rdoc_ind'; intros [H1 H2] c Hc; simpl in *.
  - inversion H1; subst. apply gs_note; simpl; auto.
    + intros ? ? [= <- <-]. auto.
    + split; auto.
  - apply Forall_app in H1 as [Hn Hk]. apply gs_note; simpl; auto.
    + rewrite Forall_forall in *. intros k Hin. apply in_map_iff in Hin as (x & <- & Hx). intros c' Hc'. simpl. apply IH; auto.
      split.
      * rewrite Forall_forall. intros t Ht. apply Hk. apply in_flat_map. eauto.
      * intros Hm. specialize (H2 Hm). apply orb_false_iff in H2 as [_ H2]. destruct (doc_has_eol x) eqn:E; auto.
        exfalso. assert (existsb doc_has_eol ks = true) by (apply existsb_exists; eauto). congruence.
    + discriminate.
    + split; auto. intros Hm. specialize (H2 Hm). apply orb_false_iff in H2. tauto.
Qed.

(** ** Lookahead *)
Definition okf (suf : option N) (rem : N) (eol : bool) : bool :=
  match suf with None => false | Some n => (n <=? rem)%N && (negb eol || (n =? 0)%N) end.

Definition suits (k : look) (suf : option N) : Prop :=
  forall rem eol, (rem < MAX_WIDTH)%N -> (mode = false -> eol = false) -> k rem eol = Some (okf suf rem eol).

Lemma suits_capped k suf : suits k suf -> suits k (capped suf).
Proof.
  intros H rem eol Hr He. rewrite H by auto. destruct suf as [n|]; simpl; auto. f_equal.
  destruct (N.min_spec n MAX_WIDTH) as [[Hl ->]|[Hl ->]]; auto.
  replace (n <=? rem)%N with false by (symmetry; apply N.leb_gt; lia).
  replace (MAX_WIDTH <=? rem)%N with false by (symmetry; apply N.leb_gt; lia). reflexivity.
Qed.

Lemma suits_end : suits look_end (Some 0%N).
Proof. intros rem eol _ _. unfold look_end, okf. rewrite N.eqb_refl, orb_true_r. replace (0 <=? rem)%N with true by (symmetry; apply N.leb_le; lia). reflexivity. Qed.

Lemma suits_fits s : forall k suf r, gs s -> ofl s suf = Some r -> suits k suf -> suits (fits_s s k) r.
Proof.
  induction s as [f| | |ind|t|a IHa b IHb|a IHa b IHb|m i' s IH|]; intros k suf r Hg H Hk; cbn [ofl] in H; cbn [gs] in Hg.
  - discriminate.
  - injection H as <-. exact Hk.
  - intros rem eol Hr He. cbn [fits_s]. rewrite Hk; auto; [|congruence]. f_equal.
    destruct suf as [n|]; [|injection H as <-; reflexivity]. destruct (n =? 0)%N eqn:E; injection H as <-; unfold okf; rewrite ?E; simpl.
    + apply N.eqb_eq in E. subst. rewrite !orb_true_r. reflexivity.
    + apply andb_false_r.
  - injection H as <-. intros rem eol _ _. unfold okf. simpl. rewrite orb_true_r.
    replace (0 <=? rem)%N with true by (symmetry; apply N.leb_le; lia). reflexivity.
  - destruct Hg as (Hw & Hp & _). intros rem eol Hr He. cbn [fits_s].
    destruct suf as [n|].
    + destruct (_ <? U16)%N; [|discriminate]. injection H as <-. unfold okf. destruct eol; simpl.
      * assert (mode = true) as Hm by (destruct mode; auto; specialize (He eq_refl); discriminate).
        specialize (Hp Hm). replace (tx_width t + n =? 0)%N with false by (symmetry; apply N.eqb_neq; lia). rewrite andb_false_r. reflexivity.
      * rewrite andb_true_r. destruct (tx_width t <=? rem)%N eqn:E.
        -- apply N.leb_le in E. rewrite Hk by (auto; lia). unfold okf. simpl. rewrite andb_true_r. f_equal.
           destruct (n <=? rem - tx_width t)%N eqn:E1; symmetry; [apply N.leb_le in E1; apply N.leb_le|apply N.leb_gt in E1; apply N.leb_gt]; lia.
        -- apply N.leb_gt in E. f_equal. symmetry. apply N.leb_gt. lia.
    + injection H as <-. unfold okf. destruct eol; auto. destruct (_ <=? _)%N eqn:E; auto. apply N.leb_le in E. rewrite Hk by (auto; lia). reflexivity.
  - destruct Hg as [Ha Hb]. apply obind_some in H as (z & Hz & H). intros rem eol Hr He. cbn [fits_s].
    rewrite (@ofl_not_fail _ _ _ _ Hz). eapply IHa; eauto. apply suits_capped. eapply IHb; eauto.
  - destruct Hg as [Ha Hb]. intros rem eol Hr He. cbn [fits_s]. eapply IHb; eauto.
  - destruct Hg as [Ha Hb]. intros rem eol Hr He. cbn [fits_s]. eapply IH; eauto.
  - injection H as <-. exact Hk.
Qed.

Lemma ofits_picks w lay a k suf first f : (w < MAX_WIDTH)%N -> gs a -> suits k suf -> ofl a suf = Some first ->
  (mode = false -> ol_eol lay = false) ->
  ofits w lay first = Some f -> picks_first w a k (last_line_len lay, ol_eol lay) = Some f.
Proof.
  intros Hw Hg Hk Hf Hm H. unfold picks_first. pose proof (@suits_fits a k suf first Hg Hf Hk) as Hs.
  unfold ofits in H. destruct (_ <=? w)%N eqn:E.
  - apply N.leb_le in E. rewrite Hs by (auto; lia). destruct first as [n|]; [|injection H as <-; reflexivity]. unfold okf.
    destruct (ol_eol lay); simpl in *.
    + destruct (0 <? n)%N eqn:E0.
      * injection H as <-. apply N.ltb_lt in E0. replace (n =? 0)%N with false by (symmetry; apply N.eqb_neq; lia). rewrite andb_false_r. reflexivity.
      * apply N.ltb_ge in E0. assert (n = 0%N) as -> by lia. rewrite N.add_0_r in H. destruct (_ <? U16)%N; [|discriminate]. injection H as <-.
        simpl. apply N.leb_le in E. rewrite E. rewrite andb_true_r. replace (0 <=? _)%N with true by (symmetry; apply N.leb_le; lia). reflexivity.
    + destruct (_ <? U16)%N; [|discriminate]. injection H as <-. rewrite andb_true_r. f_equal.
      destruct (_ + n <=? w)%N eqn:E1; [apply N.leb_le in E1; apply N.leb_le|apply N.leb_gt in E1; apply N.leb_gt]; lia.
  - apply N.leb_gt in E. destruct first as [n|]; [|injection H as <-; reflexivity].
    destruct (_ && _); [injection H as <-; reflexivity|]. destruct (_ <? U16)%N; [|discriminate]. injection H as <-. f_equal. symmetry. apply N.leb_gt. lia.
Qed.

End Good.

(** In builds without overflow checks, the layout is the oracle's. *)
Section Release.
Context {pd : PrettyDoc}.
Variables (uw : str -> N) (cf : char -> bool).
Hypothesis Hadd : widths_add_up uw.
Notation E b := (Build_Env uw cf b).
Variable mode : bool.
Variable T : N.

Lemma mod_add a b : ((a mod U16 + b) mod U16 = (a + b) mod U16)%N.
Proof. rewrite N.add_mod_idemp_l; auto. discriminate. Qed.

Lemma uw_nil : uw [] = 0%N.
Proof. pose proof (Hadd [] []) as H. simpl in H. lia. Qed.

Lemma oadd_release a b : @oadd16 (E false) a b = Some ((a + b) mod U16)%N.
Proof.
  unfold oadd16, add16. simpl. destruct (a + b <? U16)%N eqn:L; simpl; auto. apply N.ltb_lt in L. rewrite N.mod_small; auto.
Qed.

Lemma sum_release (l : list segment) : Forall (@seg_ok pd (E false)) l -> forall acc : str,
  to_option (sum16_from (X := unit) false (uw acc mod U16)%N (map seg_width l)) = Some ((uw (acc ++ concat (map seg_str l))) mod U16)%N.
Proof.
  induction l as [|g l IH]; intros Hl acc; simpl.
  - rewrite app_nil_r. reflexivity.
  - inversion Hl as [|? ? H1 H2]; subst. unfold seg_ok, str_width in H1. simpl in H1.
    pose proof (oadd_release (uw acc mod U16) (seg_width g)) as H. unfold oadd16 in H. simpl in H.
    destruct (add16 false _ _) as [x|]; [|discriminate]. injection H as ->. simpl. rewrite mod_add, H1, N.add_mod_idemp_r by discriminate.
    rewrite <- Hadd. rewrite IH by auto. rewrite <- app_assoc. reflexivity.
Qed.

Lemma indent_release ind : Forall (@seg_ok pd (E false)) ind ->
  @indent_pos pd (E false) ind = Some ((uw (indent_string ind) mod U16)%N, false).
Proof.
  intros H. unfold indent_pos, osum16, sum16, indent_string.
  assert (Hr : Forall (@seg_ok pd (E false)) (rev ind)) by (apply Forall_rev; auto).
  pose proof (sum_release Hr []) as S. rewrite uw_nil in S. cbn [app] in S.
  replace (0 mod U16)%N with 0%N in S by reflexivity. cbn [ovf]. rewrite S. rewrite map_rev. reflexivity.
Qed.

Definition at_pos (lay : olayout) (p : pos) : Prop :=
  p = ((uw (ol_last lay) mod U16)%N, ol_eol lay) /\ (mode = false -> ol_eol lay = false).

Lemma opps_rend w s : (w < MAX_WIDTH)%N -> @gs pd (E false) mode T s -> forall j k suf lay lay' p cur,
  @opps pd (E true) w s lay suf = Some lay' -> suits mode k suf -> at_pos lay p -> segs_to_string cur = ol_last lay ->
  exists es p', @rend pd (E false) w s j k p = Some (es, p') /\ at_pos lay' p' /\
    ol_done lay' ++ [ol_last lay'] = ol_done lay ++ map segs_to_string (lines_from cur es) /\
    (exists ls l, lines_from cur es = ls ++ [l] /\ segs_to_string l = ol_last lay').
Proof.
  intros Hw. induction s as [f| | |ind|t|a IHa b IHb|a IHa b IHb|m i' s IH|]; intros Hg j k suf lay lay' p cur H Hk Hp Hc; cbn [opps] in H; cbn [gs] in Hg; cbn [rend].
  - discriminate.
  - injection H as <-. exists [], p. simpl. rewrite Hc. repeat split; try apply Hp. exists [], cur. auto.
  - injection H as <-. eexists _, _. split; [reflexivity|]. simpl. rewrite Hc. destruct Hp as [-> Hm]. repeat split; simpl; auto.
    + intros. congruence.
    + exists [], cur. auto.
  - injection H as <-. rewrite indent_release by auto. cbn [obind]. eexists _, _. split; [reflexivity|]. simpl. repeat split.
    + rewrite Hc. rewrite <- app_assoc. simpl. unfold segs_to_string, indent_string. rewrite map_rev. reflexivity.
    + exists [cur], (rev ind). split; auto. unfold segs_to_string, indent_string. rewrite map_rev. reflexivity.
  - destruct (ol_eol lay) eqn:El; [discriminate|]. injection H as <-. destruct Hp as [-> Hm]. rewrite El in *.
    unfold text_pos. rewrite oadd_release. cbn [obind]. eexists _, _. split; [reflexivity|].
    assert (Es : segs_to_string (cur ++ [text_seg t]) = ol_last lay ++ tx_str t).
    { unfold segs_to_string. rewrite map_app, concat_app. simpl. rewrite app_nil_r, <- Hc. reflexivity. }
    repeat split; simpl.
    + f_equal. destruct Hg as [-> _]. unfold str_width. simpl. rewrite <- N.add_mod by discriminate. rewrite <- Hadd. reflexivity.
    + rewrite Es. reflexivity.
    + exists [], (cur ++ [text_seg t]). auto.
  - destruct Hg as [Ga Gb]. destruct (head_fails a); [discriminate|]. apply obind_some in H as (z & Hz & H). apply obind_some in H as (u & Hu & H).
    destruct (IHa Ga j (fits_s b k) _ _ _ p cur Hu) as (e1 & p1 & R1 & P1 & L1 & (ls1 & l1 & E1 & S1)); auto.
    { apply suits_capped. eapply (@suits_fits pd (E false)); eauto. }
    destruct (IHb Gb j k _ _ _ p1 l1 H Hk P1 S1) as (e2 & p2 & R2 & P2 & L2 & (ls2 & l2 & E2 & S2)).
    rewrite R1. cbn [obind]. rewrite R2. cbn [obind]. eexists _, _. split; [reflexivity|]. split; auto.
    destruct (lines_app e1 e2 cur) as (l & ls & A1 & A2). rewrite A1 in E1. apply app_inj_tail in E1 as [<- <-].
    rewrite A2. split.
    + rewrite L2, map_app, app_assoc. f_equal. rewrite A1, map_app, app_assoc in L1. simpl in L1. apply app_inj_tail in L1 as [L1 _]. exact L1.
    + exists (ls ++ ls2), l2. rewrite E2, app_assoc. auto.
  - destruct Hg as [Ga Gb]. destruct (head_fails a); [discriminate|]. apply obind_some in H as (z & Hz & H). apply obind_some in H as (f & Hf & H).
    pose proof Hp as [-> Hm].
    pose proof (@ofits_picks pd (E true) mode T w lay a k suf z f Hw Ga Hk Hz Hm Hf) as Hpk. unfold last_line_len, str_width in Hpk. simpl in Hpk.
    unfold picks_first in *. rewrite Hpk. cbn [obind]. destruct f; eauto.
  - destruct Hg as [(j' & ->) Gs]. destruct (IH Gs j' k _ _ _ p cur H) as (e1 & p1 & R1 & P1 & L1 & L2); auto.
    rewrite R1. cbn [obind]. eexists _, _. split; [reflexivity|].
    assert (El : forall es' c, lines_from c (es' ++ [EExit j m]) = lines_from c es').
    { clear. induction es' as [|e es' IH]; intros c; simpl; auto. destruct e; simpl; rewrite ?IH; auto. }
    simpl. rewrite El. auto.
  - injection H as <-. eexists _, p. split; [reflexivity|]. simpl. rewrite Hc. repeat split; try apply Hp. exists [], cur. auto.
Qed.

(** Conversely, the oracle returns when there is no overflow. *)
Lemma ofl_total s : (T + MAX_WIDTH < U16)%N -> @gs pd (E false) mode T s -> no_fail s -> forall suf,
  (forall n, suf = Some n -> (n <= MAX_WIDTH)%N) -> exists r, ofl s suf = Some r /\ forall n, r = Some n -> (n <= T + MAX_WIDTH)%N.
Proof.
  intros HT. induction s as [f| | |ind|t|a IHa b IHb|a IHa b IHb|m i' s IH|]; intros Hg Hn suf Hs; cbn [ofl]; cbn [gs] in Hg.
  - destruct Hn.
  - exists suf. split; auto. intros n ->. specialize (Hs _ eq_refl). lia.
  - destruct suf as [x|]; [destruct (x =? 0)%N|]; eexists; (split; [reflexivity|]); intros n [=]; subst; lia.
  - eexists. split; [reflexivity|]. intros n [=]; subst; lia.
  - destruct suf as [x|].
    + specialize (Hs _ eq_refl). destruct Hg as (_ & _ & Hg). assert (H : (tx_width t + x <? U16)%N = true) by (apply N.ltb_lt; lia). rewrite H.
      eexists. split; [reflexivity|]. intros n [=]; subst; lia.
    + eexists. split; [reflexivity|]. intros n [=].
  - destruct Hg as [Ga Gb]. destruct Hn as [Na Nb]. destruct (IHb Gb Nb suf Hs) as (z & -> & Hz). cbn [obind]. apply IHa; auto.
    intros n. destruct z as [z|]; simpl; [|discriminate]. intros [= <-]. lia.
  - destruct Hg as [Ga Gb]. destruct Hn as [Na Nb]. auto.
  - destruct Hg as [_ Gs]. apply IH; auto. apply Hn.
  - exists suf. split; auto. intros n ->. specialize (Hs _ eq_refl). lia.
Qed.

Lemma opps_total w L s : (w < MAX_WIDTH)%N -> (T + L + MAX_WIDTH < U16)%N -> @gs pd (E false) mode T s -> no_fail s ->
  forall j k suf lay p cur es p',
  @rend pd (E false) w s j k p = Some (es, p') -> suits mode k suf -> (forall n, suf = Some n -> (n <= MAX_WIDTH)%N) -> at_pos lay p ->
  segs_to_string cur = ol_last lay ->
  Forall (fun l => uw (segs_to_string l) <= L)%N (lines_from cur es) ->
  exists lay', @opps pd (E true) w s lay suf = Some lay'.
Proof.
  intros Hw HT. assert (HT' : (T + MAX_WIDTH < U16)%N) by lia.
  induction s as [f| | |ind|t|a IHa b IHb|a IHa b IHb|m i' s IH|]; intros Hg Hn j k suf lay p cur es p' H Hk Hs Hp Hc Hl; cbn [opps]; cbn [gs] in Hg; cbn [rend] in H; eauto.
  - destruct Hn.
  - apply obind_some in H as (x & Hx & _). unfold text_pos in Hx. destruct Hp as [-> _]. destruct (ol_eol lay); [discriminate|]. eauto.
  - pose proof Hg as [Ga Gb]. destruct Hn as [Na Nb]. apply obind_some in H as ([e1 p1] & H1 & H). apply obind_some in H as ([e2 p2] & H2 & [= <- <-]).
    replace (head_fails a) with false by (destruct a; auto; destruct Na).
    destruct (@ofl_total _ HT' Gb Nb _ Hs) as (z & Ez & Bz). rewrite Ez. cbn [obind].
    assert (Sz : suits mode (fits_s b k) (capped z)) by (apply suits_capped; eapply (@suits_fits pd (E false)); eauto).
    destruct (lines_app e1 e2 cur) as (l & ls & A1 & A2). rewrite A2 in Hl. apply Forall_app in Hl as [F1 F2].
    destruct (IHa Ga Na j (fits_s b k) (capped z) lay p cur e1 p1 H1 Sz) as (lay' & El); auto.
    { intros n. destruct z as [z|]; simpl; [|discriminate]. intros [= <-]. lia. }
    { rewrite A1. apply Forall_app. split; auto. constructor; auto. destruct (lines_cur e2 l) as (x & xs & _ & Ex). rewrite Ex in F2.
      inversion F2 as [|? ? F3 _]; subst. unfold segs_to_string in *. rewrite map_app, concat_app, Hadd in F3. lia. }
    rewrite El. cbn [obind].
    destruct (@opps_rend w a Hw Ga j _ _ _ _ _ cur El Sz Hp Hc) as (e1' & p1' & R1 & P1 & _ & (ls1 & l1 & E1 & S1)).
    rewrite R1 in H1. injection H1 as -> ->. rewrite A1 in E1. apply app_inj_tail in E1 as [<- <-].
    eapply IHb; eauto.
  - pose proof Hg as [Ga Gb]. destruct Hn as [Na Nb]. destruct (head_fails a); [discriminate|]. apply obind_some in H as (f & Hf & H).
    destruct (@ofl_total _ HT' Ga Na _ Hs) as (z & Ez & Bz). rewrite Ez. cbn [obind].
    assert (exists f', @ofits (E true) w lay z = Some f') as (f' & Ef).
    { unfold ofits. destruct z as [z|]; eauto. destruct (_ && _); eauto. specialize (Bz _ eq_refl).
      assert (HL : (uw (ol_last lay) <= L)%N).
      { destruct (lines_cur es cur) as (x & xs & _ & Ex). rewrite Ex in Hl. inversion Hl as [|? ? F3 _]; subst.
        unfold segs_to_string in *. rewrite map_app, concat_app, Hadd in F3. rewrite <- Hc. lia. }
      assert (HB : (@last_line_len (E true) lay + z <? U16)%N = true).
      { apply N.ltb_lt. unfold last_line_len, str_width. simpl. pose proof (N.mod_le (uw (ol_last lay)) U16). unfold U16 in *. lia. }
      rewrite HB. eauto. }
    rewrite Ef. cbn [obind]. pose proof Hp as [-> Hm].
    pose proof (@ofits_picks pd (E true) mode T w lay a k suf z f' Hw Ga Hk Ez Hm Ef) as Hpk. unfold last_line_len, str_width in Hpk. simpl in Hpk.
    unfold picks_first in *. rewrite Hpk in Hf. injection Hf as <-. destruct f'; eauto.
  - pose proof Hg as [(j' & ->) Gs]. apply obind_some in H as ([e1 p1] & H1 & [= <- <-]).
    assert (El : forall es' c, lines_from c (es' ++ [EExit j m]) = lines_from c es').
    { clear. induction es' as [|e es' IH]; intros c; simpl; auto. destruct e; simpl; rewrite ?IH; auto. }
    simpl in Hl. rewrite El in Hl. eapply IH; eauto. apply Hn.
Qed.

End Release.
