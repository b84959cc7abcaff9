(** validate() finds exactly the flaws of the specification. *)
From Verif Require Export SpecValid.

Set Implicit Arguments.

Section PValid.
Context {L C : Type}.
Implicit Types n m x : notation L C.

Definition hist_ok (h : history) (B : list ditem -> Prop) : Prop :=
  (h_eol h = true <-> exists l, B l /\ after_eol l = true) /\
  (h_mark h = true <-> forall l, B l -> marked l = true) /\
  exists l, B l.

Definition no_flaw c f B n : Prop := forall c' f' B' x e, occurs c f B n c' f' B' x -> ~ flaw c' f' B' x e.

Lemma hist_ext h (B B' : list ditem -> Prop) : (forall l, B l <-> B' l) -> hist_ok h B -> hist_ok h B'.
Proof.
  intros E (H1 & H2 & l0 & H3). repeat split.
  - intros H. apply H1 in H as (l & Hl & He). exists l. split; auto. apply E. auto.
  - intros (l & Hl & He). apply H1. exists l. split; auto. apply E. auto.
  - intros H l Hl. apply E in Hl. apply H2; auto.
  - intros H. apply H2. intros l Hl. apply H, E. auto.
  - exists l0. apply E. auto.
Qed.

(** One item displayed after [B]. *)
Lemma hist_one h h' B i (x : notation L C) : (forall l, resolves x l <-> l = [i]) -> hist_ok h B ->
  h_eol h' = (match i with DEol => true | DMark => h_eol h | _ => false end) ->
  h_mark h' = (match i with DMark => true | DUnknown => false | _ => h_mark h end) ->
  hist_ok h' (then_note B x).
Proof.
  intros Hx (H1 & H2 & l0 & H3) He Hm.
  assert (Hin : forall l, B l -> then_note B x (l ++ [i])) by (intros l Hl; exists l, [i]; repeat split; auto; apply Hx; auto).
  assert (Hout : forall l, then_note B x l -> exists a, B a /\ l = a ++ [i]) by (intros l (a & b & Ha & Hb & ->); apply Hx in Hb as ->; eauto).
  assert (Ee : forall a, after_eol (a ++ [i]) = match i with DEol => true | DMark => after_eol a | _ => false end) by (intros; unfold after_eol; rewrite fold_left_app; reflexivity).
  assert (Em : forall a, marked (a ++ [i]) = match i with DMark => true | DUnknown => false | _ => marked a end) by (intros; unfold marked; rewrite fold_left_app; reflexivity).
  repeat split.
  - intros H. rewrite He in H. destruct i; try discriminate.
    + exists (l0 ++ [DEol]). split; auto.
    + apply H1 in H as (l & Hl & Hl'). exists (l ++ [DMark]). rewrite Ee. auto.
  - intros (l & Hl & H). apply Hout in Hl as (a & Ha & ->). rewrite Ee in H. rewrite He. destruct i; try discriminate; auto. apply H1. eauto.
  - intros H l Hl. apply Hout in Hl as (a & Ha & ->). rewrite Em. rewrite Hm in H. destruct i; auto; try discriminate; apply H2; auto.
  - intros H. rewrite Hm. specialize (H2). destruct i; auto; try (apply H2; intros l Hl; specialize (H _ (Hin _ Hl)); rewrite Em in H; auto; fail).
    specialize (H _ (Hin _ H3)). rewrite Em in H. discriminate.
  - exists (l0 ++ [i]). auto.
Qed.

Lemma hist_union h1 h2 B n m x : (forall l, resolves x l <-> resolves n l \/ resolves m l) ->
  hist_ok h1 (then_note B n) -> hist_ok h2 (then_note B m) -> hist_ok (h_choice h1 h2) (then_note B x).
Proof.
  intros Hx (A1 & A2 & l1 & A3) (B1 & B2 & l2 & B3). unfold h_choice. unfold then_note in *. repeat split; simpl.
  - intros H. apply orb_true_iff in H as [H|H]; [apply A1 in H as (l & (a & b & Ha & Hb & ->) & He)|apply B1 in H as (l & (a & b & Ha & Hb & ->) & He)];
      exists (a ++ b); split; auto; exists a, b; repeat split; auto; apply Hx; auto.
  - intros (l & (a & b & Ha & Hb & ->) & He). apply orb_true_iff. apply Hx in Hb as [Hb|Hb]; [left; apply A1|right; apply B1]; exists (a ++ b); split; auto; exists a, b; auto.
  - intros H l (a & b & Ha & Hb & ->). apply andb_true_iff in H as [H H']. apply Hx in Hb as [Hb|Hb]; [apply A2|apply B2]; eauto 10.
  - intros H. apply andb_true_iff. split; [apply A2|apply B2]; intros l (a & b & Ha & Hb & ->); apply H; exists a, b; repeat split; auto; apply Hx; auto.
  - destruct A3 as (a & b & Ha & Hb & ->). exists (a ++ b), a, b. repeat split; auto. apply Hx. auto.
Qed.

Lemma hist_start : hist_ok h_default (fun l => l = []).
Proof.
  repeat split; simpl; try discriminate.
  - intros (l & -> & H). discriminate.
  - intros H. specialize (H [] eq_refl). discriminate.
  - exists []. auto.
Qed.

Lemma index1 i : is_some (normalize_child_index i 1) = true <-> i = 0%Z \/ i = (-1)%Z.
Proof.
  unfold normalize_child_index. change (Z.of_nat 1) with 1%Z. cbv zeta. destruct (Z.ltb_spec i 0).
  - destruct (Z.ltb_spec (i + 1) 0), (Z.leb_spec 1 (i + 1)); simpl; split; intros; try discriminate; try lia; auto.
  - destruct (Z.ltb_spec i 0), (Z.leb_spec 1 i); simpl; split; intros; try discriminate; try lia; auto.
Qed.

Definition verdict (r : vres history) c f B n : Prop :=
  match r with
  | Ok h' => hist_ok h' (then_note B n) /\ no_flaw c f B n
  | Err e => exists c' f' B' x, occurs c f B n c' f' B' x /\ flaw c' f' B' x e
  | _ => False
  end.

Ltac leaf := intros c' f' B' x e Hoc Hfl; inversion Hoc; subst; clear Hoc; inversion Hfl; subst; clear Hfl.

Lemma verdict_wrap r c f B n x : (forall l, resolves x l <-> resolves n l) ->
  (forall c' f' B' y, occurs c f B x c' f' B' y -> (c' = c /\ f' = f /\ B' = B /\ y = x /\ forall e, ~ flaw c f B x e) \/ occurs c f B n c' f' B' y) ->
  (forall c' f' B' y, occurs c f B n c' f' B' y -> occurs c f B x c' f' B' y) ->
  verdict r c f B n -> verdict r c f B x.
Proof.
  intros Hr Ho Ho' H. destruct r as [h'|[e| |]]; simpl in *; auto.
  - destruct H as [H1 H2]. split.
    + eapply hist_ext; [|exact H1]. intros l. unfold then_note. split; intros (a & b & Ha & Hb & ->); exists a, b; repeat split; auto; apply Hr; auto.
    + intros c' f' B' y e Hoc Hfl. apply Ho in Hoc as [(-> & -> & -> & -> & Hn)|Hoc]; [eapply Hn; eauto|eapply H2; eauto].
  - destruct H as (c' & f' & B' & y & Hoc & Hfl). eauto 10.
Qed.

Lemma validate_verdict n : forall h ctx B, hist_ok h B ->
  verdict (validate_rec n h ctx) (ctx_count ctx) (ctx_fold ctx) B n.
Proof.
  induction n as [| | |s| |n IH|pre l n IH|a IHa b IHb|a IHa b IHb|cd ps a IHa b IHb|i|l n IH| |z IHz o IHo m IHm|fn IHf jn IHj| |];
    intros h ctx B Hh; cbn [validate_rec].
  - split; [|leaf]. eapply hist_ext; [|exact Hh]. intros l. unfold then_note. simpl. split.
    + intros H. exists l, []. rewrite app_nil_r. auto.
    + intros (x & y & Hx & -> & ->). rewrite app_nil_r. auto.
  - split; [|leaf]. eapply hist_one with (i := DNewline); simpl; eauto. intros; reflexivity.
  - split; [|leaf]. eapply hist_one with (i := DEol); simpl; eauto. intros; reflexivity.
  - destruct (h_eol h) eqn:E.
    + simpl. pose proof Hh as (H1 & _). apply H1 in E as (l & Hl & He). do 4 eexists. split; [apply oc_here|econstructor; eauto].
    + split.
      * eapply hist_one with (i := DText); simpl; eauto. intros; reflexivity.
      * leaf. pose proof Hh as (H1 & _). rewrite E in H1. assert (false = true) by (apply H1; eauto). discriminate.
  - destruct (ctx_count ctx) as [k|] eqn:Ek; simpl.
    { do 4 eexists. split; [apply oc_here|apply fl_text_count; discriminate]. }
    destruct (ctx_fold ctx) as [k|] eqn:Ef; simpl.
    { do 4 eexists. split; [apply oc_here|apply fl_text_fold; discriminate]. }
    destruct (h_eol h) eqn:E.
    + simpl. pose proof Hh as (H1 & _). apply H1 in E as (l & Hl & He). do 4 eexists. split; [apply oc_here|econstructor; eauto].
    + split.
      * eapply hist_one with (i := DText); simpl; eauto. intros; reflexivity.
      * leaf; try congruence. pose proof Hh as (H1 & _). rewrite E in H1. assert (false = true) by (apply H1; eauto). discriminate.
  - eapply verdict_wrap; [| | |apply IH; eauto]; simpl; try reflexivity.
    + intros c' f' B' y Ho. inversion Ho; subst; auto. left. repeat split; auto. intros e Hf. inversion Hf.
    + intros. constructor. auto.
  - eapply verdict_wrap; [| | |apply IH; eauto]; simpl; try reflexivity.
    + intros c' f' B' y Ho. inversion Ho; subst; auto. left. repeat split; auto. intros e Hf. inversion Hf.
    + intros. constructor. auto.
  - specialize (IHa h ctx B Hh). destruct (validate_rec a h ctx) as [h1|[e| |]]; cbn [bind]; try (simpl in IHa; contradiction).
    + destruct IHa as [Ha Fa]. specialize (IHb h1 ctx _ Ha). destruct (validate_rec b h1 ctx) as [h2|[e| |]]; try (simpl in IHb; contradiction).
      * destruct IHb as [Hb Fb]. split.
        -- eapply hist_ext; [|exact Hb]. intros l. unfold then_note. simpl. split.
           ++ intros (x & y & (u & v & Hu & Hv & ->) & Hy & ->). exists u, (v ++ y). rewrite app_assoc. repeat split; auto. exists v, y. auto.
           ++ intros (x & y & Hx & (u & v & Hu & Hv & ->) & ->). exists (x ++ u), v. rewrite app_assoc. repeat split; auto. exists x, u. auto.
        -- intros c' f' B' x e Ho Hf. inversion Ho; subst; [inversion Hf|eapply Fa; eauto|eapply Fb; eauto].
      * destruct IHb as (c' & f' & B' & x & Ho & Hf). do 4 eexists. split; [apply oc_concat_r; eauto|eauto].
    + destruct IHa as (c' & f' & B' & x & Ho & Hf). do 4 eexists. split; [apply oc_concat_l; eauto|eauto].
  - specialize (IHa h ctx B Hh). destruct (validate_rec a h ctx) as [h1|[e| |]]; cbn [bind]; try (simpl in IHa; contradiction).
    + destruct IHa as [Ha Fa]. specialize (IHb h ctx _ Hh). destruct (validate_rec b h ctx) as [h2|[e| |]]; cbn [bind]; try (simpl in IHb; contradiction).
      * destruct IHb as [Hb Fb]. split.
        -- eapply hist_union; eauto. intros; reflexivity.
        -- intros c' f' B' x e Ho Hf. inversion Ho; subst; [inversion Hf|eapply Fa; eauto|eapply Fb; eauto].
      * destruct IHb as (c' & f' & B' & x & Ho & Hf). do 4 eexists. split; [apply oc_choice_r; eauto|eauto].
    + destruct IHa as (c' & f' & B' & x & Ho & Hf). do 4 eexists. split; [apply oc_choice_l; eauto|eauto].
  - assert (Hpos : match validate_pos ctx ps with
                   | Ok _ => forall e, ~ flaw (ctx_count ctx) (ctx_fold ctx) B (Check cd ps a b) e
                   | Err e => flaw (ctx_count ctx) (ctx_fold ctx) B (Check cd ps a b) e
                   | _ => False end).
    { destruct ps as [|k| |]; unfold validate_pos, count_is, in_join.
      - intros e Hf. inversion Hf.
      - destruct (ctx_count ctx) as [[]|]; simpl.
        + constructor.
        + destruct (is_some (normalize_child_index k 1)) eqn:E; simpl.
          * apply index1 in E. intros e Hf. inversion Hf; subst. lia.
          * assert (~ (k = 0%Z \/ k = (-1)%Z)) by (intros H; apply index1 in H; congruence). constructor; intuition.
        + intros e Hf. inversion Hf.
        + intros e Hf. inversion Hf.
      - destruct (ctx_fold ctx) as [[]|]; [constructor; discriminate| |constructor; discriminate]. intros e Hf. inversion Hf; subst. congruence.
      - destruct (ctx_fold ctx) as [[]|]; [constructor; discriminate| |constructor; discriminate]. intros e Hf. inversion Hf; subst. congruence. }
    destruct (validate_pos ctx ps) as [u|[e| |]]; cbn [bind]; try contradiction; [|do 4 eexists; split; [apply oc_here|exact Hpos]].
    specialize (IHa h ctx B Hh). destruct (validate_rec a h ctx) as [h1|[e| |]]; cbn [bind]; try (simpl in IHa; contradiction).
    + destruct IHa as [Ha Fa]. specialize (IHb h ctx _ Hh). destruct (validate_rec b h ctx) as [h2|[e| |]]; cbn [bind]; try (simpl in IHb; contradiction).
      * destruct IHb as [Hb Fb]. split.
        -- eapply hist_union; eauto. intros; reflexivity.
        -- intros c' f' B' x e Ho Hf. inversion Ho; subst; [eapply Hpos; eauto|eapply Fa; eauto|eapply Fb; eauto].
      * destruct IHb as (c' & f' & B' & x & Ho & Hf). do 4 eexists. split; [apply oc_check_r; eauto|eauto].
    + destruct IHa as (c' & f' & B' & x & Ho & Hf). do 4 eexists. split; [apply oc_check_l; eauto|eauto].
  - assert (Hok : hist_ok (without_eol h) (then_note B (@Child L C i))) by (eapply hist_one with (i := DChild); simpl; eauto; intros; reflexivity).
    unfold count_is. destruct (ctx_count ctx) as [[]|] eqn:Ec; simpl.
    + do 4 eexists. split; [apply oc_here|constructor].
    + destruct (is_some (normalize_child_index i 1)) eqn:E; simpl.
      * split; auto. apply index1 in E. leaf. lia.
      * do 4 eexists. split; [apply oc_here|]. assert (~ (i = 0%Z \/ i = (-1)%Z)) by (intros H; apply index1 in H; congruence). constructor; intuition.
    + split; auto. leaf.
    + split; auto. leaf.
  - eapply verdict_wrap; [| | |apply IH; eauto]; simpl; try reflexivity.
    + intros c' f' B' y Ho. inversion Ho; subst; auto. left. repeat split; auto. intros e Hf. inversion Hf.
    + intros. constructor. auto.
  - destruct (h_mark h) eqn:E.
    + simpl. pose proof Hh as (_ & H1 & _). do 4 eexists. split; [apply oc_here|constructor; apply H1; auto].
    + split.
      * eapply hist_one with (i := DMark); simpl; eauto. intros; reflexivity.
      * leaf. pose proof Hh as (_ & H1 & _). rewrite E in H1. assert (false = true) by (apply H1; eauto). discriminate.
  - destruct (ctx_count ctx) as [k|] eqn:Ek; simpl is_some; cbv iota.
    { do 4 eexists. split; [apply oc_here|constructor; discriminate]. }
    specialize (IHz h (count_zero ctx) B Hh). destruct (validate_rec z h (count_zero ctx)) as [h1|[e| |]]; cbn [bind]; try (simpl in IHz; contradiction).
    2:{ destruct IHz as (c' & f' & B' & x & Ho & Hf). do 4 eexists. split; [apply oc_zero; eauto|eauto]. }
    specialize (IHo h (count_one ctx) B Hh). destruct (validate_rec o h (count_one ctx)) as [h2|[e| |]]; cbn [bind]; try (simpl in IHo; contradiction).
    2:{ destruct IHo as (c' & f' & B' & x & Ho & Hf). do 4 eexists. split; [apply oc_one; eauto|eauto]. }
    specialize (IHm h (count_many ctx) B Hh). destruct (validate_rec m h (count_many ctx)) as [h3|[e| |]]; cbn [bind]; try (simpl in IHm; contradiction).
    2:{ destruct IHm as (c' & f' & B' & x & Ho & Hf). do 4 eexists. split; [apply oc_many; eauto|eauto]. }
    destruct IHz as [Hz Fz], IHo as [Ho Fo], IHm as [Hm Fm]. split.
    + apply hist_union with (n := Choice z o) (m := m); auto.
      * intros l. simpl. intuition.
      * apply hist_union with (n := z) (m := o); auto. intros; reflexivity.
    + intros c' f' B' x e Hoc Hf. inversion Hoc; subst; [inversion Hf; congruence|eapply Fz; eauto|eapply Fo; eauto|eapply Fm; eauto].
  - destruct (ctx_fold ctx) as [k|] eqn:Ek; simpl is_some; cbv iota.
    { do 4 eexists. split; [apply oc_here|constructor; discriminate]. }
    specialize (IHf h_uncertain (fold_first ctx) _ hist_start). destruct (validate_rec fn h_uncertain (fold_first ctx)) as [h1|[e| |]]; cbn [bind]; try (simpl in IHf; contradiction).
    2:{ destruct IHf as (c' & f' & B' & x & Ho & Hf). do 4 eexists. split; [apply oc_first; eauto|eauto]. }
    specialize (IHj h_uncertain (fold_join ctx) _ hist_start). destruct (validate_rec jn h_uncertain (fold_join ctx)) as [h2|[e| |]]; cbn [bind]; try (simpl in IHj; contradiction).
    2:{ destruct IHj as (c' & f' & B' & x & Ho & Hf). do 4 eexists. split; [apply oc_join; eauto|eauto]. }
    destruct IHf as [_ Ff], IHj as [_ Fj]. split.
    + eapply hist_one with (i := DUnknown); simpl; eauto. intros; reflexivity.
    + intros c' f' B' x e Hoc Hf. inversion Hoc; subst; [inversion Hf; congruence|eapply Ff; eauto|eapply Fj; eauto].
  - unfold in_join. destruct (ctx_fold ctx) as [[]|] eqn:Ek; simpl.
    + do 4 eexists. split; [apply oc_here|constructor; discriminate].
    + split; [|leaf; congruence]. eapply hist_one with (i := DUnknown); simpl; eauto. intros; reflexivity.
    + do 4 eexists. split; [apply oc_here|constructor; discriminate].
  - unfold in_join. destruct (ctx_fold ctx) as [[]|] eqn:Ek; simpl.
    + do 4 eexists. split; [apply oc_here|constructor; discriminate].
    + split; [|leaf; congruence]. eapply hist_one with (i := DUnknown); simpl; eauto. intros; reflexivity.
    + do 4 eexists. split; [apply oc_here|constructor; discriminate].
Qed.

Lemma validate_spec n :
  match validate n with
  | Ok _ => forall c f B x e, part_of n c f B x -> ~ flaw c f B x e
  | Err e => exists c f B x, part_of n c f B x /\ flaw c f B x e
  | _ => False
  end.
Proof.
  unfold validate. pose proof (validate_verdict n ctx_new hist_start) as H.
  destruct (validate_rec n h_default ctx_new) as [h|[e| |]]; simpl in *; auto. apply H.
Qed.

End PValid.
