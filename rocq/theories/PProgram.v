(** JSON texts are unambiguous. *)
From Verif Require Import SpecProgram.
From Coq Require Import String.

Set Implicit Arguments.

Scheme reads_mind := Induction for reads Sort Prop
  with elements_mind := Induction for reads_elements Sort Prop
  with members_mind := Induction for reads_members Sort Prop.
Combined Scheme reads_mutind from reads_mind, elements_mind, members_mind.

(** The characters of numbers. *)
Definition num_char (c : char) : Prop := (c = 43 \/ c = 45 \/ c = 46 \/ 48 <= c <= 57 \/ c = 69 \/ c = 101)%N.
Definition stops (r : str) : Prop := match r with [] => True | c :: _ => ~ num_char c end.

Lemma digit_num c : digit c -> num_char c.
Proof. unfold digit, num_char. lia. Qed.
Lemma digits_num s : Forall digit s -> Forall num_char s.
Proof. apply Forall_impl. exact digit_num. Qed.
Lemma number_chars s : is_number s -> Forall num_char s.
Proof.
  intros (m & i & f & e & -> & Hm & Hi & Hf & He). apply Forall_app. split; [|apply Forall_app; split; [|apply Forall_app; split]].
  - destruct Hm as [->| ->]; [constructor|]. constructor; [unfold num_char; lia|constructor].
  - destruct Hi as [->|(c & s & -> & Hc & Hs)]; (constructor; [unfold num_char; lia|]); [constructor|]. apply digits_num. exact Hs.
  - destruct Hf as [->|(ds & -> & _ & H)]; constructor; [unfold num_char; lia|]. apply digits_num. exact H.
  - destruct He as [->|(c & sg & ds & -> & Hc & Hsg & _ & H)]; constructor; [unfold num_char; lia|]. apply Forall_app. split; [|apply digits_num; exact H].
    destruct Hsg as [->|[->| ->]]; [constructor| |]; (constructor; [unfold num_char; lia|constructor]).
Qed.
Lemma number_head s : is_number s -> exists c s', s = c :: s' /\ (c = 45 \/ 48 <= c <= 57)%N.
Proof.
  intros (m & i & f & e & -> & Hm & Hi & _ & _). destruct Hm as [->| ->].
  - destruct Hi as [->|(c & s & -> & Hc & Hs)]; cbn [app]; do 2 eexists; (split; [reflexivity|lia]).
  - cbn [app]. do 2 eexists. split; [reflexivity|lia].
Qed.

Lemma span_unique (P : char -> Prop) a : forall a' r r', Forall P a -> Forall P a' ->
  match r with [] => True | c :: _ => ~ P c end -> match r' with [] => True | c :: _ => ~ P c end ->
  a ++ r = a' ++ r' -> a = a' /\ r = r'.
Proof.
  induction a as [|x a IH]; intros [|x' a'] r r' H1 H2 H3 H4 E; cbn [app] in E.
  - auto.
  - subst r. inversion H2; subst. contradiction.
  - subst r'. inversion H1; subst. contradiction.
  - injection E as -> E. inversion H1; subst. inversion H2; subst. destruct (IH a' r r') as [-> ->]; auto.
Qed.

Definition is_ws (c : char) : Prop := (c = 32 \/ c = 9 \/ c = 10 \/ c = 13)%N.
Definition no_ws (r : str) : Prop := match r with [] => True | c :: _ => ~ is_ws c end.
Lemma ws_unique a a' r r' : white_space a -> white_space a' -> no_ws r -> no_ws r' -> a ++ r = a' ++ r' -> a = a' /\ r = r'.
Proof. intros. eapply (@span_unique is_ws); eauto. Qed.

Lemma hex4_inj a b c d n m : hex4 a b c d = Some n -> hex4 a b c d = Some m -> n = m.
Proof. congruence. Qed.

Lemma body_unique src s : string_body src s -> forall src' s' r r', string_body src' s' ->
  src ++ 34%N :: r = src' ++ 34%N :: r' -> src = src' /\ s = s' /\ r = r'.
Proof.
  induction 1 as [|c src s Hc H IH|e c src s He H IH|a b c d n src s Hn Hr H IH|a b c d a' b' c' d' hi lo src s H1 H2 H3 H4 H IH];
    intros src' s' r r' H' E; inversion H' as [|c0 src0 s0 Hc0 Hs0|e0 c0 src0 s0 He0 Hs0|a0 b0 c0 d0 n0 src0 s0 Hn0 Hr0 Hs0
      |a0 b0 c0 d0 a0' b0' c0' d0' hi0 lo0 src0 s0 Hh0 Hhr0 Hl0 Hlr0 Hs0]; subst src' s'; cbn [app] in E;
    try (unfold unescaped in *; exfalso; injection E as E0; intuition congruence);
    try (injection E; intros; subst; exfalso; cbn in *; congruence).
  - injection E as E. auto.
  - injection E as <- E. destruct (IH _ _ _ _ Hs0 E) as (-> & -> & ->). auto.
  - injection E as <- E. destruct (IH _ _ _ _ Hs0 E) as (-> & -> & ->). rewrite He in He0. injection He0 as ->. auto.
  - injection E as <- <- <- <- E. destruct (IH _ _ _ _ Hs0 E) as (-> & -> & ->). rewrite Hn in Hn0. injection Hn0 as ->. auto.
  - exfalso. injection E as <- <- <- <- E. rewrite Hn in Hh0. injection Hh0 as <-. lia.
  - exfalso. injection E as <- <- <- <- E. rewrite H1 in Hn0. injection Hn0 as <-. lia.
  - injection E as <- <- <- <- <- <- <- <- E. destruct (IH _ _ _ _ Hs0 E) as (-> & -> & ->).
    rewrite H1 in Hh0. injection Hh0 as ->. rewrite H3 in Hl0. injection Hl0 as ->. auto.
Qed.

(** The first character of a value. *)
Definition head_char (v : value) (c : char) : Prop :=
  match v with
  | VNull => c = 110 | VBool true => c = 116 | VBool false => c = 102 | VNumber _ => (c = 45 \/ 48 <= c <= 57)
  | VString _ => c = 34 | VArray _ => c = 91 | VObject _ => c = 123
  end%N.
Lemma reads_head v s : reads v s -> exists c s', s = c :: s' /\ head_char v c.
Proof.
  destruct 1 as [| | |s H|src s H|a H|l s H|a H|l s H]; try (do 2 eexists; split; [reflexivity|reflexivity]).
  destruct (number_head H) as (c & s' & -> & Hc). eauto.
Qed.
Lemma head_no_ws v c : head_char v c -> ~ is_ws c.
Proof. unfold is_ws. destruct v as [|[]| | | |]; cbn; lia. Qed.
Lemma head_no_close v c : head_char v c -> c <> 93%N /\ c <> 125%N.
Proof. destruct v as [|[]| | | |]; cbn; lia. Qed.
Lemma value_no_ws v s r : reads v s -> no_ws (s ++ r).
Proof. intros H. destruct (reads_head H) as (c & s' & -> & Hc). cbn. eapply head_no_ws; eauto. Qed.

Lemma stops_ws b c r : white_space b -> (c = 44 \/ c = 93 \/ c = 125)%N -> stops (b ++ c :: r).
Proof.
  intros Hb Hc. destruct Hb as [|x b Hx _]; cbn [app stops]; unfold num_char; [lia|]. lia.
Qed.
Lemma punct_no_ws c r : (c = 44 \/ c = 93 \/ c = 125 \/ c = 58 \/ c = 34)%N -> no_ws (c :: r).
Proof. intros H. cbn. unfold is_ws. lia. Qed.

Lemma elements_head l s : reads_elements l s -> exists a v c s', s = a ++ c :: s' /\ white_space a /\ head_char v c.
Proof.
  destruct 1 as [v a s b Ha Hs Hb|v a s b l rest Ha Hs Hb Hl]; destruct (reads_head Hs) as (c & s' & -> & Hc);
    exists a, v, c; eexists; (split; [reflexivity|auto]).
Qed.
Lemma members_head l s : reads_members l s -> exists a s', s = a ++ 34%N :: s' /\ white_space a.
Proof. destruct 1; eexists _, _; (split; [reflexivity|assumption]). Qed.

Ltac norm E := rewrite <- ?app_assoc in E; cbn [app] in E; rewrite <- ?app_assoc in E; cbn [app] in E.

Lemma reads_unique :
  (forall v s, reads v s -> forall v' s' r r', reads v' s' -> stops r -> stops r' -> s ++ r = s' ++ r' -> v = v' /\ s = s' /\ r = r') /\
  (forall l s, reads_elements l s -> forall l' s' r r', reads_elements l' s' -> s ++ 93%N :: r = s' ++ 93%N :: r' -> l = l' /\ s = s' /\ r = r') /\
  (forall l s, reads_members l s -> forall l' s' r r', reads_members l' s' -> s ++ 125%N :: r = s' ++ 125%N :: r' -> l = l' /\ s = s' /\ r = r').
Proof.
  (* the head of the other value is the same character *)
  assert (HD : forall v s v' s' r r' c, reads v s -> reads v' s' -> s ++ r = s' ++ r' -> head_char v c -> (exists t, s = c :: t) -> head_char v' c).
  { intros v s v' s' r r' c H H' E Hc (t & ->). destruct (reads_head H') as (c' & t' & -> & Hc'). injection E as <- _. exact Hc'. }
  apply reads_mutind.
  - intros v' s' r r' H' _ _ E. assert (Hh := HD _ _ _ _ _ _ 110%N rd_null H' E eq_refl (ex_intro _ _ eq_refl)).
    inversion H'; subst v' s'; cbn in Hh; try discriminate; try lia. apply app_inv_head in E. auto.
  - intros v' s' r r' H' _ _ E. assert (Hh := HD _ _ _ _ _ _ 116%N rd_true H' E eq_refl (ex_intro _ _ eq_refl)).
    inversion H'; subst v' s'; cbn in Hh; try discriminate; try lia. apply app_inv_head in E. auto.
  - intros v' s' r r' H' _ _ E. assert (Hh := HD _ _ _ _ _ _ 102%N rd_false H' E eq_refl (ex_intro _ _ eq_refl)).
    inversion H'; subst v' s'; cbn in Hh; try discriminate; try lia. apply app_inv_head in E. auto.
  - intros s Hs v' s' r r' H' Hr Hr' E. destruct (number_head Hs) as (c & t & Et & Hc).
    assert (Hh := HD _ _ _ _ _ _ c (rd_number Hs) H' E Hc (ex_intro _ _ Et)).
    inversion H' as [| | |s2 Hn| | | | |]; subst v' s'; cbn in Hh; try lia.
    destruct (@span_unique num_char s s2 r r') as [-> ->]; auto using number_chars.
  - intros src s Hs v' s' r r' H' _ _ E. assert (Hh := HD _ _ _ _ _ _ 34%N (rd_string Hs) H' E eq_refl (ex_intro _ _ eq_refl)).
    inversion H' as [| | |s2 Hn|src2 s2 Hb| | | |]; subst v' s'; cbn in Hh; try discriminate; try lia.
    norm E. injection E as E. destruct (@body_unique _ _ Hs _ _ _ _ Hb E) as (-> & -> & ->). auto.
  - intros a Ha v' s' r r' H' _ _ E. assert (Hh := HD _ _ _ _ _ _ 91%N (rd_no_elements Ha) H' E eq_refl (ex_intro _ _ eq_refl)).
    inversion H' as [| | |s2 Hn|src2 s2 Hb|a2 Ha2|l2 s2 Hl2| |]; subst v' s'; cbn in Hh; try discriminate; try lia; norm E; injection E as E.
    + destruct (@ws_unique a a2 (93%N :: r) (93%N :: r')) as [-> Er]; auto 8 using punct_no_ws. injection Er as ->. auto.
    + exfalso. destruct (elements_head Hl2) as (a2 & v2 & c & s' & -> & Ha2 & Hc). norm E.
      destruct (@ws_unique a a2 (93%N :: r) (c :: s' ++ 93%N :: r')) as [_ Er]; auto 8 using punct_no_ws; [cbn; eapply head_no_ws; eauto|].
      injection Er as <- _. destruct (@head_no_close _ _ Hc). congruence.
  - intros l s Hl IH v' s' r r' H' _ _ E. assert (Hh := HD _ _ _ _ _ _ 91%N (rd_array Hl) H' E eq_refl (ex_intro _ _ eq_refl)).
    inversion H' as [| | |s2 Hn|src2 s2 Hb|a2 Ha2|l2 s2 Hl2| |]; subst v' s'; cbn in Hh; try discriminate; try lia; norm E; injection E as E.
    + exfalso. destruct (elements_head Hl) as (a & v & c & s' & -> & Ha & Hc). norm E.
      destruct (@ws_unique a a2 (c :: s' ++ 93%N :: r) (93%N :: r')) as [_ Er]; auto 8 using punct_no_ws; [cbn; eapply head_no_ws; eauto|].
      injection Er as -> _. destruct (@head_no_close _ _ Hc). congruence.
    + destruct (IH _ _ _ _ Hl2 E) as (-> & -> & ->). auto.
  - intros a Ha v' s' r r' H' _ _ E. assert (Hh := HD _ _ _ _ _ _ 123%N (rd_no_members Ha) H' E eq_refl (ex_intro _ _ eq_refl)).
    inversion H' as [| | |s2 Hn|src2 s2 Hb| | |a2 Ha2|l2 s2 Hl2]; subst v' s'; cbn in Hh; try discriminate; try lia; norm E; injection E as E.
    + destruct (@ws_unique a a2 (125%N :: r) (125%N :: r')) as [-> Er]; auto 8 using punct_no_ws. injection Er as ->. auto.
    + exfalso. destruct (members_head Hl2) as (a2 & s' & -> & Ha2). norm E.
      destruct (@ws_unique a a2 (125%N :: r) (34%N :: s' ++ 125%N :: r')) as [_ Er]; auto 8 using punct_no_ws. discriminate Er.
  - intros l s Hl IH v' s' r r' H' _ _ E. assert (Hh := HD _ _ _ _ _ _ 123%N (rd_object Hl) H' E eq_refl (ex_intro _ _ eq_refl)).
    inversion H' as [| | |s2 Hn|src2 s2 Hb| | |a2 Ha2|l2 s2 Hl2]; subst v' s'; cbn in Hh; try discriminate; try lia; norm E; injection E as E.
    + exfalso. destruct (members_head Hl) as (a & s' & -> & Ha). norm E.
      destruct (@ws_unique a a2 (34%N :: s' ++ 125%N :: r) (125%N :: r')) as [_ Er]; auto 8 using punct_no_ws. discriminate Er.
    + destruct (IH _ _ _ _ Hl2 E) as (-> & -> & ->). auto.
  - (* one element *)
    intros v a s b Ha Hs IH Hb l' s' r r' H' E.
    inversion H' as [v2 a2 s2 b2 Ha2 Hs2 Hb2|v2 a2 s2 b2 l2 rest2 Ha2 Hs2 Hb2 Hl2]; subst l' s'; norm E;
      (eapply ws_unique in E as [-> E]; auto; [|eapply value_no_ws; eauto|eapply value_no_ws; eauto]);
      (destruct (fun h1 h2 => IH _ _ _ _ Hs2 h1 h2 E) as (<- & <- & Er); [apply stops_ws; auto|apply stops_ws; auto|]);
      (eapply ws_unique in Er as [-> Er]; auto 8 using punct_no_ws); [|first [discriminate Er|discriminate Ex]].
    injection Er as ->. auto.
  - (* more elements *)
    intros v a s b l rest Ha Hs IH Hb Hl IHl l' s' r r' H' E.
    inversion H' as [v2 a2 s2 b2 Ha2 Hs2 Hb2|v2 a2 s2 b2 l2 rest2 Ha2 Hs2 Hb2 Hl2]; subst l' s'; norm E;
      (eapply ws_unique in E as [-> E]; auto; [|eapply value_no_ws; eauto|eapply value_no_ws; eauto]);
      (destruct (fun h1 h2 => IH _ _ _ _ Hs2 h1 h2 E) as (<- & <- & Er); [apply stops_ws; auto|apply stops_ws; auto|]);
      (eapply ws_unique in Er as [-> Er]; auto 8 using punct_no_ws); [first [discriminate Er|discriminate Ex]|].
    injection Er as Er. destruct (IHl _ _ _ _ Hl2 Er) as (-> & -> & ->). auto.
  - (* one member *)
    intros key v a k b c s d Ha Hk Hb Hc Hs IH Hd l' s' r r' H' E.
    inversion H' as [key2 v2 a2 k2 b2 c2 s2 d2 Ha2 Hk2 Hb2 Hc2 Hs2 Hd2|key2 v2 a2 k2 b2 c2 s2 d2 l2 rest2 Ha2 Hk2 Hb2 Hc2 Hs2 Hd2 Hl2]; subst l' s'; norm E;
      (eapply ws_unique in E as [-> E]; auto 8 using punct_no_ws); injection E as E; norm E;
      (destruct (@body_unique _ _ Hk _ _ _ _ Hk2 E) as (<- & <- & Er)); norm Er;
      (eapply ws_unique in Er as [-> Er]; auto 8 using punct_no_ws); injection Er as Er; norm Er;
      (eapply ws_unique in Er as [-> Er]; auto; [|eapply value_no_ws; eauto|eapply value_no_ws; eauto]);
      (destruct (fun h1 h2 => IH _ _ _ _ Hs2 h1 h2 Er) as (<- & <- & Ex); [apply stops_ws; auto|apply stops_ws; auto|]);
      (eapply ws_unique in Ex as [-> Ex]; auto 8 using punct_no_ws); [|first [discriminate Er|discriminate Ex]].
    injection Ex as ->. auto.
  - (* more members *)
    intros key v a k b c s d l rest Ha Hk Hb Hc Hs IH Hd Hl IHl l' s' r r' H' E.
    inversion H' as [key2 v2 a2 k2 b2 c2 s2 d2 Ha2 Hk2 Hb2 Hc2 Hs2 Hd2|key2 v2 a2 k2 b2 c2 s2 d2 l2 rest2 Ha2 Hk2 Hb2 Hc2 Hs2 Hd2 Hl2]; subst l' s'; norm E;
      (eapply ws_unique in E as [-> E]; auto 8 using punct_no_ws); injection E as E; norm E;
      (destruct (@body_unique _ _ Hk _ _ _ _ Hk2 E) as (<- & <- & Er)); norm Er;
      (eapply ws_unique in Er as [-> Er]; auto 8 using punct_no_ws); injection Er as Er; norm Er;
      (eapply ws_unique in Er as [-> Er]; auto; [|eapply value_no_ws; eauto|eapply value_no_ws; eauto]);
      (destruct (fun h1 h2 => IH _ _ _ _ Hs2 h1 h2 Er) as (<- & <- & Ex); [apply stops_ws; auto|apply stops_ws; auto|]);
      (eapply ws_unique in Ex as [-> Ex]; auto 8 using punct_no_ws); [first [discriminate Er|discriminate Ex]|].
    injection Ex as Ex. destruct (IHl _ _ _ _ Hl2 Ex) as (-> & -> & ->). auto.
Qed.
