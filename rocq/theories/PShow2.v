(** The text of a notation: it determines the notation up to grouping. *)
From Verif Require Export PShow.
From Coq Require Import String.

Set Implicit Arguments.

Section ShowNotation.
Context {L C : Type}.
Variables (dbg_l : L -> str) (dbg_c : C -> str).
Notation show := (show_notation dbg_l dbg_c).
Notation nt := (notation L C).

Lemma regrouped_show n m : regrouped n m -> show n = show m.
Proof.
  induction 1; cbn [show_notation]; try congruence.
  rewrite <- !app_assoc. reflexivity.
Qed.

Hypothesis L_name : forall l, is_name (dbg_l l).
Hypothesis C_name : forall c, is_name (dbg_c c).
Hypothesis L_inj : forall l l', dbg_l l = dbg_l l' -> l = l'.
Hypothesis C_inj : forall c c', dbg_c c = dbg_c c' -> c = c'.

Fixpoint nsize (n : nt) : nat :=
  match n with
  | Flat m | Indent _ _ m | Style _ m => S (nsize m)
  | Concat a b | Choice a b | Check _ _ a b | Fold a b => S (nsize a + nsize b)
  | Count a b c => S (nsize a + nsize b + nsize c)
  | _ => 1
  end.

(** What may follow a notation: the end, a closing parenthesis, a comma, or " |". *)
Definition stop (s : str) : Prop :=
  s = [] \/ (exists t, s = 41%N :: t) \/ (exists t, s = 44%N :: t) \/ exists t, s = 32%N :: 124%N :: t.
(** What may follow a part of a concatenation: also " +". *)
Definition follow (s : str) : Prop := stop s \/ exists t, s = 32%N :: 43%N :: t.

Lemma follow_digit s : follow s -> opens is_digit s.
Proof. intros [[->|[[t ->]|[[t ->]|[t ->]]]]|[t ->]]; simpl; auto. Qed.
Lemma stop_paren t : stop (41%N :: t). Proof. right. left. eauto. Qed.
Lemma stop_comma t : stop (44%N :: t). Proof. right. right. left. eauto. Qed.
Lemma stop_bar t : stop (32%N :: 124%N :: t). Proof. right. right. right. eauto. Qed.

Definition is_concat (n : nt) : bool := match n with Concat _ _ => true | _ => false end.

(** A concatenation, regrouped to start with a part that is not one. *)
Lemma first_part (n : nt) : no_quotes n -> is_concat n = false \/
  exists a m, is_concat a = false /\ regrouped n (Concat a m) /\ no_quotes a /\ no_quotes m /\
    show n = show a ++ chars " + " ++ show m /\ nsize a < nsize n /\ nsize m < nsize n.
Proof.
  induction n as [| | | | | | |n1 IH1 n2 IH2| | | | | | | | |]; intros H; try (left; reflexivity).
  right. destruct H as [H1 H2]. destruct (IH1 H1) as [E|(a & m & Ea & Hr & Ha & Hm & Es & S1 & S2)].
  - exists n1, n2. split; [exact E|]. split; [apply rg_refl|]. cbn [nsize show_notation]. repeat (split; [solve [auto]|]). lia.
  - exists a, (Concat m n2). split; [exact Ea|]. split.
    { eapply rg_trans; [eapply rg_concat; [exact Hr|apply rg_refl]|apply rg_group]. }
    split; [exact Ha|]. split; [split; auto|]. cbn [nsize show_notation]. rewrite Es, <- !app_assoc. split; [reflexivity|]. lia.
Qed.

(** After its leading letters, a notation does not go on with "@". *)
Fixpoint after_name (s : str) : str :=
  match s with [] => [] | c :: s' => if name_char c then after_name s' else s end.
Lemma after_name_app a s : is_name a -> after_name (a ++ s) = after_name s.
Proof. unfold is_name. induction a as [|c a IH]; simpl; auto. intros H. apply andb_prop in H as [-> H]. auto. Qed.
Definition not_at (s : str) : Prop := match after_name s with 64%N :: _ => False | _ => True end.
Lemma show_not_at n : forall t, not_at (32%N :: t) -> not_at (show n ++ 32%N :: t).
Proof.
  induction n; intros t H; cbn [show_notation]; try exact I.
  rewrite <- app_assoc. apply IHn1. exact I.
Qed.

Lemma quote_cut a b s t : ~ In 39%N a -> ~ In 39%N b -> a ++ 39%N :: s = b ++ 39%N :: t -> a = b /\ s = t.
Proof.
  intros Ha Hb E. assert (Hc : forall a : str, ~ In 39%N a -> forallb (fun c => negb (c =? 39)%N) a = true).
  { intros x Hx. apply forallb_forall. intros c Hin. destruct (N.eqb_spec c 39); [subst; contradiction|reflexivity]. }
  apply (@span_unique (fun c => negb (c =? 39)%N)) in E as [-> E]; auto; try reflexivity. injection E as ->. auto.
Qed.

Lemma name_cut a b s t : is_name a -> is_name b -> opens name_char s -> opens name_char t -> a ++ s = b ++ t -> a = b /\ s = t.
Proof. intros. eapply (@span_unique name_char); eauto. Qed.

Lemma checkpos_cut p q s t : opens name_char s -> opens name_char t ->
  debug_checkpos p ++ s = debug_checkpos q ++ t -> p = q /\ s = t.
Proof.
  intros Hs Ht E. destruct p, q; cbn [debug_checkpos] in E; try discriminate E; try (injection E as E; auto; fail).
  rewrite <- !app_assoc in E. apply app_inv_head in E. apply show_Z_cut in E as [-> E]; [|reflexivity..]. injection E as E. auto.
Qed.

Definition reads (k : nat) : Prop := forall n m s t, nsize n < k -> no_quotes n -> no_quotes m -> stop s -> stop t ->
  show n ++ s = show m ++ t -> regrouped n m /\ s = t.

Lemma digit_letter z s t c : show_Z z ++ s = c :: t -> (is_digit c || (c =? 45)%N) = true.
Proof. intros E. destruct (show_Z_head z s) as (c' & s' & E' & H). rewrite E' in E. injection E as -> _. exact H. Qed.

(** One part. *)
Lemma part_reads k : reads k -> forall n m s t, nsize n <= k -> no_quotes n -> no_quotes m ->
  is_concat n = false -> is_concat m = false -> follow s -> follow t ->
  show n ++ s = show m ++ t -> regrouped n m /\ s = t.
Proof.
  intros Hk n m s t Hsz Hn Hm Cn Cm Fs Ft E.
  destruct n, m; try discriminate Cn; try discriminate Cm; cbn [show_notation] in E; cbn [nsize] in Hsz;
    rewrite <- ?app_assoc in E; try discriminate E; try (injection E as E; split; [apply rg_refl|exact E]).
  all: cbn [no_quotes] in Hn, Hm.
  - (* Literal, Literal *) cbn [chars app] in E. injection E as E. apply quote_cut in E as [-> ->]; auto. split; [apply rg_refl|reflexivity].
  - (* Literal, Indent *) exfalso. cbn [chars app] in E. injection E as E. destruct Hm as [Hm _]. apply quote_cut in E as [_ E]; auto.
    destruct Fs as [[->|[[u ->]|[[u ->]|[u ->]]]]|[u ->]]; discriminate.
  - (* Flat *) apply app_inv_head in E. apply Hk in E as [E1 E2]; auto; try apply stop_paren; try lia.
    injection E2 as ->. split; [apply rg_flat; exact E1|reflexivity].
  - (* Indent, Literal *) exfalso. cbn [chars app] in E. injection E as E. destruct Hn as [Hn _]. apply quote_cut in E as [_ E]; auto.
    destruct Ft as [[->|[[u ->]|[[u ->]|[u ->]]]]|[u ->]]; discriminate.
  - (* Indent *) destruct Hn as [Hn1 Hn], Hm as [Hm1 Hm]. cbn [chars app] in E. injection E as E. apply quote_cut in E as [-> E]; auto.
    injection E as E. apply Hk in E as [E1 E2]; auto; try apply stop_paren; try lia. injection E2 as ->.
    split; [|reflexivity]. eapply rg_trans; [apply rg_label|apply rg_indent; exact E1].
  - (* Choice *) destruct Hn as [Hn1 Hn], Hm as [Hm1 Hm]. apply app_inv_head in E. apply Hk in E as [E1 E2]; auto; try apply stop_bar; try lia.
    apply app_inv_head in E2. apply Hk in E2 as [E2 E3]; auto; try apply stop_paren; try lia. injection E3 as ->.
    split; [apply rg_choice; auto|reflexivity].
  - (* Choice, Check *) exfalso. apply app_inv_head in E. cbn [chars app] in E.
    match type of E with ?l = _ => assert (Hl : not_at l) by (apply show_not_at; exact I) end.
    rewrite E in Hl. unfold not_at in Hl. rewrite after_name_app in Hl by apply C_name. exact Hl.
  - (* Check, Choice *) exfalso. symmetry in E. apply app_inv_head in E. cbn [chars app] in E.
    match type of E with ?l = _ => assert (Hl : not_at l) by (apply show_not_at; exact I) end.
    rewrite E in Hl. unfold not_at in Hl. rewrite after_name_app in Hl by apply C_name. exact Hl.
  - (* Check *) destruct Hn as [Hn1 Hn], Hm as [Hm1 Hm]. apply app_inv_head in E.
    apply name_cut in E as [Ec E]; auto; try reflexivity. apply C_inj in Ec. apply app_inv_head in E.
    apply checkpos_cut in E as [Ep E]; [|reflexivity..]. apply app_inv_head in E.
    apply Hk in E as [E1 E2]; auto; try apply stop_bar; try lia.
    apply app_inv_head in E2. apply Hk in E2 as [E2 E3]; auto; try apply stop_paren; try lia. injection E3 as ->.
    rewrite Ec, Ep. split; [apply rg_check; auto|reflexivity].
  - (* Child *) apply app_inv_head in E. apply show_Z_cut in E as [-> ->]; try (apply follow_digit; assumption). split; [apply rg_refl|reflexivity].
  - exfalso. cbn [chars app] in E. injection E as E. apply digit_letter in E. discriminate.
  - exfalso. cbn [chars app] in E. injection E as E. apply digit_letter in E. discriminate.
  - (* Style *) apply app_inv_head in E. apply name_cut in E as [El E]; auto; try reflexivity. apply L_inj in El. apply app_inv_head in E.
    apply Hk in E as [E1 E2]; auto; try apply stop_paren; try lia. injection E2 as ->. rewrite El. split; [apply rg_style; exact E1|reflexivity].
  - (* Count *) destruct Hn as (Hn1 & Hn2 & Hn3), Hm as (Hm1 & Hm2 & Hm3). apply app_inv_head in E.
    apply Hk in E as [E1 E2]; auto; try apply stop_comma; try lia. apply app_inv_head in E2.
    apply Hk in E2 as [E2 E3]; auto; try apply stop_comma; try lia. apply app_inv_head in E3.
    apply Hk in E3 as [E3 E4]; auto; try apply stop_paren; try lia. injection E4 as ->.
    split; [apply rg_count; auto|reflexivity].
  - (* Fold *) destruct Hn as (Hn1 & Hn2), Hm as (Hm1 & Hm2). apply app_inv_head in E.
    apply Hk in E as [E1 E2]; auto; try apply stop_comma; try lia. apply app_inv_head in E2.
    apply Hk in E2 as [E2 E3]; auto; try apply stop_paren; try lia. injection E3 as ->.
    split; [apply rg_fold; auto|reflexivity].
  - exfalso. symmetry in E. cbn [chars app] in E. injection E as E. apply digit_letter in E. discriminate.
  - exfalso. symmetry in E. cbn [chars app] in E. injection E as E. apply digit_letter in E. discriminate.
Qed.

Lemma plus_follow t : follow (chars " + " ++ t). Proof. right. exists (32%N :: t). reflexivity. Qed.
Lemma stop_plus t : ~ stop (chars " + " ++ t).
Proof. intros [H|[[u H]|[[u H]|[u H]]]]; discriminate. Qed.

Lemma all_reads k : reads k.
Proof.
  induction k as [|k IH]; [intros n m s t H; lia|].
  intros n m s t Hsz Hn Hm Hs Ht E.
  destruct (first_part n Hn) as [Cn|(a & n' & Ca & Rn & Ha & Hn' & En & S1 & S2)];
  destruct (first_part m Hm) as [Cm|(b & m' & Cb & Rm & Hb & Hm' & Em & _)].
  - eapply part_reads; eauto; try lia; left; assumption.
  - exfalso. rewrite Em, <- !app_assoc in E. apply (part_reads IH) in E as [_ E]; auto; try lia; try (left; assumption); try apply plus_follow.
    rewrite E in Hs. exact (stop_plus Hs).
  - exfalso. rewrite En, <- !app_assoc in E. apply (part_reads IH) in E as [_ E]; auto; try lia; try (left; assumption); try apply plus_follow.
    rewrite <- E in Ht. exact (stop_plus Ht).
  - rewrite En, Em, <- !app_assoc in E. apply (part_reads IH) in E as [E1 E]; auto; try lia; try apply plus_follow.
    apply app_inv_head in E. apply IH in E as [E2 E]; auto; try lia. split; [|exact E].
    eapply rg_trans; [exact Rn|]. eapply rg_trans; [apply rg_concat; eassumption|]. apply rg_sym. exact Rm.
Qed.

Lemma show_reads n m : no_quotes n -> no_quotes m -> show n = show m -> regrouped n m.
Proof.
  intros Hn Hm E. destruct (@all_reads (S (nsize n)) n m [] []) as [H _]; auto; try (left; reflexivity).
  rewrite !app_nil_r. exact E.
Qed.

End ShowNotation.
