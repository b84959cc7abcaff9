(** Proofs about the test harness (C72). *)
From Verif Require Export Harness Properties18 Properties7 Properties12 PMono.

Set Implicit Arguments.

(** ** Strings *)

Lemma join_newlines_lines ls : join_newlines ls = join_lines ls.
Proof. destruct ls as [|l ls]; [reflexivity|]. apply display_join. Qed.

Lemma split_newlines_nonempty s : split_newlines s <> [].
Proof.
  induction s as [|c s IH]; [discriminate|]. cbn [split_newlines].
  destruct (split_newlines s) as [|l ls]; [exact IH|]. destruct (c =? newline_char)%N; discriminate.
Qed.

Lemma join_lines_cons l ls : ls <> [] -> join_lines (l :: ls) = l ++ newline_char :: join_lines ls.
Proof. destruct ls; [congruence|]. intros _. reflexivity. Qed.

Lemma join_split s : join_newlines (split_newlines s) = s.
Proof.
  rewrite join_newlines_lines. induction s as [|c s IH]; [reflexivity|]. cbn [split_newlines].
  pose proof (split_newlines_nonempty s) as Hn. destruct (split_newlines s) as [|l ls] eqn:E; [congruence|].
  destruct (N.eqb_spec c newline_char) as [->|Hc].
  - rewrite join_lines_cons by discriminate. rewrite IH. reflexivity.
  - destruct ls as [|l2 ls]; [cbn in *; congruence|].
    rewrite join_lines_cons by discriminate. rewrite join_lines_cons in IH by discriminate. rewrite <- IH. reflexivity.
Qed.

Lemma ev_for_each {X A} (l : list A) (f : nat -> A -> res X unit) :
  (forall x, In x l -> ev (fun n => f n x) (Ok tt)) -> ev (fun n => for_each l (f n)) (Ok tt).
Proof.
  induction l as [|x l IH]; intros H; [exists 0; reflexivity|]. cbn [for_each].
  apply ev_bind_ok with (a := tt); [apply H; left; reflexivity|]. apply IH. intros y Hy. apply H. right. exact Hy.
Qed.

Lemma for_each_ok {X A} (l : list A) (f : A -> res X unit) : for_each l f = Ok tt -> forall x, In x l -> f x = Ok tt.
Proof.
  induction l as [|y l IH]; [contradiction|]. cbn [for_each]. intros H x Hx. apply bind_ok in H as ([] & H1 & H2).
  destruct Hx as [->|Hx]; auto.
Qed.

(** ** The paths of a document *)
Section Paths.
Context {pd : PrettyDoc}.

Lemma paths_spec r : forall d, rep r d -> forall path,
  exists l, ev (fun n => paths_below n d path) (Ok l) /\ forall q, In q l <-> exists p x, q = path ++ p /\ node_at r p = Some x.
Proof.
  induction r as [i s|i ks IH] using rdoc_ind'; intros d Hr path.
  - inversion Hr as [i0 s0 d0 Hi Hn Ht|]; subst. exists [path]. split.
    + exists 1. intros [|n] H; [lia|]. cbn [paths_below]. rewrite Hn. reflexivity.
    + intros q. split.
      * intros [<-|[]]. exists [], (RText i s). rewrite app_nil_r. auto.
      * intros ([|m p] & x & -> & Hx); [rewrite app_nil_r; left; reflexivity|]. cbn in Hx. destruct m; discriminate.
  - inversion Hr as [|i0 ks0 d0 Hi Hn Hc Hl Hp Hk]; subst.
    assert (G : forall m a, a + m = length ks -> exists l,
      ev (fun n => (fix kids (is : list nat) : pres (list (list nat)) :=
        match is with
        | [] => Ok []
        | i :: is' =>
            child <- unwrapped (lift (m_unwrap_child d i)) ;;
            here <- paths_below n child (path ++ [i]) ;;
            more <- kids is' ;;
            Ok (here ++ more)
        end) (seq a m)) (Ok l) /\
      forall q, In q l <-> exists j p x, a <= j /\ q = path ++ j :: p /\ node_at (RBranch i ks) (j :: p) = Some x).
    { induction m as [|m IHm]; intros a Ha.
      - exists []. split; [exists 0; reflexivity|]. intros q. split; [intros []|]. intros (j & p & x & Hj & _ & Hx). cbn in Hx.
        rewrite (proj2 (nth_error_None ks j)) in Hx by lia. discriminate.
      - destruct (nth_error ks a) as [k|] eqn:Ek; [|apply nth_error_None in Ek; lia].
        destruct (Hc a ltac:(lia)) as (c & Ec).
        destruct (IH k (nth_error_In _ _ Ek) c (Hk _ _ _ (@ch_child pd d (length ks) a c Hn ltac:(lia) Ec) Ek) (path ++ [a])) as (l1 & E1 & H1).
        destruct (IHm (S a) ltac:(lia)) as (l2 & E2 & H2). exists (l1 ++ l2). split.
        + cbn [seq]. apply ev_bind_const with (a := c); [rewrite Ec; reflexivity|].
          apply ev_bind_ok with (a := l1); [exact E1|]. apply ev_bind_ok with (a := l2); [exact E2|]. exists 0. reflexivity.
        + intros q. rewrite in_app_iff, H1, H2. split.
          * intros [(p & x & -> & Hx)|(j & p & x & Hj & -> & Hx)].
            -- exists a, p, x. split; [lia|]. split; [rewrite <- app_assoc; reflexivity|]. cbn. rewrite Ek. exact Hx.
            -- exists j, p, x. split; [lia|]. split; [reflexivity|exact Hx].
          * intros (j & p & x & Hj & -> & Hx). destruct (Nat.eq_dec j a) as [->|Hne].
            -- left. exists p, x. split; [rewrite <- app_assoc; reflexivity|]. cbn in Hx. rewrite Ek in Hx. exact Hx.
            -- right. exists j, p, x. split; [lia|]. split; [reflexivity|exact Hx]. }
    destruct (G (length ks) 0 eq_refl) as (l & (N & El) & H). exists (path :: l). split.
    + exists (S N). intros [|n] Hle; [lia|]. cbn [paths_below]. rewrite Hn. cbn [lift unwrapped bind]. rewrite El by lia. reflexivity.
    + intros q. cbn [In]. rewrite H. split.
      * intros [<-|(j & p & x & _ & -> & Hx)]; [exists [], (RBranch i ks); rewrite app_nil_r; auto|exists (j :: p), x; auto].
      * intros ([|j p] & x & -> & Hx); [left; rewrite app_nil_r; reflexivity|right]. exists j, p, x. split; [lia|]. split; [reflexivity|exact Hx].
Qed.

Lemma all_paths_spec r d : rep r d -> exists l, ev (fun n => all_paths n d) (Ok l) /\ forall q, In q l <-> node_at r q <> None.
Proof.
  intros Hr. destruct (paths_spec Hr []) as (l & E & H). exists l. split; [exact E|]. intros q. rewrite H. split.
  - intros (p & x & -> & Hx). cbn. congruence.
  - intros Hn. destruct (node_at r q) as [x|] eqn:Eq; [|congruence]. exists q, x. auto.
Qed.
End Paths.

(** ** A test on a document that can be printed *)
Section Test.
Context {pd : PrettyDoc} {env : Env}.

Lemma segs_app' a b : segs_to_string (a ++ b) = segs_to_string a ++ segs_to_string b.
Proof. unfold segs_to_string. rewrite map_app, concat_app. reflexivity. Qed.

Lemma ev_above_below doc w path ft ups fl downs :
  printed doc w path ft None ups fl downs ->
  ev (fun n => print_above_and_below n doc w path ft)
     (Ok (rev (map segs_to_string ups), segs_to_string (left_segments fl), segs_to_string (right_segments fl), map segs_to_string downs)).
Proof.
  intros (up & down & (N1 & H1) & (N2 & H2) & (N3 & H3)). exists (N1 + N2 + N3). intros n Hn. unfold print_above_and_below.
  rewrite H1 by lia. cbn [unwrapped bind]. rewrite H2 by lia. cbn [unwrapped bind]. rewrite H3 by lia. reflexivity.
Qed.

Lemma concat_all_lines ups fl downs :
  concat_lines (rev (map segs_to_string ups)) (segs_to_string (left_segments fl)) (segs_to_string (right_segments fl)) (map segs_to_string downs) =
  map segs_to_string (all_lines ups fl downs).
Proof. unfold concat_lines, all_lines. rewrite map_app, map_rev. cbn [map]. rewrite segs_app', <- app_assoc. reflexivity. Qed.

Lemma compare_same s : compare_lines s s = Ok tt.
Proof. unfold compare_lines. rewrite (proj2 (str_eqb_spec s s)) by reflexivity. reflexivity. Qed.

Lemma compare_ok a b : compare_lines a b = Ok tt -> a = b.
Proof. unfold compare_lines. destruct (str_eqb b a) eqn:E; [|discriminate]. intros _. apply str_eqb_spec in E. auto. Qed.

Lemma ev_oracle_test r doc w s expected :
  rep r doc -> ev (fun n => oracular_pretty_print n doc w) (Ok s) -> ev (fun n => pretty_print_to_string n doc w) (Ok s) ->
  (forall path ft, node_at r path <> None -> ft = FStart \/ ft = FEnd ->
     exists ups fl downs, printed doc w path ft None ups fl downs /\ join_lines (map segs_to_string (all_lines ups fl downs)) = s) ->
  (forall ls, expected = Some ls -> join_lines ls = s) ->
  ev (fun n => assert_pp_impl n doc w expected) (Ok tt).
Proof.
  intros Hr Ho Hs Hf He. unfold assert_pp_impl.
  apply ev_bind_ok with (a := s); [exact Ho|].
  apply ev_bind_const with (a := tt).
  { destruct expected as [ls|]; [|reflexivity]. rewrite join_newlines_lines, (He ls eq_refl). apply compare_same. }
  apply ev_bind_ok with (a := s). { destruct Hs as (N & H). exists N. intros n Hn. rewrite H by lia. reflexivity. }
  apply ev_bind_const with (a := tt).
  { rewrite join_split. destruct expected; [apply compare_same|].
    destruct (rep_info_eqs (rep_info_of Hr)) as (_ & H2 & _). rewrite H2. cbn [lift unwrapped bind]. apply compare_same. }
  destruct (all_paths_spec Hr) as (l & El & Hl). apply ev_bind_ok with (a := l); [exact El|].
  apply ev_for_each with (f := fun n path => for_each [FStart; FEnd] (fun focus_target =>
      '(lines_above, left_string, right_string, lines_below) <- print_above_and_below n doc w path focus_target ;;
      compare_lines s (join_newlines (concat_lines lines_above left_string right_string lines_below)))).
  intros path Hp. apply Hl in Hp.
  apply ev_for_each with (f := fun n focus_target =>
      '(lines_above, left_string, right_string, lines_below) <- print_above_and_below n doc w path focus_target ;;
      compare_lines s (join_newlines (concat_lines lines_above left_string right_string lines_below))).
  intros ft Hft. destruct (Hf path ft Hp) as (ups & fl & downs & Hpr & E). { destruct Hft as [<-|[<-|[]]]; auto. }
  eapply ev_bind_ok; [apply ev_above_below; exact Hpr|]. exists 0. intros n _. cbn beta iota.
  rewrite concat_all_lines, join_newlines_lines, E. apply compare_same.
Qed.

(** What a test that passes has established. *)
Lemma passing_test n doc w expected : assert_pp_impl n doc w expected = Ok tt ->
  exists s paths, oracular_pretty_print n doc w = Ok s /\ pretty_print_to_string n doc w = Ok s /\ all_paths n doc = Ok paths /\
    (forall ls, expected = Some ls -> join_lines ls = s) /\
    forall path ft, In path paths -> ft = FStart \/ ft = FEnd ->
      exists up fl down ups downs, pretty_print n doc w path ft None = Ok (up, fl, down) /\
        collect n (up_next n) up = Ok ups /\ collect n (down_next n) down = Ok downs /\
        join_lines (map segs_to_string (all_lines ups fl downs)) = s.
Proof.
  unfold assert_pp_impl. intros H. apply bind_ok in H as (s & Hs & H). apply bind_ok in H as ([] & H1 & H).
  apply bind_ok in H as (s' & Hs' & H). apply bind_ok in H as ([] & H2 & H). apply bind_ok in H as (paths & Hp & H).
  assert (U : forall A (x : pres A) a, unwrapped x = Ok a -> x = Ok a) by (intros A [|[]]; cbn; congruence).
  apply U in Hs'. rewrite join_split in H2.
  assert (E : s = s').
  { destruct expected; [apply compare_ok; exact H2|]. apply bind_ok in H2 as (x & _ & H2). apply compare_ok; exact H2. }
  subst s'. exists s, paths. split; [exact Hs|]. split; [exact Hs'|]. split; [exact Hp|]. split.
  { intros ls ->. apply compare_ok in H1. rewrite join_newlines_lines in H1. auto. }
  intros path ft Hin Hft. pose proof (for_each_ok _ _ H path Hin) as Ha.
  assert (Hft' : In ft [FStart; FEnd]) by (destruct Hft; subst; cbn; auto).
  pose proof (for_each_ok _ _ Ha ft Hft') as Hb. cbn beta in Hb. apply bind_ok in Hb as ([[[la lf] ri] lb] & Hc & Hd).
  apply compare_ok in Hd. unfold print_above_and_below in Hc. apply bind_ok in Hc as ([[up fl] down] & Hc & H3). apply U in Hc.
  apply bind_ok in H3 as (ups & H3 & H4). apply U in H3. apply bind_ok in H4 as (downs & H4 & H5). apply U in H4.
  injection H5 as <- <- <- <-. exists up, fl, down, ups, downs. split; [exact Hc|]. split; [exact H3|]. split; [exact H4|].
  rewrite concat_all_lines, join_newlines_lines in Hd. auto.
Qed.
End Test.

(** ** More fuel does not change a result *)
Section More.
Context {pd : PrettyDoc} {env : Env}.

Lemma fle_ev {X A} (f : nat -> res X A) n a : (forall m, n <= m -> fle (f n) (f m)) -> f n = Ok a -> ev f (Ok a).
Proof. intros H E. exists n. intros m Hm. destruct (H m Hm) as [E'|E']; congruence. Qed.

Lemma first_len_mono n : forall m, n <= m -> forall c s, fle (first_line_len n c s) (first_line_len m c s).
Proof.
  induction n as [|n IH]; intros m Hm c s; [left; reflexivity|]. destruct m as [|m]; [lia|]. specialize (IH m ltac:(lia)).
  destruct c; cbn [first_line_len]; repeat first [apply fle_refl | apply IH | apply fle_bind; [|intros]].
Qed.

Lemma opp_mono n : forall m, n <= m -> forall p c s w, fle (opp n p c s w) (opp m p c s w).
Proof.
  induction n as [|n IH]; intros m Hm p c s w; [left; reflexivity|]. destruct m as [|m]; [lia|]. specialize (IH m ltac:(lia)).
  pose proof (first_len_mono (n := n) (m := m) ltac:(lia)) as Hf.
  cbn [opp]. destruct (w <? MAX_WIDTH)%N; [|apply fle_refl].
  destruct c; repeat first [apply fle_refl | apply IH | apply Hf | apply fle_bind; [|intros]].
Qed.

Lemma fle_unwrapped {A} (x y : pres A) : fle x y -> fle (unwrapped x) (unwrapped y).
Proof. intros [->| ->]; [left; reflexivity|apply fle_refl]. Qed.

Lemma oracle_mono n m doc w : n <= m -> fle (oracular_pretty_print n doc w) (oracular_pretty_print m doc w).
Proof.
  intros H. unfold oracular_pretty_print. do 2 (apply fle_bind; [apply fle_refl|intros]).
  apply fle_bind; [apply fle_unwrapped; apply opp_mono; exact H|]. intros. apply fle_refl.
Qed.

Lemma collect_mono n m next : n <= m -> (forall p, fle (next n p) (next m p)) ->
  forall p, fle (collect n (next n) p) (collect m (next m) p).
Proof.
  intros H Hn p. unfold collect. apply fle_loop; [exact H|]. intros [q l]. unfold collect_body.
  apply fle_bind; [apply Hn|]. intros [q' o]. apply fle_refl.
Qed.

Lemma paths_mono n : forall m, n <= m -> forall d path, fle (paths_below n d path) (paths_below m d path).
Proof.
  induction n as [|n IH]; intros m Hm d path; [left; reflexivity|]. destruct m as [|m]; [lia|]. specialize (IH m ltac:(lia)).
  cbn [paths_below]. apply fle_bind; [apply fle_refl|]. intros k. apply fle_bind; [|intros; apply fle_refl].
  induction (seq 0 (match k with Some n0 => n0 | None => 0 end)) as [|i is IHi]; [apply fle_refl|].
  apply fle_bind; [apply fle_refl|]. intros c. apply fle_bind; [apply IH|]. intros here. apply fle_bind; [apply IHi|]. intros. apply fle_refl.
Qed.
End More.
