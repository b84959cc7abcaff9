(** Builds with and without overflow checks (C55).  No hypotheses about the
    documents: their notations need not be validated, and their methods may
    behave as they like. *)
From Verif Require Export POverflow2 SpecPrint.

Set Implicit Arguments.

Lemma ev_checked {X A} (a b : nat -> res X A) r : (forall n, checked (a n) (b n)) -> ev a r ->
  r = Panic POverflow \/ ev b r.
Proof.
  intros H [N Hr]. destruct r as [x|[e|p|]].
  - right. exists N. intros n Hn. destruct (H n) as [E|E]; rewrite Hr in E by assumption; congruence.
  - right. exists N. intros n Hn. destruct (H n) as [E|E]; rewrite Hr in E by assumption; congruence.
  - destruct p; try (left; reflexivity); right; exists N; intros n Hn; (destruct (H n) as [E|E]; rewrite Hr in E by assumption; congruence).
  - right. exists N. intros n Hn. destruct (H n) as [E|E]; rewrite Hr in E by assumption; congruence.
Qed.
Lemma ev_checked_ok {X A} (a b : nat -> res X A) x : (forall n, checked (a n) (b n)) -> ev a (Ok x) -> ev b (Ok x).
Proof. intros H Ha. destruct (ev_checked b H Ha) as [E|E]; [discriminate|exact E]. Qed.

(** C55.  The arithmetic of the two builds: with checks, the exact result or a
    panic; without, the result in range that is congruent to the exact one. *)
Theorem C55_arithmetic {X} (m a b : N) : (0 < m)%N -> (a < m)%N -> (b < m)%N ->
  let exact (r : res X N) (x : Z) := (0 <= x < Z.of_N m)%Z /\ r = Ok (Z.to_N x) \/ ~ (0 <= x < Z.of_N m)%Z /\ r = Panic POverflow in
  let wraps (r : res X N) (x : Z) := exists c, r = Ok c /\ (c < m)%N /\ (Z.of_N c mod Z.of_N m = x mod Z.of_N m)%Z in
  exact (addM m true a b) (Z.of_N a + Z.of_N b)%Z /\ wraps (addM m false a b) (Z.of_N a + Z.of_N b)%Z /\
  exact (subM m true a b) (Z.of_N a - Z.of_N b)%Z /\ wraps (subM m false a b) (Z.of_N a - Z.of_N b)%Z /\
  exact (mulM m true a b) (Z.of_N a * Z.of_N b)%Z /\ wraps (mulM m false a b) (Z.of_N a * Z.of_N b)%Z.
Proof.
  intros Hm Ha Hb exact wraps.
  assert (E : forall x, exact (if (x <? m)%N then Ok x else Panic POverflow) (Z.of_N x)).
  { intros x. unfold exact. destruct (N.ltb_spec x m); [left|right]; (split; [lia|]); [rewrite N2Z.id|]; reflexivity. }
  assert (W : forall x, wraps (if (x <? m)%N then Ok x else Ok (x mod m)%N) (Z.of_N x)).
  { intros x. unfold wraps. destruct (N.ltb_spec x m); [exists x|exists (x mod m)%N]; (split; [reflexivity|]).
    - split; [assumption|reflexivity].
    - split; [apply N.mod_lt; lia|]. rewrite N2Z.inj_mod by lia. apply Z.mod_mod. lia. }
  rewrite <- N2Z.inj_add, <- N2Z.inj_mul. split; [apply E|]. split; [apply W|]. split; [|split; [|split; [apply E|apply W]]].
  - unfold exact, subM. destruct (N.leb_spec b a); [left|right]; (split; [lia|]); [|reflexivity]. f_equal. lia.
  - unfold wraps, subM. destruct (N.leb_spec b a); eexists; (split; [reflexivity|]).
    + split; [lia|]. f_equal. lia.
    + rewrite N.mod_small by lia. split; [lia|]. replace (Z.of_N (m + a - b)) with (Z.of_N a - Z.of_N b + 1 * Z.of_N m)%Z by lia.
      apply Z_mod_plus_full.
Qed.

Section Builds.
Context {pd : PrettyDoc}.
Variables (uw : str -> N) (cf : char -> bool).
Local Notation with_checks := (Build_Env uw cf true).
Local Notation without_checks := (Build_Env uw cf false).

(** C55.  What is printed by a build with overflow checks is also printed by a
    build without them. *)
Theorem C55_printed doc w path ft st ups fl downs :
  @printed pd with_checks doc w path ft st ups fl downs -> @printed pd without_checks doc w path ft st ups fl downs.
Proof.
  intros (up & down & H1 & H2 & H3). exists up, down. split; [|split].
  - eapply ev_checked_ok; [|exact H1]. intros n. apply checked_pretty_print.
  - eapply ev_checked_ok; [|exact H2]. intros n. apply checked_collect. apply checked_up.
  - eapply ev_checked_ok; [|exact H3]. intros n. apply checked_collect. apply checked_down.
Qed.

(** C55.  The only failure that the checks add is the panic at an overflow. *)
Theorem C55_fails doc w path ft st f :
  @print_fails pd with_checks doc w path ft st f -> f = FPanic POverflow \/ @print_fails pd without_checks doc w path ft st f.
Proof.
  intros [H|(up & fl & down & H1 & H2)].
  - destruct (ev_checked (fun n => @pretty_print pd without_checks n doc w path ft st) (fun n => @checked_pretty_print pd uw cf n doc w path ft st) H) as [E|E];
      [left; congruence|right; left; exact E].
  - assert (H1' : ev (fun n => @pretty_print pd without_checks n doc w path ft st) (Ok (up, fl, down)))
      by (eapply ev_checked_ok; [|exact H1]; intros n; apply checked_pretty_print).
    destruct H2 as [H2|H2].
    + destruct (ev_checked (fun n => collect n (@up_next pd without_checks n) up) (fun n => checked_collect n _ _ up (@checked_up pd uw cf n)) H2) as [E|E];
        [left; congruence|]. right. right. exists up, fl, down. split; [exact H1'|left; exact E].
    + destruct (ev_checked (fun n => collect n (@down_next pd without_checks n) down) (fun n => checked_collect n _ _ down (@checked_down pd uw cf n)) H2) as [E|E];
        [left; congruence|]. right. right. exists up, fl, down. split; [exact H1'|right; exact E].
Qed.

Theorem C55_to_string doc w r :
  ev (fun n => @pretty_print_to_string pd with_checks n doc w) r ->
  r = Panic POverflow \/ ev (fun n => @pretty_print_to_string pd without_checks n doc w) r.
Proof. apply ev_checked. intros n. apply checked_to_string. Qed.

Theorem C55_oracle doc w r :
  ev (fun n => @oracular_pretty_print pd with_checks n doc w) r ->
  r = Panic POverflow \/ ev (fun n => @oracular_pretty_print pd without_checks n doc w) r.
Proof. apply ev_checked. intros n. apply checked_oracle. Qed.

(** C55.  Panes: the same is done to the window. *)
Theorem C55_panes {pw : PrettyWindow Sty} {L} (get : L -> option (D * printing_options)) fuel p st win win' r :
  @display_pane pd with_checks pw L get fuel p st win = (win', r) ->
  r = Panic POverflow \/ @display_pane pd without_checks pw L get fuel p st win = (win', r).
Proof. intros H. destruct (@checked_display_pane pd pw uw cf L get fuel p st win) as [E|E]; rewrite H in E; [right; congruence|left; exact E]. Qed.

End Builds.

(** C55.  Trees: the same trees are made. *)
Theorem C55_trees {ts : TreeStyle} note s children counter :
  (forall r, tree_new_text true note s counter = r -> r = Panic POverflow \/ tree_new_text false note s counter = r) /\
  (forall r, tree_new_branch true note children counter = r -> r = Panic POverflow \/ tree_new_branch false note children counter = r).
Proof.
  assert (H1 : checked (tree_new_text true note s counter) (tree_new_text false note s counter)) by (unfold tree_new_text, next_id; chk).
  assert (H2 : checked (tree_new_branch true note children counter) (tree_new_branch false note children counter)) by (unfold tree_new_branch, next_id; chk).
  split; intros r <-; [destruct H1 as [E|E]|destruct H2 as [E|E]]; auto.
Qed.
