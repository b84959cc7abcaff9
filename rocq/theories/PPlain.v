(** PlainText shows the grid of cells. *)
From Verif Require Export SpecPlain PPane2.
From Coq Require Import Permutation.

Set Implicit Arguments.

(** ** Vectors *)

Lemma set_index_spec {A} (x : A) : forall l i, i < length l ->
  exists l', set_index l i x = Some l' /\ length l' = length l /\
    forall j, nth_error l' j = if j =? i then Some x else nth_error l j.
Proof.
  induction l as [|y l IH]; intros i Hi; [simpl in Hi; lia|]. destruct i as [|i].
  - exists (x :: l). split; [reflexivity|]. split; [reflexivity|]. intros [|j]; reflexivity.
  - simpl in Hi. destruct (IH i) as (l' & E & Hl & Hn); [lia|]. exists (y :: l'). simpl. rewrite E. split; [reflexivity|].
    split; [lia|]. intros [|j]; [reflexivity|]. simpl. apply Hn.
Qed.

Lemma nth_repeat_lt {A} (x : A) : forall n j, j < n -> nth_error (repeat x n) j = Some x.
Proof. induction n as [|n IH]; intros [|j] H; try lia; [reflexivity|]. simpl. apply IH. lia. Qed.

Lemma resize_spec {A} (x : A) l n : length l <= n ->
  length (resize n x l) = n /\
  forall j, nth_error (resize n x l) j = if j <? length l then nth_error l j else if j <? n then Some x else None.
Proof.
  intros H. unfold resize. rewrite firstn_all2 by lia. split; [rewrite app_length, repeat_length; lia|].
  intros j. destruct (Nat.ltb_spec j (length l)) as [H1|H1]; [apply nth_error_app1; lia|].
  rewrite nth_error_app2 by lia. destruct (Nat.ltb_spec j n) as [H2|H2].
  - apply nth_repeat_lt. lia.
  - apply nth_error_None. rewrite repeat_length. lia.
Qed.

Lemma grow_spec {A} (x : A) l n :
  let l' := if length l <? n then resize n x l else l in
  length l' = Nat.max (length l) n /\
  forall j, nth_error l' j = if j <? length l then nth_error l j else if j <? n then Some x else None.
Proof.
  cbv zeta. destruct (Nat.ltb_spec (length l) n) as [H|H].
  - destruct (@resize_spec A x l n) as [H1 H2]; [lia|]. split; [lia|exact H2].
  - split; [lia|]. intros j. destruct (Nat.ltb_spec j (length l)); [reflexivity|]. destruct (Nat.ltb_spec j n); [lia|].
    apply nth_error_None. lia.
Qed.

Lemma put_in_line_spec line col ch (fw : bool) :
  exists line', put_in_line line col ch fw = Some line' /\
    length line' = Nat.max (length line) (col + if fw then 2 else 1) /\
    forall j, nth_error line' j =
      if j =? col then Some ch
      else if (fw && (j =? col + 1))%bool then Some SENTINEL
      else if j <? length line then nth_error line j
      else if j <? col + (if fw then 2 else 1) then Some space else None.
Proof.
  unfold put_in_line. destruct (@grow_spec char space line (col + if fw then 2 else 1)) as [G1 G2].
  set (l1 := if length line <? col + (if fw then 2 else 1) then resize (col + (if fw then 2 else 1)) space line else line) in *.
  destruct (@set_index_spec char ch l1 col) as (l2 & E2 & L2 & N2); [rewrite G1; destruct fw; lia|]. rewrite E2.
  destruct fw.
  - destruct (@set_index_spec char SENTINEL l2 (col + 1)) as (l3 & E3 & L3 & N3); [lia|]. exists l3. split; [exact E3|].
    split; [lia|]. intros j. rewrite N3, N2, G2. destruct (Nat.eqb_spec j (col + 1)) as [->|H].
    + destruct (Nat.eqb_spec (col + 1) col); [lia|]. reflexivity.
    + reflexivity.
  - exists l2. split; [reflexivity|]. split; [lia|]. intros j. rewrite N2, G2. reflexivity.
Qed.

(** ** The grid of cells *)
Section Grid.
Context {Sty : Type}.
Implicit Types (a b cs : list (call Sty)) (c : call Sty).

Lemma max_app (a b : list N) : fold_right N.max 0%N (a ++ b) = N.max (fold_right N.max 0%N a) (fold_right N.max 0%N b).
Proof. induction a as [|x a IH]; simpl; [lia|]. rewrite IH. lia. Qed.

Lemma max_in x l : In x l -> (x <= fold_right N.max 0 l)%N.
Proof. induction l as [|y l IH]; intros []; simpl; [subst; lia|]. specialize (IH H). lia. Qed.

Lemma max_attained l : fold_right N.max 0%N l = 0%N \/ In (fold_right N.max 0%N l) l.
Proof.
  induction l as [|y l [IH|IH]]; [auto|simpl; destruct (N.max_spec y (fold_right N.max 0%N l)) as [[_ ->]|[_ ->]]; auto..].
Qed.

Lemma rows_used_app a b : rows_used (a ++ b) = N.max (rows_used a) (rows_used b).
Proof. unfold rows_used. rewrite flat_map_app, map_app. apply max_app. Qed.
Lemma cols_used_app a b row : cols_used (a ++ b) row = N.max (cols_used a row) (cols_used b row).
Proof. unfold cols_used. rewrite flat_map_app, map_app. apply max_app. Qed.

Lemma cell_after_app cs c cell : cell_after (cs ++ [c]) cell = match puts c cell with Some x => Some x | None => cell_after cs cell end.
Proof. unfold cell_after. rewrite fold_left_app. reflexivity. Qed.

Lemma same_cell_spec (a b : N * N) : same_cell a b = true <-> a = b.
Proof.
  destruct a as [a1 a2], b as [b1 b2]. unfold same_cell. simpl. rewrite andb_true_iff, !N.eqb_eq.
  split; [intros [-> ->]; reflexivity|intros H; injection H; auto].
Qed.

Lemma puts_cells c cell : puts c cell <> None <-> In cell (cells c).
Proof.
  destruct c as [ch [row col] st fw|p]; simpl; [|tauto].
  destruct (same_cell cell (row, col)) eqn:E1.
  { apply same_cell_spec in E1. subst. split; [destruct fw; simpl; auto|discriminate]. }
  destruct fw; simpl.
  - destruct (same_cell cell (row, col + 1)%N) eqn:E2.
    + apply same_cell_spec in E2. subst. split; [auto|discriminate].
    + split; [tauto|]. intros [<-|[<-|[]]] _;
        [rewrite (proj2 (same_cell_spec _ _) eq_refl) in E1|rewrite (proj2 (same_cell_spec _ _) eq_refl) in E2]; discriminate.
  - split; [tauto|]. intros [<-|[]] _. rewrite (proj2 (same_cell_spec _ _) eq_refl) in E1; discriminate.
Qed.

Lemma cell_after_none cs cell : ~ In cell (flat_map (@cells Sty) cs) -> cell_after cs cell = None.
Proof.
  induction cs as [|c cs IH] using rev_ind; intros H; [reflexivity|].
  rewrite cell_after_app. rewrite flat_map_app, in_app_iff in H. simpl in H. rewrite app_nil_r in H.
  destruct (puts c cell) eqn:E; [|apply IH; tauto]. exfalso. apply H. right. apply puts_cells. congruence.
Qed.

Lemma cell_after_in cs cell : In cell (flat_map (@cells Sty) cs) -> cell_after cs cell <> None.
Proof.
  induction cs as [|c cs IH] using rev_ind; intros H; [destruct H|].
  rewrite cell_after_app. rewrite flat_map_app, in_app_iff in H. simpl in H. rewrite app_nil_r in H.
  destruct (puts c cell) eqn:E; [discriminate|]. destruct H as [H|H]; auto. apply puts_cells in H. congruence.
Qed.

Lemma used_bounds cs row col : In (row, col) (flat_map (@cells Sty) cs) -> (row < rows_used cs)%N /\ (col < cols_used cs row)%N.
Proof.
  intros H. split.
  - assert (In (row + 1)%N (map (fun cell => fst cell + 1)%N (flat_map (@cells Sty) cs))) as H1 by (apply in_map_iff; exists (row, col); auto).
    apply max_in in H1. unfold rows_used. lia.
  - assert (In (col + 1)%N (map (fun cell => if N.eqb (fst cell) row then snd cell + 1 else 0)%N (flat_map (@cells Sty) cs))) as H1.
    { apply in_map_iff. exists (row, col). cbn [fst snd]. rewrite N.eqb_refl. auto. }
    apply max_in in H1. unfold cols_used. lia.
Qed.

Lemma cols_beyond cs row : (rows_used cs <= row)%N -> cols_used cs row = 0%N.
Proof.
  intros H. unfold cols_used. destruct (max_attained (map (fun cell => if N.eqb (fst cell) row then snd cell + 1 else 0)%N (flat_map (@cells Sty) cs))) as [E|E]; [exact E|].
  apply in_map_iff in E as ([r c'] & E & Hin). cbn [fst snd] in E. destruct (N.eqb_spec r row) as [->|_]; [|congruence].
  apply used_bounds in Hin. lia.
Qed.

Lemma used_put ch row col (st : Sty) (fw : bool) : 
  rows_used [Put ch (Pos row col) st fw] = (row + 1)%N /\
  forall r, cols_used [Put ch (Pos row col) st fw] r = if N.eqb row r then (col + if fw then 2 else 1)%N else 0%N.
Proof.
  unfold rows_used, cols_used. destruct fw; simpl; split; try lia; intros r; destruct (N.eqb row r); lia.
Qed.

Definition code (x : option in_cell) : char :=
  match x with None => space | Some (Letter ch) => ch | Some SecondHalf => SENTINEL end.

Definition holds cs (t : plain_text) : Prop :=
  N.of_nat (length (pt_lines t)) = rows_used cs /\
  forall row l, nth_error (pt_lines t) (N.to_nat row) = Some l ->
    N.of_nat (length l) = cols_used cs row /\
    forall col, (col < cols_used cs row)%N -> nth_error l (N.to_nat col) = Some (code (cell_after cs (row, col))).

Lemma eqb_to_nat (a b : N) : (N.to_nat a =? N.to_nat b) = N.eqb a b.
Proof. destruct (N.eqb_spec a b) as [->|H]; [apply Nat.eqb_refl|]. apply Nat.eqb_neq. lia. Qed.

Lemma holds_put cs t ch p (st : Sty) fw : holds cs t ->
  exists t', plain_text_char t ch p fw = (t', MOk tt) /\ holds (cs ++ [Put ch p st fw]) t' /\
    pt_size t' = pt_size t /\ pt_focus_points t' = pt_focus_points t.
Proof.
  destruct p as [row col]. intros [H1 H2]. unfold plain_text_char. cbn [p_row p_col].
  destruct (@grow_spec (list char) [] (pt_lines t) (N.to_nat row + 1)) as [G1 G2].
  set (lines := if length (pt_lines t) <? N.to_nat row + 1 then resize (N.to_nat row + 1) [] (pt_lines t) else pt_lines t) in *.
  destruct (nth_error lines (N.to_nat row)) as [line|] eqn:El; [|apply nth_error_None in El; lia].
  destruct (@put_in_line_spec line (N.to_nat col) ch fw) as (line' & Ep & Lp & Np). rewrite Ep.
  destruct (@set_index_spec (list char) line' lines (N.to_nat row)) as (lines' & Es & Ls & Ns); [lia|]. rewrite Es.
  eexists. split; [reflexivity|]. split; [|split; reflexivity].
  destruct (@used_put ch row col st fw) as [U1 U2].
  split; cbn [pt_lines]; [rewrite rows_used_app, U1; lia|].
  assert (Hold : forall row l, nth_error lines (N.to_nat row) = Some l ->
    N.of_nat (length l) = cols_used cs row /\
    forall col, (col < cols_used cs row)%N -> nth_error l (N.to_nat col) = Some (code (cell_after cs (row, col)))).
  { intros r l. rewrite G2. destruct (Nat.ltb_spec (N.to_nat r) (length (pt_lines t))); [apply H2|].
    destruct (Nat.ltb_spec (N.to_nat r) (N.to_nat row + 1)); [|discriminate]. intros E. injection E as <-.
    rewrite cols_beyond by lia. split; [reflexivity|]. intros; lia. }
  intros r l. rewrite Ns, eqb_to_nat, cols_used_app, U2, (N.eqb_sym row r). destruct (N.eqb_spec r row) as [->|Hne].
  - intros E. injection E as <-. destruct (Hold _ _ El) as [O1 O2]. split; [rewrite Lp; destruct fw; lia|].
    intros j Hj. rewrite Np, eqb_to_nat, cell_after_app. cbn [puts]. unfold same_cell. cbn [fst snd]. rewrite N.eqb_refl. cbn [andb].
    destruct (N.eqb_spec j col) as [->|Hjc]; [reflexivity|].
    replace (N.to_nat col + 1) with (N.to_nat (col + 1)) by lia. rewrite eqb_to_nat.
    destruct (fw && (j =? col + 1)%N)%bool; [reflexivity|].
    destruct (Nat.ltb_spec (N.to_nat j) (length line)); [apply O2; lia|].
    rewrite cell_after_none; [|intros Hin; apply used_bounds in Hin; lia].
    destruct (Nat.ltb_spec (N.to_nat j) (N.to_nat col + if fw then 2 else 1)); [reflexivity|]. destruct fw; lia.
  - intros E. destruct (Hold _ _ E) as [O1 O2]. rewrite N.max_0_r. split; [exact O1|]. intros j Hj. rewrite cell_after_app.
    cbn [puts]. unfold same_cell. cbn [fst snd]. rewrite (proj2 (N.eqb_neq r row) Hne). cbn [andb]. rewrite andb_false_r. apply O2. exact Hj.
Qed.

Lemma holds_focus cs t p : holds cs t -> holds (cs ++ [SetFocus p]) (fst (plain_text_focus t p)).
Proof.
  intros [H1 H2]. split; cbn [pt_lines plain_text_focus fst]; [rewrite rows_used_app; cbn; lia|].
  intros row l E. destruct (H2 _ _ E) as [O1 O2]. rewrite cols_used_app. change (cols_used [SetFocus p] row) with 0%N. rewrite N.max_0_r.
  split; [exact O1|]. intros col Hc. rewrite cell_after_app. apply O2. exact Hc.
Qed.

Lemma flat_map_range {B} (f : char -> list B) : forall l n (g : N -> char), N.of_nat (length l) = n ->
  (forall i, (i < n)%N -> nth_error l (N.to_nat i) = Some (g i)) ->
  flat_map f l = flat_map (fun i => f (g i)) (range 0 n).
Proof.
  induction l as [|x l IH] using rev_ind; intros n g Hn Hg; [subst; reflexivity|].
  rewrite app_length in Hn. simpl in Hn. rewrite (@range_app 0 (n - 1) n) by lia. rewrite !flat_map_app.
  rewrite (@range_cons (n - 1) n) by lia. replace (n - 1 + 1)%N with n by lia. rewrite (@range_nil n n) by lia. simpl. rewrite !app_nil_r.
  f_equal.
  - apply IH; [lia|]. intros i Hi. specialize (Hg i). rewrite nth_error_app1 in Hg by lia. apply Hg. lia.
  - specialize (Hg (n - 1)%N). rewrite nth_error_app2 in Hg by lia. replace (N.to_nat (n - 1) - length l) with 0 in Hg by lia.
    simpl in Hg. assert (E : Some x = Some (g (n - 1)%N)) by (apply Hg; lia). injection E as ->. reflexivity.
Qed.

Lemma flat_map_rows {A B} (f : A -> list B) (g : N -> list B) : forall l n, N.of_nat (length l) = n ->
  (forall i x, nth_error l (N.to_nat i) = Some x -> f x = g i) ->
  flat_map f l = flat_map g (range 0 n).
Proof.
  induction l as [|x l IH] using rev_ind; intros n Hn Hg; [subst; reflexivity|].
  rewrite app_length in Hn. simpl in Hn. rewrite (@range_app 0 (n - 1) n) by lia. rewrite !flat_map_app.
  rewrite (@range_cons (n - 1) n) by lia. replace (n - 1 + 1)%N with n by lia. rewrite (@range_nil n n) by lia. simpl. rewrite !app_nil_r.
  f_equal.
  - apply IH; [lia|]. intros i y Hi. apply Hg. rewrite nth_error_app1; [exact Hi|]. apply nth_error_Some. congruence.
  - apply Hg. rewrite nth_error_app2 by lia. replace (N.to_nat (n - 1) - length l) with 0 by lia. reflexivity.
Qed.

Lemma holds_text cs t : holds cs t -> plain_text_string t = grid_text cs.
Proof.
  intros [H1 H2]. unfold plain_text_string, grid_text. apply flat_map_rows; [exact H1|].
  intros row l E. destruct (H2 _ _ E) as [O1 O2]. f_equal. unfold row_text.
  rewrite (@flat_map_range _ _ l _ _ O1 O2). apply flat_map_ext. intros col.
  unfold code, cell_text. destruct (cell_after cs (row, col)) as [[ch|]|]; reflexivity.
Qed.

Lemma focus_positions_app a b : focus_positions (a ++ b) = focus_positions a ++ focus_positions b.
Proof. apply flat_map_app. Qed.

End Grid.

Section Replay.
Context {pd : PrettyDoc}.
Notation win := (plain_text_window Sty).

Lemma replay_holds {A} (r : res (pane_err Empty_set Er) A) : forall calls before (t : plain_text), holds before t ->
  exists t', @replay pd win A calls r t = (t', r) /\ holds (before ++ calls) t' /\ pt_size t' = pt_size t /\
    pt_focus_points t' = pt_focus_points t ++ focus_positions calls.
Proof.
  induction calls as [|c calls IH]; intros before t H.
  - exists t. rewrite !app_nil_r. auto.
  - cbn [replay]. unfold mbind. destruct c as [ch p st fw|p]; cbn [perform].
    + unfold put. cbn [w_display_char plain_text_window]. destruct (@holds_put Sty before t ch p st fw H) as (t1 & -> & H1 & S1 & F1).
      cbn [from_window]. destruct (IH _ _ H1) as (t2 & E2 & H2 & S2 & F2). exists t2. rewrite E2. split; [reflexivity|].
      rewrite <- app_assoc in H2. split; [exact H2|]. split; [congruence|]. rewrite F2, F1. reflexivity.
    + unfold focus. cbn [w_set_focus plain_text_window plain_text_focus from_window].
      destruct (IH _ _ (holds_focus p H)) as (t2 & E2 & H2 & S2 & F2). exists t2. split; [exact E2|].
      rewrite <- app_assoc in H2. split; [exact H2|]. split; [rewrite S2; reflexivity|]. rewrite F2. unfold plain_text_focus. cbn [fst pt_focus_points].
      rewrite <- app_assoc. reflexivity.
Qed.

Lemma holds_new w h : @holds Sty [] (plain_text_new w h).
Proof. split; [reflexivity|]. intros row l E. destruct (N.to_nat row); discriminate. Qed.
End Replay.

(** ** Calls that do not overlap *)
Section Apart.
Context {Sty : Type}.
Implicit Types (a b cs : list (call Sty)) (c : call Sty).

Lemma apart_cell cs c cell x : NoDup (flat_map (@cells Sty) cs) -> In c cs -> puts c cell = Some x -> cell_after cs cell = Some x.
Proof.
  induction cs as [|c' cs IH] using rev_ind; intros Hn Hin Hp; [destruct Hin|].
  rewrite flat_map_app in Hn. simpl in Hn. rewrite app_nil_r in Hn. rewrite cell_after_app.
  apply in_app_iff in Hin as [Hin|[->|[]]]; [|rewrite Hp; reflexivity].
  assert (Hc : In cell (flat_map (@cells Sty) cs)) by (apply in_flat_map; exists c; split; auto; apply puts_cells; congruence).
  assert (Hno : ~ In cell (cells c')).
  { clear IH. induction (flat_map (@cells Sty) cs) as [|y ys IHy]; [destruct Hc|]. inversion Hn; subst. destruct Hc as [->|Hc]; [|auto].
    intros H. apply H1. apply in_app_iff. auto. }
  destruct (puts c' cell) eqn:E; [exfalso; apply Hno; apply puts_cells; congruence|].
  apply IH; auto. clear - Hn. induction (flat_map (@cells Sty) cs) as [|y ys IHy]; [constructor|]. inversion Hn; subst. constructor; auto.
  intros H. apply H1. apply in_app_iff. auto.
Qed.

Lemma cell_dec (a b : N * N) : {a = b} + {a <> b}.
Proof. decide equality; apply N.eq_dec. Qed.

Lemma cells_perm cs1 cs2 : Permutation cs1 cs2 -> Permutation (flat_map (@cells Sty) cs1) (flat_map (@cells Sty) cs2).
Proof. apply Permutation_flat_map. Qed.

Lemma max_perm l1 l2 : Permutation l1 l2 -> fold_right N.max 0%N l1 = fold_right N.max 0%N l2.
Proof. induction 1; simpl; lia. Qed.

Lemma grid_perm cs1 cs2 : NoDup (flat_map (@cells Sty) cs1) -> Permutation cs1 cs2 -> grid_text cs1 = grid_text cs2.
Proof.
  intros Hn Hp. assert (Hn2 : NoDup (flat_map (@cells Sty) cs2)) by (eapply Permutation_NoDup; [apply cells_perm|]; eauto).
  assert (Hr : rows_used cs1 = rows_used cs2) by (apply max_perm, Permutation_map, cells_perm, Hp).
  assert (Hc : forall row, cols_used cs1 row = cols_used cs2 row) by (intros; apply max_perm, Permutation_map, cells_perm, Hp).
  assert (Ha : forall cell, cell_after cs1 cell = cell_after cs2 cell).
  { intros cell. destruct (in_dec cell_dec cell (flat_map (@cells Sty) cs1)) as [H|H].
    - apply in_flat_map in H as (c & H1 & H2). destruct (puts c cell) as [x|] eqn:E; [|apply puts_cells in H2; congruence].
      rewrite (@apart_cell cs1 c cell x Hn H1 E). symmetry. apply (@apart_cell cs2 c cell x Hn2); auto. eapply Permutation_in; eauto.
    - rewrite !cell_after_none; auto. intros H2. apply H. eapply Permutation_in; [symmetry; apply cells_perm; eauto|exact H2]. }
  unfold grid_text. rewrite Hr. apply flat_map_ext. intros row. f_equal. unfold row_text. rewrite Hc. apply flat_map_ext. intros col. rewrite Ha. reflexivity.
Qed.

End Apart.
