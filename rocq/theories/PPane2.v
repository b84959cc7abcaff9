(** Displaying lines and documents: the recorded calls. *)
From Verif Require Export PPane PDivvy2.

Set Implicit Arguments.

(** ** Ranges *)
Lemma range_nil a b : (b <= a)%N -> range a b = [].
Proof. intros H. unfold range. replace (b - a)%N with 0%N by lia. reflexivity. Qed.

Lemma range_cons a b : (a < b)%N -> range a b = a :: range (a + 1) b.
Proof.
  intros H. unfold range. replace (N.to_nat (b - a)) with (S (N.to_nat (b - (a + 1)))) by lia.
  simpl. f_equal; [lia|]. rewrite <- seq_shift, map_map. apply map_ext. intros. lia.
Qed.

Lemma range_len a b : length (range a b) = N.to_nat (b - a).
Proof. unfold range. rewrite map_length, seq_length. reflexivity. Qed.

Lemma range_app a b c : (a <= b)%N -> (b <= c)%N -> range a c = range a b ++ range b c.
Proof.
  intros H1 H2. remember (N.to_nat (b - a)) as n eqn:E. revert a H1 E.
  induction n as [|n IH]; intros a H1 E.
  - assert (a = b) by lia. subst. rewrite (@range_nil b b) by lia. reflexivity.
  - rewrite (@range_cons a b), (@range_cons a c) by lia. simpl. f_equal. apply IH; lia.
Qed.

Lemma range_in a b x : In x (range a b) <-> (a <= x < b)%N.
Proof.
  unfold range. rewrite in_map_iff. split.
  - intros (i & <- & H). apply in_seq in H. lia.
  - intros H. exists (N.to_nat (x - a)). split; [lia|]. apply in_seq. lia.
Qed.

Lemma range_nodup a b : NoDup (range a b).
Proof.
  unfold range. apply FinFun.Injective_map_NoDup; [|apply seq_NoDup]. intros x y H. lia.
Qed.

Lemma range_nth a b i : (a + N.of_nat i < b)%N -> nth_error (range a b) i = Some (a + N.of_nat i)%N.
Proof.
  intros H. unfold range. erewrite map_nth_error; [reflexivity|].
  rewrite (nth_error_nth' _ 0) by (rewrite seq_length; lia). f_equal. apply seq_nth. lia.
Qed.

Definition prefix {A} (a b : list A) : Prop := exists c, b = a ++ c.
Lemma prefix_refl {A} (a : list A) : prefix a a.
Proof. exists []. rewrite app_nil_r. reflexivity. Qed.
Lemma prefix_app {A} (a b c : list A) : prefix b c -> prefix (a ++ b) (a ++ c).
Proof. intros (d & ->). exists d. rewrite app_assoc. reflexivity. Qed.
Lemma prefix_l {A} (a b c : list A) : prefix a b -> prefix a (b ++ c).
Proof. intros (d & ->). exists (d ++ c). rewrite app_assoc. reflexivity. Qed.

(** ** Rectangles *)
Lemma rect_cells_in r c : In c (rect_cells r) <-> in_rect r c.
Proof.
  unfold rect_cells, row_cells, in_rect. rewrite in_flat_map. split.
  - intros (row & H1 & H2). apply in_map_iff in H2 as (col & <- & H2). apply range_in in H1, H2. simpl. lia.
  - destruct c as [row col]. simpl. intros [H1 H2]. exists row. split; [apply range_in; lia|].
    apply in_map_iff. exists col. split; auto. apply range_in. lia.
Qed.

Lemma NoDup_app_intro {A} (a b : list A) : NoDup a -> NoDup b -> (forall x, In x a -> In x b -> False) -> NoDup (a ++ b).
Proof.
  induction a as [|x a IH]; intros Ha Hb H; simpl; auto. inversion Ha; subst. constructor.
  - rewrite in_app_iff. intros [?|?]; eauto. eapply H; [left; reflexivity|auto].
  - apply IH; auto. intros y ? ?. eapply H; [right|]; eauto.
Qed.

Lemma rect_cells_nodup r : NoDup (rect_cells r).
Proof.
  unfold rect_cells. pose proof (range_nodup (min_row r) (max_row r)) as H. induction H as [|row l Hn Hd IH]; simpl; [constructor|].
  apply NoDup_app_intro; auto.
  - unfold row_cells. apply FinFun.Injective_map_NoDup; [|apply range_nodup]. intros x y E. congruence.
  - intros x H1 H2. apply in_flat_map in H2 as (row' & H2 & H3). unfold row_cells in *.
    apply in_map_iff in H1 as (? & <- & _). apply in_map_iff in H3 as (? & E & _). congruence.
Qed.

Lemma prefix_in {A} (a b : list A) x : prefix a b -> In x a -> In x b.
Proof. intros (c & ->) H. apply in_or_app. auto. Qed.
Lemma prefix_nodup {A} (a b : list A) : prefix a b -> NoDup b -> NoDup a.
Proof.
  intros (c & ->). induction a as [|x a IH]; intros H; [constructor|]. inversion H; subst. constructor; auto.
  intros Hx. apply H2. apply in_or_app. auto.
Qed.

Section Draws.
Context {pd : PrettyDoc} {env : Env} {WE : Type} {sz : size}.
Local Instance rwin : PrettyWindow Sty := recorder Sty WE sz.
Local Notation emits := (@PPane.emits pd WE sz _).
Local Notation M := (@Pane.M pd rwin).
Notation all_cells := (flat_map (@cells Sty)).

(** Where arithmetic is exact. *)
Definition rect_ok (r : rectangle) : Prop :=
  (min_row r <= max_row r)%N /\ (min_col r <= max_col r)%N /\ (max_col r + 2 < U16)%N /\ (max_row r < U32)%N.

Lemma add16_exact {X} a b : (a + b < U16)%N -> add16 (X := X) ovf a b = Ok (a + b)%N.
Proof. intros H. unfold add16. destruct (N.ltb_spec (a + b) U16); [reflexivity|lia]. Qed.
Lemma add32_exact {X} a b : (a + b < U32)%N -> add32 (X := X) a b = Ok (a + b)%N.
Proof. intros H. unfold add32, addM. destruct (N.ltb_spec (a + b) U32); [reflexivity|lia]. Qed.
Lemma sub32_exact {X} a b : (b <= a)%N -> sub32 (X := X) a b = Ok (a - b)%N.
Proof. intros H. unfold sub32, subM. destruct (N.leb_spec b a); [reflexivity|lia]. Qed.
Lemma sub16_exact {X} a b : (b <= a)%N -> sub16 (X := X) a b = Ok (a - b)%N.
Proof. intros H. unfold sub16, subM. destruct (N.leb_spec b a); [reflexivity|lia]. Qed.

Lemma width_columns ch : char_width (char_full_width ch) = columns ch.
Proof. reflexivity. Qed.
Lemma columns_bounds ch : (1 <= columns ch <= 2)%N.
Proof. unfold columns. destruct (char_full_width ch); lia. Qed.

Lemma emits_pure_bind {A B} (r : res (pane_err WE Er) A) a (k : A -> M B) cs x :
  r = Ok a -> emits (k a) cs x -> emits (mbind (pure r) k) cs x.
Proof. intros -> H. change cs with ([] ++ cs). eapply emits_bind; [apply emits_pure|exact H]. Qed.

(** ** Cells *)
Lemma place_cells row chs : forall col,
  all_cells (place row col chs) = map (fun c => (row, c)) (range col (col + columns_of chs)).
Proof.
  induction chs as [|[ch st] chs IH]; intros col; simpl.
  - rewrite range_nil by (unfold columns_of; simpl; lia). reflexivity.
  - rewrite IH. unfold columns_of. simpl. fold (columns_of chs).
    rewrite (@range_app col (col + columns ch) (col + (columns ch + columns_of chs))) by lia.
    rewrite map_app, N.add_assoc. f_equal. unfold columns. destruct (char_full_width ch).
    + rewrite !range_cons by lia. rewrite range_nil by lia. reflexivity.
    + rewrite range_cons by lia. rewrite range_nil by lia. reflexivity.
Qed.

Lemma blanks_cells row st a b : all_cells (blanks row a b st) = map (fun c => (row, c)) (range a b).
Proof.
  unfold blanks. induction (range a b) as [|c l IH]; simpl; [reflexivity|]. rewrite IH. reflexivity.
Qed.

Lemma cells_prefix cs cs' : prefix cs cs' -> prefix (all_cells cs) (all_cells cs').
Proof. intros (c & ->). rewrite flat_map_app. exists (all_cells c). reflexivity. Qed.

Lemma columns_of_app a b : columns_of (a ++ b) = (columns_of a + columns_of b)%N.
Proof. unfold columns_of. rewrite map_app. apply total_app. Qed.

Lemma place_app row a b : forall col, place row col (a ++ b) = place row col a ++ place row (col + columns_of a) b.
Proof.
  induction a as [|[ch st] a IH]; intros col; simpl; [unfold columns_of; simpl; rewrite N.add_0_r; reflexivity|].
  rewrite IH. unfold columns_of. simpl. rewrite N.add_assoc. reflexivity.
Qed.

Lemma row_shows_cells r row chs blank cs : (min_col r <= max_col r)%N ->
  row_shows r row chs blank cs -> all_cells cs = row_cells r row.
Proof.
  intros Hr (shown & (rest & _ & Hle & _) & ->). rewrite flat_map_app, place_cells, blanks_cells, <- map_app.
  unfold row_cells. rewrite <- range_app by lia. reflexivity.
Qed.

(** ** Lines *)
Lemma chars_spec r row st chs : (max_col r + 2 < U16)%N -> forall col, (col <= max_col r)%N ->
  exists shown rest, chs = shown ++ rest /\
    let chs' := map (fun ch => (ch, st)) shown in
    (col + columns_of chs' <= max_col r)%N /\
    match rest with [] => True | c :: _ => (max_col r < col + columns_of chs' + columns c)%N end /\
    emits (display_chars r row st chs col) (place row col chs')
      (Ok ((col + columns_of chs')%N, match rest with [] => false | _ => true end)).
Proof.
  intros Hr. induction chs as [|ch chs IH]; intros col Hcol.
  - exists [], []. split; auto. split; [unfold columns_of; simpl; lia|]. split; auto.
    unfold columns_of. simpl. rewrite N.add_0_r. apply emits_ret.
  - cbn [display_chars]. rewrite width_columns. pose proof (columns_bounds ch) as Hb.
    destruct (N.ltb_spec (max_col r) (col + columns ch)) as [Hlt|Hge].
    + exists [], (ch :: chs). split; auto. split; [unfold columns_of; simpl; lia|]. split.
      * unfold columns_of. simpl. lia.
      * unfold columns_of. simpl. rewrite N.add_0_r. eapply emits_pure_bind; [apply add16_exact; lia|].
        destruct (N.ltb_spec (max_col r) (col + columns ch)); [|lia]. apply emits_ret.
    + destruct (IH (col + columns ch)%N) as (shown & rest & E & H1 & H2 & H3); [lia|].
      exists (ch :: shown), rest. split; [simpl; congruence|]. unfold columns_of in *. simpl in *.
      rewrite N.add_assoc. split; [exact H1|]. split; [destruct rest; auto|].
      eapply emits_pure_bind; [apply add16_exact; lia|].
      destruct (N.ltb_spec (max_col r) (col + columns ch)); [lia|].
      change (Put ch (Pos row col) st (char_full_width ch) :: ?x) with ([Put ch (Pos row col) st (char_full_width ch)] ++ x).
      eapply emits_bind; [apply emits_put|]. eapply emits_pure_bind; [apply add16_exact; lia|]. exact H3.
Qed.

Lemma segments_spec r row segs : (max_col r + 2 < U16)%N -> forall col, (col <= max_col r)%N ->
  exists shown, longest_fitting (max_col r - col) (styled_chars segs) shown /\
    emits (display_segments r row segs col) (place row col shown) (Ok (col + columns_of shown)%N).
Proof.
  intros Hr. induction segs as [|s segs IH]; intros col Hcol.
  - exists []. split; [exists []; split; auto; split; [unfold columns_of; simpl; lia|auto]|].
    unfold columns_of. simpl. rewrite N.add_0_r. apply emits_ret.
  - destruct (@chars_spec r row (seg_style s) (seg_str s) Hr col Hcol) as (shown & rest & E & H1 & H2 & H3).
    cbv zeta in *. set (chs' := map _ shown) in *.
    destruct rest as [|c rest].
    + destruct (IH (col + columns_of chs')%N H1) as (shown2 & (rest2 & F1 & F2 & F3) & H4).
      exists (chs' ++ shown2). split.
      * exists rest2. split; [|split].
        -- simpl. rewrite app_nil_r in E. rewrite E. fold chs'. rewrite F1, app_assoc. reflexivity.
        -- rewrite columns_of_app. lia.
        -- rewrite columns_of_app. destruct rest2; auto. lia.
      * rewrite place_app, columns_of_app, N.add_assoc. cbn [display_segments].
        eapply emits_bind; [exact H3|]. exact H4.
    + exists chs'. split.
      * exists (map (fun ch => (ch, seg_style s)) (c :: rest) ++ styled_chars segs). split; [|split].
        -- simpl. rewrite E, map_app. fold chs'. rewrite <- app_assoc. reflexivity.
        -- lia.
        -- simpl. lia.
      * cbn [display_segments]. rewrite <- (app_nil_r (place row col chs')). eapply emits_bind; [exact H3|]. apply emits_ret.
Qed.

Lemma pad_spec r row blank : (max_col r + 2 < U16)%N -> forall fuel col, (col <= max_col r)%N ->
  exists cs res, emits (mloop fuel (pad_body r row blank) col) cs res /\
    prefix cs (blanks row col (max_col r) blank) /\
    (res = Fail FFuel \/ (res = Ok tt /\ cs = blanks row col (max_col r) blank)) /\
    (N.to_nat (max_col r - col) < fuel -> res = Ok tt).
Proof.
  intros Hr. induction fuel as [|fuel IH]; intros col Hcol; cbn [mloop].
  - exists [], (Fail FFuel). split; [apply emits_fail|]. split; [eexists; reflexivity|]. split; auto. lia.
  - unfold pad_body at 1. destruct (N.ltb_spec col (max_col r)).
    + destruct (IH (col + 1)%N) as (cs & res & H1 & H2 & H3 & H4); [lia|].
      assert (E : blanks row col (max_col r) blank = [Put space (Pos row col) blank false] ++ blanks row (col + 1) (max_col r) blank).
      { unfold blanks. rewrite range_cons by lia. reflexivity. }
      exists ([Put space (Pos row col) blank false] ++ cs), res. split; [|split; [|split]].
      * eapply emits_bind with (a := Next (col + 1)%N); [|exact H1].
        rewrite <- (app_nil_r [_]). eapply emits_bind; [apply emits_put|].
        eapply emits_pure_bind; [apply add16_exact; lia|]. apply emits_ret.
      * rewrite E. apply prefix_app. exact H2.
      * destruct H3 as [H3|[H3 ->]]; auto.
      * intros Hf. apply H4. lia.
    + exists [], (Ok tt). split; [|split; [|split]].
      * change (@nil (call Sty)) with (@nil (call Sty) ++ []). eapply emits_bind with (a := Done tt); [apply emits_ret|]. apply emits_ret.
      * eexists; reflexivity.
      * right. split; auto. unfold blanks. rewrite range_nil by lia. reflexivity.
      * auto.
Qed.

(** C35 *)
Lemma line_spec fuel l rel r blank : rect_ok r -> (min_row r + rel < max_row r)%N ->
  exists cs res full, emits (display_line fuel l rel r blank) cs res /\
    row_shows r (min_row r + rel) (styled_chars l) blank full /\ prefix cs full /\
    (res = Fail FFuel \/ (res = Ok tt /\ cs = full)) /\
    (N.to_nat (max_col r - min_col r) < fuel -> res = Ok tt).
Proof.
  intros (R1 & R2 & R3 & R4) Hrow. set (row := (min_row r + rel)%N) in *.
  destruct (@segments_spec r row l R3 (min_col r) R2) as (shown & Hs & H1).
  pose proof Hs as (rest & _ & Hle & _).
  destruct (@pad_spec r row blank R3 fuel (min_col r + columns_of shown)%N) as (cs & res & P1 & P2 & P3 & P4); [lia|].
  exists (place row (min_col r) shown ++ cs), res, (place row (min_col r) shown ++ blanks row (min_col r + columns_of shown) (max_col r) blank).
  split; [|split; [|split; [|split]]].
  - unfold display_line. eapply emits_pure_bind; [apply add32_exact; lia|]. fold row.
    destruct (N.leb_spec (max_row r) row); [lia|]. eapply emits_bind; [exact H1|exact P1].
  - exists shown. split; auto.
  - apply prefix_app. auto.
  - destruct P3 as [P3|[P3 ->]]; auto.
  - intros Hf. apply P4. lia.
Qed.

Lemma emits_forM_puts {A} (f : A -> call Sty) (body : A -> M unit) l :
  (forall x, emits (body x) [f x] (Ok tt)) -> emits (forM l body) (map f l) (Ok tt).
Proof.
  intros H. induction l as [|x l IH]; simpl; [apply emits_ret|].
  change (f x :: map f l) with ([f x] ++ map f l). eapply emits_bind; [apply H|exact IH].
Qed.

Lemma no_chars_shows r row blank : row_shows r row [] blank (blanks row (min_col r) (max_col r) blank).
Proof.
  exists []. split; [exists []; split; auto; split; [unfold columns_of; simpl; lia|auto]|].
  unfold columns_of. simpl. rewrite N.add_0_r. reflexivity.
Qed.

Lemma blank_spec rel r blank : rect_ok r -> (min_row r + rel < max_row r)%N ->
  emits (display_blank_line rel r blank) (blanks (min_row r + rel) (min_col r) (max_col r) blank) (Ok tt).
Proof.
  intros (R1 & R2 & R3 & R4) Hrow. unfold display_blank_line. eapply emits_pure_bind; [apply add32_exact; lia|].
  destruct (N.leb_spec (max_row r) (min_row r + rel)); [lia|]. unfold blanks.
  apply (@emits_forM_puts N (fun col => Put space (Pos (min_row r + rel) col) blank false)). intros c. apply emits_put.
Qed.

(** ** Loops over rows *)
Lemma rows_spec (good : N -> list (call Sty) -> Prop) (body : N -> M unit) (enough : Prop) : forall rows,
  (forall row, In row rows -> exists cs res full, emits (body row) cs res /\ good row full /\ prefix cs full /\
     (res = Ok tt -> cs = full) /\ (enough -> res = Ok tt)) ->
  exists cs res fulls, emits (forM rows body) cs res /\ Forall2 good rows fulls /\ prefix cs (concat fulls) /\
     (res = Ok tt -> cs = concat fulls) /\ (enough -> res = Ok tt).
Proof.
  induction rows as [|row rows IH]; intros H; simpl.
  - exists [], (Ok tt), []. split; [apply emits_ret|]. split; [constructor|]. split; [apply prefix_refl|auto].
  - destruct IH as (cs & res & fulls & I1 & I2 & I3 & I4 & I5); [intros; apply H; right; auto|].
    destruct (H row) as (cs1 & res1 & full1 & J1 & J2 & J3 & J4 & J5); [left; auto|].
    destruct res1 as [[]|f].
    + rewrite (J4 eq_refl) in J1. exists (full1 ++ cs), res, (full1 :: fulls). split; [eapply emits_bind; eauto|].
      split; [constructor; auto|]. split; [simpl; apply prefix_app; auto|]. split; auto.
      simpl. intros E. rewrite (I4 E). reflexivity.
    + exists cs1, (Fail f), (full1 :: fulls). split; [apply emits_bind_fail; auto|]. split; [constructor; auto|].
      split; [simpl; apply prefix_l; auto|]. split; [discriminate|]. intros He. specialize (J5 He). discriminate.
Qed.

End Draws.
