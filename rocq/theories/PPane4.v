(** Nested panes. *)
From Verif Require Export PPane3.

Set Implicit Arguments.

Section Draws.
Context {pd : PrettyDoc} {env : Env} {WE : Type} {sz : size}.
Local Instance rwin4 : PrettyWindow Sty := recorder Sty WE sz.
Local Notation emits := (@PPane.emits pd WE sz _).
Local Notation M := (@Pane.M pd rwin4).
Notation all_cells := (flat_map (@cells Sty)).
Context {L : Type}.
Variable get_content : L -> option (D * printing_options).
Notation pane := (pane L Sty).

(** ** The loop over the subpanes *)
Section Kids.
Variables (m : N) (fuel : nat) (draw : pane -> rectangle -> M unit) (slice : N -> N -> rectangle) (addm : N -> N -> res (pane_err WE Er) N).

Fixpoint kids (panes : list (pane_size * pane)) (widths : list N) (docs : list printed_doc) (col : N) {struct panes} : M unit :=
  match panes, widths with
  | (size, child) :: panes', width :: widths' =>
      next <-- pure (addm col (castM m width)) ;;;
      let child_rect := slice col next in
      match size with
      | Dynamic =>
          match docs with
          | doc :: docs' => display_doc fuel doc child_rect ;;; kids panes' widths' docs' next
          | [] => fail (FPanic PExpect)
          end
      | _ => draw child child_rect ;;; kids panes' widths' docs next
      end
  | _, _ => ret tt
  end.

Variables (lo hi : N).
Hypothesis Hm : (hi < m)%N.
Hypothesis Hadd : forall a b, (a + b < m)%N -> addm a b = Ok (a + b)%N.

(** What child [i] draws. *)
Definition part_of (ps : list (pane_size * pane)) (docs : list printed_doc) (i : nat) (rect : rectangle) (part : list (call Sty)) (res : res (pane_err WE Er) unit) : Prop :=
  exists size child, nth_error ps i = Some (size, child) /\
  match size with
  | Dynamic => exists doc, nth_error docs (dynamic_count (map fst (firstn i ps))) = Some doc /\ emits (display_doc fuel doc rect) part res
  | _ => emits (draw child rect) part res
  end.

Hypothesis Hdraw : forall p a b, (lo <= a)%N -> (a <= b)%N -> (b <= hi)%N -> draws (draw p (slice a b)).
Hypothesis Hslice : forall a b, (lo <= a)%N -> (a <= b)%N -> (b <= hi)%N -> rect_ok (slice a b).

Definition offset (at_ : N) (widths : list N) (i : nat) : N := (at_ + total (firstn i widths))%N.

(** [m1] draws the parts of the subpanes one after the other, perhaps stopping at a failure. *)
Definition in_parts (ps : list (pane_size * pane)) (widths : list N) (docs : list printed_doc) (at_ : N) (m1 : M unit) : Prop :=
  exists parts res, emits m1 (concat parts) res /\
    length parts <= length ps /\ (res = Ok tt -> length parts = length ps) /\
    (forall i part, nth_error parts i = Some part ->
       exists res_i, part_of ps docs i (slice (offset at_ widths i) (offset at_ widths (S i))) part res_i /\
         (res_i = Ok tt \/ (S i = length parts /\ res_i = res))).

Lemma kids_parts : forall ps widths docs at_,
  length widths = length ps -> (lo <= at_)%N -> (at_ + total widths <= hi)%N ->
  in_parts ps widths docs at_ (kids ps widths docs at_).
Proof.
  induction ps as [|[size child] ps IH]; intros widths docs at_ Hl Hlo Hhi.
  - exists [], (Ok tt). split; [apply emits_ret|]. split; auto. split; auto. intros [|i] part; discriminate.
  - destruct widths as [|width widths]; [discriminate|]. injection Hl as Hl. simpl in Hhi. fold (total widths) in Hhi.
    assert (Hc : castM m width = width) by (apply N.mod_small; lia).
    assert (Ha : addm at_ (castM m width) = Ok (at_ + width)%N) by (rewrite Hc; apply Hadd; lia).
    set (rect := slice at_ (at_ + width)%N).
    assert (Er : slice (offset at_ (width :: widths) 0) (offset at_ (width :: widths) 1) = rect).
    { unfold offset, rect. simpl. rewrite !N.add_0_r. reflexivity. }
    assert (Hoff : forall i, offset at_ (width :: widths) (S i) = offset (at_ + width) widths i).
    { intros i. unfold offset. simpl. fold (total (firstn i widths)). lia. }
    assert (Step : forall (m1 : M unit) docs',
      draws m1 ->
      (forall part res, emits m1 part res -> part_of ((size, child) :: ps) docs 0 rect part res) ->
      (forall i rect part res, part_of ps docs' i rect part res -> part_of ((size, child) :: ps) docs (S i) rect part res) ->
      in_parts ((size, child) :: ps) (width :: widths) docs at_ (m1 ;;; kids ps widths docs' (at_ + width)%N)).
    { intros m1 docs' (cs & res1 & H1) Hp0 HpS. destruct res1 as [[]|f].
      - destruct (IH widths docs' (at_ + width)%N) as (parts & res & I1 & I2 & I3 & I4); auto; [lia|lia|].
        exists (cs :: parts), res. split; [simpl; eapply emits_bind; eauto|]. split; [simpl; lia|]. split; [simpl; auto|].
        intros [|i] part Hi; simpl in Hi.
        + injection Hi as <-. exists (Ok tt). split; auto. rewrite Er. apply Hp0. auto.
        + destruct (I4 _ _ Hi) as (res_i & J1 & J2). exists res_i. rewrite !Hoff. split; [apply HpS; auto|].
          destruct J2 as [J2|[J2 J3]]; auto. right. simpl. auto.
      - exists [cs], (Fail f). split; [simpl; rewrite app_nil_r; apply emits_bind_fail; auto|].
        split; [simpl; lia|]. split; [discriminate|].
        intros [|[|i]] part Hi; simpl in Hi; try discriminate. injection Hi as <-. exists (Fail f). split; auto. rewrite Er. apply Hp0. auto. }
    cbn [kids]. rewrite Ha.
    change (in_parts ((size, child) :: ps) (width :: widths) docs at_
      (match size with
       | Dynamic => match docs with
                    | doc :: docs' => display_doc fuel doc rect ;;; kids ps widths docs' (at_ + width)%N
                    | [] => fail (FPanic PExpect)
                    end
       | _ => draw child rect ;;; kids ps widths docs (at_ + width)%N
       end)).
    assert (Hother : (match size with Dynamic => False | _ => True end) ->
      in_parts ((size, child) :: ps) (width :: widths) docs at_ (draw child rect ;;; kids ps widths docs (at_ + width)%N)).
    { intros Hsz. apply Step.
      - apply Hdraw; lia.
      - intros part res H. exists size, child. split; auto. destruct size; auto. destruct Hsz.
      - intros i re part res (s & c & H1 & H2). exists s, c. split; auto. destruct s; auto.
        destruct size; simpl; auto. destruct Hsz. }
    destruct size; [apply Hother; exact I| |apply Hother; exact I].
    destruct docs as [|doc docs].
    + exists [], (Fail (FPanic PExpect)). split; [apply emits_fail|]. split; [simpl; lia|]. split; [discriminate|].
      intros [|i] part; discriminate.
    + apply Step.
      * destruct (@doc_spec pd env WE sz fuel doc rect) as (cs & res & H & _); [apply Hslice; lia|]. exists cs, res. exact H.
      * intros part res H. exists Dynamic, child. split; [reflexivity|]. exists doc. split; [reflexivity|exact H].
      * intros i re part res (s & c & H1 & H2). exists s, c. auto.
Qed.

(** Disjoint slices. *)
Hypothesis Hsub : forall a b a' b' c, (a <= a')%N -> (a' <= b')%N -> (b' <= b)%N -> in_rect (slice a' b') c -> in_rect (slice a b) c.
Hypothesis Hdisj : forall a b a' b' c, (b <= a')%N -> in_rect (slice a b) c -> in_rect (slice a' b') c -> False.
Hypothesis Hcut : forall a b c x, (a <= b)%N -> (b <= c)%N -> in_rect (slice a c) x -> in_rect (slice a b) x \/ in_rect (slice b c) x.
Hypothesis Hempty : forall a c, ~ in_rect (slice a a) c.

Lemma parts_tidy : forall parts widths at_,
  length parts <= length widths ->
  (forall i part, nth_error parts i = Some part -> tidy (slice (offset at_ widths i) (offset at_ widths (S i))) part) ->
  tidy (slice at_ (at_ + total widths)) (concat parts).
Proof.
  induction parts as [|part parts IH]; intros widths at_ Hl H; [apply tidy_nil|].
  destruct widths as [|width widths]; [simpl in Hl; lia|].
  assert (Hoff : forall i, offset at_ (width :: widths) (S i) = offset (at_ + width) widths i).
  { intros i. unfold offset. simpl. fold (total (firstn i widths)). lia. }
  destruct (IH widths (at_ + width)%N) as [I1 I2]; [simpl in Hl; lia| |].
  { intros i q Hi. specialize (H (S i) q Hi). rewrite !Hoff in H. exact H. }
  destruct (H 0 part eq_refl) as [P1 P2]. unfold offset in P2. simpl in P2. rewrite !N.add_0_r in P2.
  simpl. fold (total widths). unfold tidy. rewrite flat_map_app. split.
  - apply NoDup_app_intro; auto. intros x Hx Hy. eapply Hdisj; [|apply P2; exact Hx|apply I2; exact Hy]. lia.
  - intros c Hc. apply in_app_or in Hc as [Hc|Hc].
    + eapply Hsub; [| | |apply P2; exact Hc]; lia.
    + eapply Hsub; [| | |apply I2; exact Hc]; lia.
Qed.

Lemma parts_cover : forall parts widths at_,
  length parts = length widths ->
  (forall i part, nth_error parts i = Some part -> covers (slice (offset at_ widths i) (offset at_ widths (S i))) part) ->
  covers (slice at_ (at_ + total widths)) (concat parts).
Proof.
  induction parts as [|part parts IH]; intros widths at_ Hl H; (destruct widths as [|width widths]; [|try discriminate]); try discriminate.
  - intros c Hc. simpl in Hc. rewrite N.add_0_r in Hc. destruct (Hempty Hc).
  - assert (Hoff : forall i, offset at_ (width :: widths) (S i) = offset (at_ + width) widths i).
    { intros i. unfold offset. simpl. fold (total (firstn i widths)). lia. }
    injection Hl as Hl. specialize (IH widths (at_ + width)%N Hl).
    intros c Hc. simpl in *. fold (total widths) in Hc. rewrite flat_map_app. apply in_or_app.
    destruct (@Hcut at_ (at_ + width)%N (at_ + (width + total widths))%N c) as [Hx|Hx]; [lia|lia|exact Hc| |].
    + left. apply (H 0 part eq_refl). unfold offset. simpl. rewrite !N.add_0_r. exact Hx.
    + right. apply IH; [|rewrite <- N.add_assoc; exact Hx]. intros i q Hi. specialize (H (S i) q Hi). rewrite !Hoff in H. exact H.
Qed.
End Kids.
End Draws.
