(** [eval_calls] counts the calls that the recursive equations of [eval] make. *)
From Verif Require Export Calls PEval.

Set Implicit Arguments.

Section PCalls3.
Context {pd : PrettyDoc} {env : Env}.
Variable q : nat.

Notation evn := (eval_n_calls q).
Notation lcs := (left_calls q).

Definition cok (lc : delayed -> nat) (j : option joinpos) : Prop :=
  forall d, dl_join d = j -> (forall x, lc (set_note d x) = lc d) /\ (j <> None -> lc d = left_of_calls q j d).
Definition cnote_ok (lc : delayed -> nat) (j : option joinpos) : Prop :=
  forall d, dl_join d = j -> forall x, lc (set_note d x) = lc d.

Lemma lcs_eq f jn k d jp : dl_join d = Some jp -> jp_index jp = k ->
  lcs (fun h x => evn h f x) (fun h x => evn h jn x) k d =
  if Nat.eqb k 1 then evn (fun _ => 0) f (set_join d None)
  else match k with
       | O => 0
       | S k' =>
           q + after (lift (m_unwrap_prev_sibling (jp_child jp) (jp_parent jp) k')) (fun child =>
             evn (lcs (fun h x => evn h f x) (fun h x => evn h jn x) k') jn
               (set_join d (Some (JoinPos (jp_parent jp) child k' (jp_first jp) (jp_join jp)))))
       end.
Proof. intros Hj Hk. destruct k; simpl; rewrite Hj; simpl; rewrite Hk; reflexivity. Qed.

Lemma lcs_note_ok f jn :
  (forall lh d x, cnote_ok lh (dl_join d) -> evn lh f (set_note d x) = evn lh f d) ->
  (forall lh d x, cnote_ok lh (dl_join d) -> evn lh jn (set_note d x) = evn lh jn d) ->
  forall k jp, jp_index jp = k ->
  cnote_ok (lcs (fun h x => evn h f x) (fun h x => evn h jn x) k) (Some jp).
Proof.
  intros Hf Hj. induction k as [|k IH]; intros jp Hk d Hd x.
  - erewrite !lcs_eq by eauto. reflexivity.
  - erewrite !lcs_eq by eauto. simpl. destruct (Nat.eqb k 0).
    + apply (Hf _ (set_join d None)). intros d' _ y. reflexivity.
    + destruct (lift _) as [child|]; simpl; auto. f_equal.
      apply (Hj _ (set_join d _)). simpl. apply IH. reflexivity.
Qed.

Lemma evn_note n : forall lh d x, cnote_ok lh (dl_join d) -> evn lh n (set_note d x) = evn lh n d.
Proof.
  induction n as [| | |s| |n IH|pre l n IH|a IHa b IHb|a IHa b IHb|c ps a IHa b IHb|i|l n IH| |z IHz o IHo m IHm|f IHf jn IHj| |];
    intros lh d x H; simpl; auto.
  - rewrite <- (IH lh (set_flat d) x); auto.
  - destruct l as [l|]; simpl.
    + destruct (lift (m_lookup_style (dl_doc d) l)); simpl; auto.
      rewrite <- (IH lh (set_indent d _) x); auto.
    + rewrite <- (IH lh (set_indent d _) x); auto.
  - destruct (dl_flat d); auto.
  - assert (E : doc_to_inspect (set_note d x) ps = doc_to_inspect d ps) by (destruct ps; reflexivity).
    assert (E' : inspect_calls q (set_note d x) ps = inspect_calls q d ps) by (destruct ps; reflexivity).
    rewrite E, E'. destruct (doc_to_inspect d ps); simpl; auto.
    destruct (lift (m_condition _ _)) as [[]|]; simpl; auto.
  - destruct (lift (m_lookup_style (dl_doc d) l)); simpl; auto.
    rewrite <- (IH lh (set_style d _) x); auto.
  - destruct (lift (m_num_children (dl_doc d))) as [[[|[|]]|]|]; simpl; auto.
  - destruct (lift (m_num_children (dl_doc d))) as [[[|[|nc]]|]|]; auto.
    { cbn [after]. do 2 f_equal. apply IHf; auto. }
    cbn [after]. destruct (lift (m_unwrap_last_child (dl_doc d))) as [child|]; auto. cbn [after]. do 3 f_equal.
    apply (IHj _ (set_join d _)). apply lcs_note_ok; auto.
  - destruct (dl_join d) as [jp|] eqn:E; auto.
Qed.

Lemma evn_lh n : forall lh lh' d, cok lh (dl_join d) -> cok lh' (dl_join d) -> evn lh n d = evn lh' n d.
Proof.
  induction n as [| | |s| |n IH|pre l n IH|a IHa b IHb|a IHa b IHb|c ps a IHa b IHb|i|l n IH| |z IHz o IHo m IHm|f IHf jn IHj| |];
    intros lh lh' d H H'; simpl; auto.
  - destruct l as [l|]; simpl; auto.
    destruct (lift (m_lookup_style (dl_doc d) l)); simpl; auto.
  - destruct (dl_flat d); auto.
  - destruct (doc_to_inspect d ps); simpl; auto.
    destruct (lift (m_condition _ _)) as [[]|]; simpl; auto.
  - destruct (lift (m_lookup_style (dl_doc d) l)); simpl; auto.
  - destruct (lift (m_num_children (dl_doc d))) as [[[|[|]]|]|]; simpl; auto.
  - destruct (lift (m_num_children (dl_doc d))) as [[[|[|nc]]|]|]; simpl; auto.
  - destruct (dl_join d) as [jp|] eqn:E; auto.
    destruct (H d) as [_ H1]; auto. destruct (H' d) as [_ H2]; auto.
    rewrite H1, H2 by discriminate. reflexivity.
Qed.

Lemma cnone_ok : cok (fun _ : delayed => 0) None.
Proof. intros d Hd. split; auto. Qed.

Lemma lof_note j : cnote_ok (left_of_calls q j) j.
Proof.
  destruct j as [jp|]; [|intros d _ x; reflexivity].
  apply lcs_note_ok; auto using evn_note.
Qed.

Lemma lof_ok j : cok (left_of_calls q j) j.
Proof. intros d Hd. split; auto. apply lof_note; auto. Qed.

Lemma calls_of d n : eval_calls q (set_note d n) = evn (left_of_calls q (dl_join d)) n d.
Proof. unfold eval_calls. simpl. apply evn_note. apply lof_note. Qed.

Lemma evn_any lh n d : cok lh (dl_join d) -> evn lh n d = eval_calls q (set_note d n).
Proof. intros H. rewrite calls_of. apply evn_lh; auto. apply lof_ok. Qed.

(** consolidated_notation.rs:251-440, as written: one call, those of the methods
    of the document, and those of [self.eval()] on the updated [self]. *)
Theorem eval_calls_eqn d :
  eval_calls q d = 1 + match dl_note d with
  | Empty | EndOfLine | Newline | Literal _ | FocusMark | Concat _ _ => 0
  | Text =>
      q + after (lift (m_num_children (dl_doc d))) (fun nc => match nc with Some _ => 0 | None => q end)
  | Flat x => eval_calls q (set_note (set_flat d) x)
  | Indent prefix None x =>
      eval_calls q (set_note (set_indent d (Segment prefix (str_width prefix) (dl_style d) :: dl_indent d)) x)
  | Indent prefix (Some l) x =>
      q + after (lift (m_lookup_style (dl_doc d) l)) (fun ls =>
        eval_calls q (set_note (set_indent d (Segment prefix (str_width prefix) (style_combine (dl_style d) ls) :: dl_indent d)) x))
  | Choice a b => if dl_flat d then eval_calls q (set_note d a) else 0
  | Check c pos a b =>
      inspect_calls q d pos + after (doc_to_inspect d pos) (fun x =>
        q + after (lift (m_condition x c)) (fun r => eval_calls q (set_note d (if r : bool then a else b))))
  | Child i =>
      q + after (lift (m_num_children (dl_doc d))) (fun nc =>
        match nc with
        | None => 0
        | Some len =>
            match normalize_child_index i len with
            | None => 0
            | Some index =>
                q + after (lift (m_unwrap_child (dl_doc d) index)) (fun x => q + after (lift (m_notation x)) (fun _ => q))
            end
        end)
  | Style l x =>
      q + after (lift (m_lookup_style (dl_doc d) l)) (fun ls =>
        eval_calls q (set_note (set_style d (style_combine (dl_style d) ls)) x))
  | Count zero one many =>
      q + after (lift (m_num_children (dl_doc d))) (fun nc =>
        match nc with
        | None => 0
        | Some O => eval_calls q (set_note d zero)
        | Some (S O) => eval_calls q (set_note d one)
        | Some (S (S _)) => eval_calls q (set_note d many)
        end)
  | Fold first join =>
      q + after (lift (m_num_children (dl_doc d))) (fun nc =>
        match nc with
        | None => 0
        | Some O => 0
        | Some (S O) => eval_calls q (set_note d first)
        | Some (S m) =>
            q + after (lift (m_unwrap_last_child (dl_doc d))) (fun child =>
              eval_calls q (set_note (set_join d (Some (JoinPos (dl_doc d) child m first join))) join))
        end)
  | Left =>
      match dl_join d with
      | None => 0
      | Some jp =>
          if Nat.eqb (jp_index jp) 1
          then eval_calls q (set_note (set_join d None) (jp_first jp))
          else
            match jp_index jp with
            | O => 0
            | S i =>
                q + after (lift (m_unwrap_prev_sibling (jp_child jp) (jp_parent jp) i)) (fun child =>
                  eval_calls q (set_note (set_join d (Some (JoinPos (jp_parent jp) child i (jp_first jp) (jp_join jp)))) (jp_join jp)))
            end
      end
  | Right =>
      match dl_join d with
      | None => 0
      | Some jp => q + after (lift (m_notation (jp_child jp))) (fun _ => q)
      end
  end.
Proof.
  pose proof (@lof_ok (dl_join d)) as Hok.
  unfold eval_calls at 1. destruct (dl_note d) as [| | |s| |n|pre l n|a b|a b|c ps a b|i|l n| |z o m|f jn| |] eqn:E; cbn [eval_n_calls]; cbn [Nat.add]; f_equal.
  - apply evn_any. auto.
  - destruct l as [l|].
    + destruct (lift (m_lookup_style (dl_doc d) l)); cbn [after]; auto. f_equal. apply evn_any; auto.
    + apply evn_any; auto.
  - destruct (dl_flat d); auto. apply evn_any; auto.
  - destruct (doc_to_inspect d ps); cbn [after]; auto. f_equal.
    destruct (lift (m_condition _ _)) as [[]|]; cbn [after]; auto; f_equal; apply evn_any; auto.
  - destruct (lift (m_lookup_style (dl_doc d) l)); cbn [after]; auto. f_equal. apply evn_any; auto.
  - destruct (lift (m_num_children (dl_doc d))) as [[[|[|]]|]|]; cbn [after]; auto; f_equal; apply evn_any; auto.
  - destruct (lift (m_num_children (dl_doc d))) as [[[|[|nc]]|]|]; cbn [after]; auto; f_equal.
    + apply evn_any; auto.
    + destruct (lift (m_unwrap_last_child (dl_doc d))) as [child|]; cbn [after]; auto. f_equal.
      apply evn_any. exact (@lof_ok (Some (JoinPos (dl_doc d) child (S nc) f jn))).
  - destruct (dl_join d) as [jp|] eqn:Ej; auto. cbn [left_of_calls].
    erewrite lcs_eq by eauto. destruct (Nat.eqb (jp_index jp) 1).
    + apply evn_any. apply cnone_ok.
    + destruct (jp_index jp) as [|i]; auto.
      destruct (lift _) as [child|]; cbn [after]; auto. f_equal. apply evn_any.
      exact (@lof_ok (Some (JoinPos (jp_parent jp) child i (jp_first jp) (jp_join jp)))).
Qed.
End PCalls3.
