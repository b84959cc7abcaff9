(** [eval] satisfies the recursive equations of the Rust function. *)
From Verif Require Export Consolidated.

Set Implicit Arguments.

Section PEval.
Context {pd : PrettyDoc} {env : Env}.

(** [lh] evaluates a [Left] as [left_of] does, whatever the other fields. *)
Definition lh_ok (lh : delayed -> pres cnote) (j : option joinpos) : Prop :=
  forall d, dl_join d = j -> (forall x, lh (set_note d x) = lh d) /\ (j <> None -> lh d = left_of j d).

(** [left_h] called with the current index. *)
Lemma left_h_eq f jn k d jp : dl_join d = Some jp -> jp_index jp = k ->
  left_h (fun h x => eval_n h f x) (fun h x => eval_n h jn x) k d =
  if Nat.eqb k 1 then eval_n (fun _ => Panic PLeftOutsideFold) f (set_join d None)
  else match k with
       | O => Panic POverflow
       | S k' =>
           child <- lift (m_unwrap_prev_sibling (jp_child jp) (jp_parent jp) k') ;;
           eval_n (left_h (fun h x => eval_n h f x) (fun h x => eval_n h jn x) k') jn
             (set_join d (Some (JoinPos (jp_parent jp) child k' (jp_first jp) (jp_join jp))))
       end.
Proof.
  intros Hj Hk. destruct k; simpl; rewrite Hj; simpl; rewrite Hk; reflexivity.
Qed.

Definition note_ok (lh : delayed -> pres cnote) (j : option joinpos) : Prop :=
  forall d, dl_join d = j -> forall x, lh (set_note d x) = lh d.

Lemma left_note_ok f jn :
  (forall lh d x, note_ok lh (dl_join d) -> eval_n lh f (set_note d x) = eval_n lh f d) ->
  (forall lh d x, note_ok lh (dl_join d) -> eval_n lh jn (set_note d x) = eval_n lh jn d) ->
  forall k jp, jp_index jp = k ->
  note_ok (left_h (fun h x => eval_n h f x) (fun h x => eval_n h jn x) k) (Some jp).
Proof.
  intros Hf Hj. induction k as [|k IH]; intros jp Hk d Hd x.
  - erewrite !left_h_eq by eauto. reflexivity.
  - erewrite !left_h_eq by eauto. simpl. destruct (Nat.eqb k 0).
    + apply (Hf _ (set_join d None)). intros d' _ y. reflexivity.
    + destruct (lift _) as [child|]; simpl; auto.
      apply (Hj _ (set_join d _)). simpl. apply IH. reflexivity.
Qed.

(** [eval_n] ignores the [note] field of its argument. *)
Lemma eval_n_note n : forall lh d x, note_ok lh (dl_join d) -> eval_n lh n (set_note d x) = eval_n lh n d.
Proof.
  induction n as [| | |s| |n IH|pre l n IH|a IHa b IHb|a IHa b IHb|c ps a IHa b IHb|i|l n IH| |z IHz o IHo m IHm|f IHf jn IHj| |];
    intros lh d x H; simpl; auto.
  - rewrite <- (IH lh (set_flat d) x); auto.
  - destruct l as [l|]; simpl.
    + destruct (lift (m_lookup_style (dl_doc d) l)); simpl; auto.
      rewrite <- (IH lh (set_indent d _) x); auto.
    + rewrite <- (IH lh (set_indent d _) x); auto.
  - destruct (dl_flat d); auto.
  - assert (E : doc_to_inspect (set_note d x) ps = doc_to_inspect d ps) by (destruct ps; reflexivity).
    rewrite E. destruct (doc_to_inspect d ps); simpl; auto.
    destruct (lift (m_condition _ _)) as [[]|]; simpl; auto.
  - destruct (lift (m_lookup_style (dl_doc d) l)); simpl; auto.
    rewrite <- (IH lh (set_style d _) x); auto.
  - destruct (lift (m_num_children (dl_doc d))) as [[[|[|]]|]|]; simpl; auto.
  - destruct (lift (m_num_children (dl_doc d))) as [[[|[|nc]]|]|]; auto.
    { cbn [bind]. apply IHf; auto. }
    cbn [bind]. destruct (lift (m_unwrap_last_child (dl_doc d))) as [child|]; auto. cbn [bind].
    apply (IHj _ (set_join d _)). apply left_note_ok; auto.
  - destruct (dl_join d) as [jp|] eqn:E; auto.
Qed.

Lemma eval_n_lh n : forall lh lh' d, lh_ok lh (dl_join d) -> lh_ok lh' (dl_join d) -> eval_n lh n d = eval_n lh' n d.
Proof.
  induction n as [| | |s| |n IH|pre l n IH|a IHa b IHb|a IHa b IHb|c ps a IHa b IHb|i|l n IH| |z IHz o IHo m IHm|f IHf jn IHj| |];
    intros lh lh' d H H'; simpl; auto.
  - destruct l as [l|]; simpl; auto.
    destruct (lift (m_lookup_style (dl_doc d) l)); simpl; auto.
  - destruct (dl_flat d); auto.
  - destruct (doc_to_inspect d ps); simpl; auto.
    destruct (lift (m_condition _ _)) as [[]|]; simpl; auto.
  - destruct (lift (m_lookup_style (dl_doc d) l)); simpl; auto.
  - destruct (lift (m_num_children (dl_doc d))) as [[[|[|]]|]|]; simpl; auto.
  - destruct (lift (m_num_children (dl_doc d))) as [[[|[|nc]]|]|]; simpl; auto.
  - destruct (dl_join d) as [jp|] eqn:E; auto.
    destruct (H d) as [_ H1]; auto. destruct (H' d) as [_ H2]; auto.
    rewrite H1, H2 by discriminate. reflexivity.
Qed.

Lemma none_ok : lh_ok (fun _ : delayed => Panic PLeftOutsideFold) None.
Proof. intros d Hd. split; auto. Qed.

Lemma left_of_note j : note_ok (left_of j) j.
Proof.
  destruct j as [jp|]; [|intros d _ x; reflexivity].
  apply left_note_ok; auto using eval_n_note.
Qed.

Lemma left_of_ok j : lh_ok (left_of j) j.
Proof. intros d Hd. split; auto. apply left_of_note; auto. Qed.

Lemma eval_set_note d x n : eval (set_note (set_note d x) n) = eval (set_note d n).
Proof. reflexivity. Qed.

Lemma eval_of d n : eval (set_note d n) = eval_n (left_of (dl_join d)) n d.
Proof. unfold eval. simpl. apply eval_n_note. apply left_of_note. Qed.

Lemma eval_n_any lh n d : lh_ok lh (dl_join d) -> eval_n lh n d = eval (set_note d n).
Proof. intros H. rewrite eval_of. apply eval_n_lh; auto. apply left_of_ok. Qed.

(** consolidated_notation.rs:251-440, as written: each case of the [match]
    ends with [self.eval()] on the updated [self], or with a value. *)
Theorem eval_eqn d :
  eval d = match dl_note d with
  | Empty => Ok CEmpty
  | EndOfLine => Ok CEndOfLine
  | Newline => Ok (CNewline (dl_indent d))
  | Literal s => Ok (CTextual (Textual s (str_width s) (dl_style d) false))
  | Text =>
      nc <- lift (m_num_children (dl_doc d)) ;;
      match nc with
      | Some _ => Err TextNotationOnTextlessDoc
      | None =>
          t <- lift (m_unwrap_text (dl_doc d)) ;;
          Ok (CTextual (Textual t (str_width t) (dl_style d) true))
      end
  | Flat x => eval (set_note (set_flat d) x)
  | Indent prefix label x =>
      s <- match label with
           | Some l =>
               ls <- lift (m_lookup_style (dl_doc d) l) ;;
               Ok (style_combine (dl_style d) ls)
           | None => Ok (dl_style d)
           end ;;
      eval (set_note (set_indent d (Segment prefix (str_width prefix) s :: dl_indent d)) x)
  | Concat a b => Ok (CConcat (set_note d a) (set_note d b))
  | Choice a b =>
      if dl_flat d then eval (set_note d a) else Ok (CChoice (set_note d a) (set_note d b))
  | Check c pos a b =>
      x <- doc_to_inspect d pos ;;
      r <- lift (m_condition x c) ;;
      if r : bool then eval (set_note d a) else eval (set_note d b)
  | Child i =>
      nc <- lift (m_num_children (dl_doc d)) ;;
      match nc with
      | None => Err ChildNotationOnChildlessDoc
      | Some len =>
          match normalize_child_index i len with
          | None => Err (ChildIndexOutOfBounds i len)
          | Some index =>
              x <- lift (m_unwrap_child (dl_doc d) index) ;;
              nt <- lift (m_notation x) ;;
              s <- lift (m_node_style x) ;;
              Ok (CChild index
                    (Delayed nt x (dl_flat d) (dl_indent d)
                       (style_combine (dl_style d) s) (dl_join d)))
          end
      end
  | Style l x =>
      ls <- lift (m_lookup_style (dl_doc d) l) ;;
      eval (set_note (set_style d (style_combine (dl_style d) ls)) x)
  | FocusMark => Ok CFocusMark
  | Count zero one many =>
      nc <- lift (m_num_children (dl_doc d)) ;;
      match nc with
      | None => Err CountNotationOnChildlessDoc
      | Some O => eval (set_note d zero)
      | Some (S O) => eval (set_note d one)
      | Some (S (S _)) => eval (set_note d many)
      end
  | Fold first join =>
      nc <- lift (m_num_children (dl_doc d)) ;;
      match nc with
      | None => Err NumChildrenChanged
      | Some O => Ok CEmpty
      | Some (S O) => eval (set_note d first)
      | Some (S m) =>
          child <- lift (m_unwrap_last_child (dl_doc d)) ;;
          eval (set_note (set_join d (Some (JoinPos (dl_doc d) child m first join))) join)
      end
  | Left =>
      match dl_join d with
      | None => Panic PLeftOutsideFold
      | Some jp =>
          if Nat.eqb (jp_index jp) 1
          then eval (set_note (set_join d None) (jp_first jp))
          else
            match jp_index jp with
            | O => Panic POverflow
            | S i =>
                child <- lift (m_unwrap_prev_sibling (jp_child jp) (jp_parent jp) i) ;;
                eval (set_note (set_join d (Some (JoinPos (jp_parent jp) child i (jp_first jp) (jp_join jp))))
                        (jp_join jp))
            end
      end
  | Right =>
      match dl_join d with
      | None => Panic PRightOutsideFold
      | Some jp =>
          nt <- lift (m_notation (jp_child jp)) ;;
          s <- lift (m_node_style (jp_child jp)) ;;
          Ok (CChild (jp_index jp)
                (Delayed nt (jp_child jp) (dl_flat d) (dl_indent d)
                   (style_combine (dl_style d) s) None))
      end
  end.
Proof.
  pose proof (@left_of_ok (dl_join d)) as Hok.
  unfold eval at 1. destruct (dl_note d) as [| | |s| |n|pre l n|a b|a b|c ps a b|i|l n| |z o m|f jn| |] eqn:E; simpl; auto.
  - apply eval_n_any. auto.
  - destruct l as [l|]; simpl.
    + destruct (lift (m_lookup_style (dl_doc d) l)); simpl; auto. apply eval_n_any; auto.
    + apply eval_n_any; auto.
  - destruct (dl_flat d); auto. apply eval_n_any; auto.
  - destruct (doc_to_inspect d ps); simpl; auto.
    destruct (lift (m_condition _ _)) as [[]|]; simpl; auto; apply eval_n_any; auto.
  - destruct (lift (m_lookup_style (dl_doc d) l)); simpl; auto. apply eval_n_any; auto.
  - destruct (lift (m_num_children (dl_doc d))) as [[[|[|]]|]|]; simpl; auto; apply eval_n_any; auto.
  - destruct (lift (m_num_children (dl_doc d))) as [[[|[|nc]]|]|]; simpl; auto.
    + apply eval_n_any; auto.
    + destruct (lift (m_unwrap_last_child (dl_doc d))) as [child|]; simpl; auto.
      apply eval_n_any. simpl.
      exact (@left_of_ok (Some (JoinPos (dl_doc d) child (S nc) f jn))).
  - destruct (dl_join d) as [jp|] eqn:Ej; auto. simpl.
    erewrite left_h_eq by eauto. destruct (Nat.eqb (jp_index jp) 1).
    + apply eval_n_any. apply none_ok.
    + destruct (jp_index jp) as [|i]; auto.
      destruct (lift _) as [child|]; simpl; auto. apply eval_n_any.
      exact (@left_of_ok (Some (JoinPos (jp_parent jp) child i (jp_first jp) (jp_join jp)))).
Qed.

End PEval.
