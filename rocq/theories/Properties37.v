(** The text of a notation (C70).  Vocabulary: SpecShow. *)
From Verif Require Export PShow2 Properties5.
From Coq Require Import String.

Set Implicit Arguments.

(** The text determines the notation up to the grouping of [+] (and the style
    labels of indentations, which it leaves out), if literals contain no quote and
    labels and conditions are shown as distinct names; and grouping is not shown. *)
Theorem C70_text_determines (L C : Type) (dbg_l : L -> str) (dbg_c : C -> str) :
  (forall l, is_name (dbg_l l)) -> (forall c, is_name (dbg_c c)) ->
  (forall l l', dbg_l l = dbg_l l' -> l = l') -> (forall c c', dbg_c c = dbg_c c' -> c = c') ->
  forall n m : notation L C, no_quotes n -> no_quotes m ->
  (show_notation dbg_l dbg_c n = show_notation dbg_l dbg_c m <-> regrouped n m).
Proof. intros H1 H2 H3 H4 n m Hn Hm. split; [apply show_reads; auto|apply regrouped_show]. Qed.

(** With quotes in literals, the text is ambiguous. *)
Theorem C70_quotes_refuted (L C : Type) (dbg_l : L -> str) (dbg_c : C -> str) :
  show_notation dbg_l dbg_c (Literal (chars "a' + 'b")) = show_notation dbg_l dbg_c (Concat (Literal (chars "a")) (Literal (chars "b"))).
Proof. reflexivity. Qed.

(** ** Consequence: what is printed *)

Fixpoint no_labels {L C : Type} (n : notation L C) : Prop :=
  match n with
  | Indent _ l m => l = None /\ no_labels m
  | Flat m | Style _ m => no_labels m
  | Concat a b | Choice a b | Check _ _ a b | Fold a b => no_labels a /\ no_labels b
  | Count a b c => no_labels a /\ no_labels b /\ no_labels c
  | _ => True
  end.

Fixpoint strip {L C : Type} (n : notation L C) : notation L C :=
  match n with
  | Indent s _ m => Indent s None (strip m)
  | Flat m => Flat (strip m)
  | Style l m => Style l (strip m)
  | Concat a b => Concat (strip a) (strip b)
  | Choice a b => Choice (strip a) (strip b)
  | Check c p a b => Check c p (strip a) (strip b)
  | Fold a b => Fold (strip a) (strip b)
  | Count a b c => Count (strip a) (strip b) (strip c)
  | _ => n
  end.
Lemma strip_same {L C : Type} (n : notation L C) : no_labels n -> strip n = n.
Proof.
  induction n; cbn [no_labels strip]; intros H; try reflexivity.
  - f_equal; auto.
  - destruct H as [-> H]. f_equal; auto.
  - destruct H. f_equal; auto.
  - destruct H. f_equal; auto.
  - destruct H. f_equal; auto.
  - f_equal; auto.
  - destruct H as (? & ? & ?). f_equal; auto.
  - destruct H. f_equal; auto.
Qed.

Section Printing.
Context {pd : PrettyDoc} {env : Env} {ideq : IdEq pd}.

Lemma regrouped_rw (x : rdoc) (n m : note) : regrouped n m -> rw any_law x (strip n) (strip m).
Proof.
  induction 1; cbn [strip].
  - apply rw_refl.
  - apply rw_sym. assumption.
  - eapply rw_trans; eassumption.
  - apply rw_sym, rw_law, any_algebra, law_assoc.
  - apply rw_refl.
  - apply rw_flat. assumption.
  - apply rw_indent. assumption.
  - apply rw_concat; assumption.
  - apply rw_choice; assumption.
  - apply rw_check; assumption.
  - apply rw_style. assumption.
  - apply rw_count; assumption.
  - apply rw_fold; assumption.
Qed.

Variables (dbg_l : Lbl -> str) (dbg_c : Cnd -> str).
Notation show := (show_notation dbg_l dbg_c).

(** Two documents that differ only in notations whose texts are the same. *)
Definition shown_alike (i i' : info) : Prop :=
  i_id i' = i_id i /\ i_style i' = i_style i /\ (forall l, i_lookup i' l = i_lookup i l) /\ (forall c, i_cond i' c = i_cond i c) /\
  show (i_note i) = show (i_note i') /\
  no_quotes (i_note i) /\ no_quotes (i_note i') /\ no_labels (i_note i) /\ no_labels (i_note i').
Inductive docs_alike : rdoc -> rdoc -> Prop :=
| DA_text i i' s : shown_alike i i' -> docs_alike (RText i s) (RText i' s)
| DA_branch i i' ks ks' : shown_alike i i' -> docs_alike_all ks ks' -> docs_alike (RBranch i ks) (RBranch i' ks')
with docs_alike_all : list rdoc -> list rdoc -> Prop :=
| DA_nil : docs_alike_all [] []
| DA_cons k k' ks ks' : docs_alike k k' -> docs_alike_all ks ks' -> docs_alike_all (k :: ks) (k' :: ks').

Hypothesis L_name : forall l, is_name (dbg_l l).
Hypothesis C_name : forall c, is_name (dbg_c c).
Hypothesis L_inj : forall l l', dbg_l l = dbg_l l' -> l = l'.
Hypothesis C_inj : forall c c', dbg_c c = dbg_c c' -> c = c'.

Lemma alike_info x i i' : shown_alike i i' -> rewritten_info any_law x i i'.
Proof.
  intros (H1 & H2 & H3 & H4 & E & Q1 & Q2 & N1 & N2). repeat (split; [solve [auto]|]).
  rewrite <- (strip_same _ N1), <- (strip_same _ N2). apply regrouped_rw. eapply show_reads; eauto.
Qed.

Scheme alike_mut := Induction for docs_alike Sort Prop
  with alike_all_mut := Induction for docs_alike_all Sort Prop.
Lemma alike_rewritten r r' : docs_alike r r' -> rewritten any_law r r'.
Proof.
  intros H. apply alike_mut with (P := fun r r' _ => rewritten any_law r r') (P0 := fun ks ks' _ => rewritten_all any_law ks ks'); intros.
  - constructor. apply alike_info. assumption.
  - constructor; [apply alike_info; assumption|assumption].
  - constructor.
  - constructor; assumption.
  - exact H.
Qed.

(** They are printed as the same lines. *)
Theorem C70_same_text_same_lines r r' doc doc' w st :
  rep r doc -> valid_doc r -> rep r' doc' -> valid_doc r' -> matched r -> docs_alike r r' -> printed_as w st doc doc'.
Proof. intros H1 H2 H3 H4 Hm H. eapply C26_notation_algebra; eauto. apply alike_rewritten. exact H. Qed.

End Printing.

(** ** The text of an evaluated notation *)
Section Consolidated.
Context {pd : PrettyDoc} {env : Env}.
Variables (dbg_l : Lbl -> str) (dbg_c : Cnd -> str).

(** The notations that have a counterpart after evaluation. *)
Definition counterpart (n : note) : Prop :=
  match n with
  | Empty | Newline | EndOfLine | FocusMark | Literal _ | Concat _ _ | Choice _ _ => True
  | Child i => (0 <= i)%Z
  | _ => False
  end.

(** Evaluating such a notation does not change its text (a choice in a [Flat] is
    resolved, so it is left out). *)
Theorem C70_evaluated_same_text (d : delayed) c :
  counterpart (dl_note d) -> (forall a b, dl_note d = Choice a b -> dl_flat d = false) ->
  eval d = Ok c -> show_consolidated dbg_l dbg_c c = show_delayed dbg_l dbg_c d.
Proof.
  unfold eval, show_delayed. destruct d as [n x fl ind sty jn]. cbn [dl_note dl_flat dl_doc dl_join].
  destruct n; cbn [counterpart]; intros Hc Hf; try contradiction; cbn [eval_n dl_flat]; try (intros H; injection H as <-; reflexivity).
  - rewrite (Hf _ _ eq_refl). intros H. injection H as <-. reflexivity.
  - cbn [dl_doc]. intros H. apply bind_ok in H as (nc & _ & H). destruct nc as [len|]; [|discriminate].
    destruct (normalize_child_index i len) as [k|] eqn:E; [|discriminate].
    apply bind_ok in H as (? & _ & H). apply bind_ok in H as (? & _ & H). apply bind_ok in H as (? & _ & H). injection H as <-.
    cbn [show_consolidated show_notation]. f_equal. unfold normalize_child_index in E.
    destruct (Z.ltb_spec i 0); [lia|]. destruct (_ || _)%bool eqn:Eo; [discriminate|]. injection E as <-.
    unfold show_nat, show_Z. destruct i as [|p|p]; [reflexivity| |lia]. rewrite Z_nat_N. reflexivity.
Qed.

(** A [Text] is shown as TEXT before evaluation and as the text afterwards. *)
Theorem C70_evaluated_text (d : delayed) c :
  dl_note d = Text -> eval d = Ok c ->
  show_delayed dbg_l dbg_c d = chars "TEXT" /\
  exists t, m_unwrap_text (dl_doc d) = MOk t /\ show_consolidated dbg_l dbg_c c = chars "'" ++ t ++ chars "'".
Proof.
  unfold eval, show_delayed. intros E H. rewrite E in *. split; [reflexivity|]. cbn [eval_n] in H.
  apply bind_ok in H as (nc & _ & H). destruct nc; [discriminate|].
  apply bind_ok in H as (t & Ht & H). injection H as <-. exists t. destruct (m_unwrap_text (dl_doc d)); try discriminate Ht. injection Ht as ->. auto.
Qed.
End Consolidated.
