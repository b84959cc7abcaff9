(** A concrete case for C59: a tree of nodes and a table of nodes. *)
From Verif Require Export Properties25 Properties12Ex Properties2Ex Properties10Ex.
From Coq Require Import String.
Local Notation length := List.length.

Set Implicit Arguments.

(** The nodes are kept in a table, and a node is its index in the table.  Ids
    are lists, there is only one style label, a style is a number, conditions
    are inverted, and errors are strings. *)
Definition table : list (notation unit nat * (str + list nat)) := [
  (Concat (Child 0) (Concat (Indent (codes "| ") (Some tt) (Concat Newline (Style tt (Child (-1)))))
      (Check 3 (CPChild 0) (Literal (codes "!")) (Literal (codes "?")))), inr [2; 1]);
  (Text, inl (codes "below"));
  (Choice (Concat Text Newline) (Concat Text Text), inl (codes "above")) ].

Definition table_pd : PrettyDoc := {|
  D := nat; Id := list nat; Sty := nat; Lbl := unit; Cnd := nat; Er := string;
  id_eqb := fun a b => if list_eq_dec Nat.eq_dec a b then true else false;
  style_combine := Nat.add;
  m_id := fun i => MOk [i; i];
  m_notation := fun i => match nth_error table i with Some (n, _) => MOk n | None => MErr "no node"%string end;
  m_condition := fun i c => MOk (negb (Nat.leb (S i) c));
  m_lookup_style := fun _ _ => MOk 1;
  m_node_style := fun _ => MOk 1;
  m_num_children := fun i => match nth_error table i with
    | Some (_, inl _) => MOk None | Some (_, inr ks) => MOk (Some (length ks)) | None => MErr "no node"%string end;
  m_unwrap_text := fun i => match nth_error table i with Some (_, inl s) => MOk s | _ => MPanic end;
  m_unwrap_child := fun i m => match nth_error table i with
    | Some (_, inr ks) => match nth_error ks m with Some k => MOk k | None => MPanic end | _ => MPanic end;
  m_unwrap_last_child := fun i => match nth_error table i with
    | Some (_, inr ks) => match nth_error ks (length ks - 1) with Some k => MOk k | None => MPanic end | _ => MPanic end;
  m_unwrap_prev_sibling := fun _ p m => match nth_error table p with
    | Some (_, inr ks) => match nth_error ks m with Some k => MOk k | None => MPanic end | _ => MPanic end |}.

(** The same document as a tree. *)
Definition tree1 : sdoc := Leaf 1 Text (codes "below").
Definition tree2 : sdoc := Leaf 2 (Choice (Concat Text Newline) (Concat Text Text)) (codes "above").
Definition tree0 : sdoc :=
  Node 0 (Concat (Child 0) (Concat (Indent (codes "| ") (Some 5) (Concat Newline (Style 6 (Child (-1)))))
      (Check 3 (CPChild 0) (Literal (codes "!")) (Literal (codes "?"))))) [tree2; tree1].

(** Styles of trees are lists of numbers, which correspond to their length. *)
Definition in_table : likeness spd table_pd :=
  @Likeness spd table_pd
    (fun t i => nth_error [tree0; tree1; tree2] i = Some t)
    (fun a b => b = [a; a]) (fun s' s => s = length s') (fun _ _ => True) eq (fun _ _ => False) (fun _ => False).

Example C59_case_alike : behaves_like in_table.
Proof.
  assert (Hd : forall (P : sdoc -> nat -> Prop), P tree0 0 -> P tree1 1 -> P tree2 2 ->
    forall d i, nth_error [tree0; tree1; tree2] i = Some d -> P d i).
  { intros P H0 H1 H2 d [|[|[|i]]] H; simpl in H; try (injection H as <-; auto); destruct i; discriminate. }
  assert (Hok : forall A B (Q : A -> B -> Prop) (x' : mres unit A) (x : mres string B) a' a,
    x' = MOk a' -> x = MOk a -> Q a' a -> answers_like in_table Q x' x).
  { intros A B Q x' x a' a -> -> H. simpl. eauto. }
  assert (Hp : forall A B (Q : A -> B -> Prop) (x' : mres unit A) (x : mres string B),
    x' = MPanic -> x = MPanic -> answers_like in_table Q x' x) by (intros A B Q x' x -> ->; reflexivity).
  assert (Hc : forall d' d i, lk_doc in_table d' d ->
    answers_like in_table (lk_doc in_table) (@m_unwrap_child spd d' i) (@m_unwrap_child table_pd d i)).
  { intros d' d i H. revert d' d H. apply Hd; [|apply Hp; reflexivity|apply Hp; reflexivity].
    destruct i as [|[|i]]; [eapply Hok; reflexivity|eapply Hok; reflexivity|].
    apply Hp; simpl; destruct i; reflexivity. }
  split.
  - intros i' i j' j -> ->. change (Nat.eqb i' j' = if list_eq_dec Nat.eq_dec [i'; i'] [j'; j'] then true else false).
    destruct (Nat.eqb_spec i' j') as [E1|E1]; destruct (list_eq_dec _ _ _) as [E|E]; congruence.
  - intros s' s t' t -> ->. cbn. symmetry. apply app_length.
  - apply Hd; eapply Hok; reflexivity.
  - apply Hd; (eapply Hok; [reflexivity|reflexivity|]); simpl; auto 20.
  - intros d' d c' c H <-. revert d' d H.
    assert (E : forall i, Nat.leb c' i = negb (Nat.leb (S i) c')).
    { intros i. destruct (Nat.leb_spec c' i), (Nat.leb_spec (S i) c'); auto; lia. }
    apply Hd; (eapply Hok; [reflexivity|reflexivity|]); apply E.
  - intros d' d l' l H _. revert d' d H. apply Hd; eapply Hok; reflexivity.
  - apply Hd; eapply Hok; reflexivity.
  - apply Hd; eapply Hok; reflexivity.
  - apply Hd; [apply Hp; reflexivity|eapply Hok; reflexivity|eapply Hok; reflexivity].
  - exact Hc.
  - apply Hd; [eapply Hok; reflexivity|apply Hp; reflexivity|apply Hp; reflexivity].
  - intros d' d p' p i _ H. exact (Hc p' p i H).
Qed.

(** So the table prints as the tree does: the same text, and the styles are the
    lengths of those of the tree. *)
Definition tree_lines := @window spd (senv true) 40 tree0 20 [1] FStart None 2 0.
Definition table_lines := @window table_pd (senv true) 40 0 20 [1] FStart None 2 0.

Example C59_case :
  tree_lines = Ok ([[]; [seg (codes "above") 5 [100; 102]]],
    FocusedLine [seg (codes "| ") 2 [100; 5]] [seg (codes "below") 5 [100; 6; 101]; seg (codes "?") 1 [100]], []) /\
  table_lines = Ok ([[]; [@Segment table_pd (codes "above") 5 2]],
    @FocusedLine table_pd [@Segment table_pd (codes "| ") 2 2] [@Segment table_pd (codes "below") 5 3; @Segment table_pd (codes "?") 1 1], []) /\
  forall n, same_result in_table (window_like in_table)
    (@window spd (senv true) n tree0 20 [1] FStart None 2 0)
    (@window table_pd (senv true) n 0 20 [1] FStart None 2 0).
Proof.
  split; [vm_compute; reflexivity|]. split; [vm_compute; reflexivity|].
  intros n. apply C59_same_window; [exact C59_case_alike|reflexivity|intros s1 s2 E; exact E].
Qed.

(** C59 (root styles).  A document printed with a root style and without. *)
Example C59_case_root_style :
  @window spd (senv true) 100 tree0 20 [1] FStart (Some [7]) 2 0 =
    Ok ([[]; [seg (codes "above") 5 [7; 100; 102]]],
      FocusedLine [seg (codes "| ") 2 [7; 100; 5]] [seg (codes "below") 5 [7; 100; 6; 101]; seg (codes "?") 1 [7; 100]], []) /\
  same_result (@but_styles spd) (window_like (@but_styles spd))
    (@window spd (senv true) 100 tree0 20 [1] FStart (Some [7]) 2 0)
    (@window spd (senv true) 100 tree0 20 [1] FStart None 2 0).
Proof. split; [vm_compute; reflexivity|apply C59_root_style]. Qed.
