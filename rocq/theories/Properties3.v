(** Document errors (C20) and laziness (C42). *)
From Verif Require Export Properties2Ex PMask.

Set Implicit Arguments.

Section Mask.
Context {pd : PrettyDoc} {env : Env} {ideq : IdEq pd}.
Variable R : D -> D -> Prop.
Hypothesis HR : masks R.

(** C20.  When some methods of a document return errors, printing either fails
    with one of these errors, or does exactly what it would do if there were no
    errors: it never prints something else, ... *)
Theorem C20_never_something_else d' d w path ft st ups fl downs :
  finite_doc d -> R d' d ->
  printed d' w path ft st ups fl downs -> printed d w path ft st ups fl downs.
Proof.
  intros Hf Hd (up' & down' & [N1 H1] & [N2 H2] & [N3 H3]).
  destruct (C09_printing_terminates w path ft st Hf) as (r & [M1 Hr] & _ & Hit).
  set (n := N1 + N2 + N3 + M1).
  pose proof (@pretty_print_mask _ _ _ HR n d' d w path ft st Hd) as H.
  rewrite H1, Hr in H by (unfold n; lia).
  destruct H as ([[up fl0] down] & -> & (A1 & A2 & A3)). simpl in *. subst fl0.
  destruct (Hit _ _ _ eq_refl) as (ru & rd & [M2 U] & _ & [M3 Dn] & _).
  exists up, down. split; [exists M1; exact Hr|].
  pose proof (@collect_up_mask _ _ _ HR (n + M2 + M3) _ _ A1) as HU. rewrite H2, U in HU by (unfold n; lia).
  pose proof (@collect_down_mask _ _ _ HR (n + M2 + M3) _ _ A3) as HD. rewrite H3, Dn in HD by (unfold n; lia).
  destruct HU as (? & -> & <-). destruct HD as (? & -> & <-). split; [exists M2; exact U|exists M3; exact Dn].
Qed.

(** ... and any other failure is the failure there would have been. *)
Theorem C20_other_failures_unchanged d' d w path ft st f :
  finite_doc d -> R d' d -> print_fails d' w path ft st f ->
  (exists e, f = FErr (PrettyDocErr e)) \/ print_fails d w path ft st f.
Proof.
  intros Hf Hd Hp.
  destruct (C09_printing_terminates w path ft st Hf) as (r & [M1 Hr] & _ & Hit).
  assert (Hfail : forall A (x : pres A), rr (A := A) (B := A) eq (Fail f) x -> (exists e, f = FErr (PrettyDocErr e)) \/ x = Fail f).
  { intros A x H. destruct f as [[]| |]; eauto. }
  destruct Hp as [[N1 H1]|(up' & fl & down' & [N1 H1] & Hc)].
  - pose proof (@pretty_print_mask _ _ _ HR (N1 + M1) d' d w path ft st Hd) as H.
    rewrite H1, Hr in H by lia. assert (H' : (exists e, f = FErr (PrettyDocErr e)) \/ r = Fail f) by (destruct f as [[]| |]; eauto).
    destruct H' as [H'| ->]; [auto|]. right. left. exists M1. exact Hr.
  - pose proof (@pretty_print_mask _ _ _ HR (N1 + M1) d' d w path ft st Hd) as H.
    rewrite H1, Hr in H by lia.
    destruct H as ([[up fl0] down] & -> & (A1 & A2 & A3)). simpl in *. subst fl0.
    destruct (Hit _ _ _ eq_refl) as (ru & rd & [M2 U] & _ & [M3 Dn] & _).
    destruct Hc as [[N2 Hc]|[N2 Hc]].
    + pose proof (@collect_up_mask _ _ _ HR (N2 + M2) _ _ A1) as HU. rewrite Hc, U in HU by lia.
      destruct (Hfail _ _ HU) as [?| ->]; auto. right. right. exists up, fl, down. split; [exists M1; exact Hr|]. left. exists M2. exact U.
    + pose proof (@collect_down_mask _ _ _ HR (N2 + M3) _ _ A3) as HU. rewrite Hc, Dn in HU by lia.
      destruct (Hfail _ _ HU) as [?| ->]; auto. right. right. exists up, fl, down. split; [exists M1; exact Hr|]. right. exists M3. exact Dn.
Qed.

(** C42.  Let [d'] be a document in which the methods of some parts return
    errors.  If the focused line and the lines around it are printed without
    running into these errors, then the same lines are printed for every
    document [d] that agrees with [d'] elsewhere: what is in those parts does
    not matter. *)
Theorem C42_unprinted_parts_do_not_matter fuel d' d1 d2 w path ft st ku kd :
  R d' d1 -> R d' d2 -> ~ is_doc_error (window fuel d' w path ft st ku kd) ->
  window fuel d1 w path ft st ku kd = window fuel d' w path ft st ku kd /\
  window fuel d2 w path ft st ku kd = window fuel d' w path ft st ku kd.
Proof.
  intros H1 H2 Hn.
  pose proof (@rr_eq_result _ _ _ _ (@window_mask _ _ _ HR fuel d' d1 w path ft st ku kd H1)) as E1.
  pose proof (@rr_eq_result _ _ _ _ (@window_mask _ _ _ HR fuel d' d2 w path ft st ku kd H2)) as E2.
  intuition.
Qed.

End Mask.

(** ** Concrete case: documents with broken nodes, all of whose methods fail. *)
Inductive fdoc : Type :=
| FBroken
| FLeaf (i : nat) (n : notation nat nat) (s : str)
| FNode (i : nat) (n : notation nat nat) (kids : list fdoc).

Definition f_get {A} (d : fdoc) (leaf : nat -> notation nat nat -> str -> mres unit A)
    (node : nat -> notation nat nat -> list fdoc -> mres unit A) : mres unit A :=
  match d with FBroken => MErr tt | FLeaf i n s => leaf i n s | FNode i n ks => node i n ks end.

Definition fpd : PrettyDoc := {|
  D := fdoc; Id := nat; Sty := list nat; Lbl := nat; Cnd := nat; Er := unit;
  id_eqb := Nat.eqb;
  style_combine := fun a b => a ++ b;
  m_id := fun d => f_get d (fun i _ _ => MOk i) (fun i _ _ => MOk i);
  m_notation := fun d => f_get d (fun _ n _ => MOk n) (fun _ n _ => MOk n);
  m_condition := fun d c => f_get d (fun i _ _ => MOk (Nat.leb c i)) (fun i _ _ => MOk (Nat.leb c i));
  m_lookup_style := fun d l => f_get d (fun _ _ _ => MOk [l]) (fun _ _ _ => MOk [l]);
  m_node_style := fun d => f_get d (fun i _ _ => MOk [100 + i]) (fun i _ _ => MOk [100 + i]);
  m_num_children := fun d => f_get d (fun _ _ _ => MOk None) (fun _ _ ks => MOk (Some (List.length ks)));
  m_unwrap_text := fun d => f_get d (fun _ _ s => MOk s) (fun _ _ _ => MPanic);
  m_unwrap_child := fun d i => f_get d (fun _ _ _ => MPanic) (fun _ _ ks => get (nth_error ks i));
  m_unwrap_last_child := fun d => f_get d (fun _ _ _ => MPanic) (fun _ _ ks => get (nth_error ks (List.length ks - 1)));
  m_unwrap_prev_sibling := fun _ p i => f_get p (fun _ _ _ => MPanic) (fun _ _ ks => get (nth_error ks i))
|}.

(** The left document is the right one with some nodes broken. *)
Inductive blur : fdoc -> fdoc -> Prop :=
| BlurBroken d : blur FBroken d
| BlurLeaf i n s : blur (FLeaf i n s) (FLeaf i n s)
| BlurNode i n ks' ks : Forall2 blur ks' ks -> blur (FNode i n ks') (FNode i n ks).

Lemma blur_nth ks' ks i : Forall2 blur ks' ks -> @answers_node fpd blur (get (nth_error ks' i)) (get (nth_error ks i)).
Proof.
  intros H. revert i. induction H as [|x' x l' l Hx Hl IH]; intros i.
  - destruct i; right; left; auto.
  - destruct i; [|apply IH]. right. right. simpl. eauto.
Qed.

Lemma blur_masks : @masks fpd blur.
Proof.
  intros d' d H. destruct H as [d|i n s|i n ks' ks H].
  - repeat split; try (right; eexists; reflexivity); try (left; eexists; reflexivity).
    intros p' p i Hp. destruct Hp; [left; eexists; reflexivity|right; left; auto|]. apply blur_nth. auto.
  - repeat split; try (left; reflexivity); try (right; left; auto; fail).
    intros p' p j Hp. destruct Hp; [left; eexists; reflexivity|right; left; auto|]. apply blur_nth. auto.
  - assert (E : List.length ks' = List.length ks) by (clear - H; induction H; simpl; auto).
    repeat split; try (left; reflexivity).
    + left. simpl. rewrite E. reflexivity.
    + intros j. apply blur_nth; auto.
    + simpl. rewrite E. apply blur_nth; auto.
    + intros p' p j Hp. destruct Hp; [left; eexists; reflexivity|right; left; auto|]. apply blur_nth. auto.
Qed.

From Coq Require Import String.
Open Scope string_scope.
Open Scope list_scope.

(** A list of three words, one per line, the last inside a further node and
    broken; and the same list with any document in its place. *)
Definition vlist : notation nat nat := Fold (Child 0) (Concat Left (Concat Newline Right)).
Definition broken_doc : fdoc := FNode 0 vlist [FLeaf 1 Text (codes "one"); FLeaf 2 Text (codes "two"); FNode 3 (Child 0) [FBroken]].
Definition full_doc (x : fdoc) : fdoc := FNode 0 vlist [FLeaf 1 Text (codes "one"); FLeaf 2 Text (codes "two"); FNode 3 (Child 0) [x]].

Example C42_case_related x : blur broken_doc (full_doc x).
Proof. constructor. repeat constructor. Qed.

(** Focused on the first word, two lines can be printed although the third
    word is broken. *)
Example C42_case_prints :
  match @window fpd (senv true) 200 broken_doc 10 [0] FStart None 0 1 with
  | Ok (ups, fl, downs) => ups = [] /\ map segs_to_string downs = [codes "two"] /\ segs_to_string (right_segments fl) = codes "one"
  | Fail _ => False
  end.
Proof. vm_compute. repeat split; reflexivity. Qed.

(** Asking for all the lines runs into the broken node. *)
Example C20_case_fails : is_doc_error (@window fpd (senv true) 200 broken_doc 10 [0] FStart None 0 2).
Proof. exists tt. vm_compute. reflexivity. Qed.
