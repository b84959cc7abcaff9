(** C53 and C54 for JSON documents. *)
From Verif Require Export Properties18 Properties19 Properties4Ex.
From Coq Require Import String.
From Coq Require Import List.
Import ListNotations.

Set Implicit Arguments.

Notation jpd := (@tree_doc basic_tree_style).
#[local] Existing Instance tree_doc.

(** A property of all nodes of the trees of JSON documents. *)
Section Nodes.
Variable P : @rdoc jpd -> Prop.
Hypothesis P_text : forall f s, In (t_notation f) [JSON_STRING; JSON_NUMBER; JSON_COMMENT_WORD] -> P (tree_rdoc (TreeText f s)).
Hypothesis P_leaf : forall f, In (t_notation f) [JSON_NULL; JSON_TRUE; JSON_FALSE] -> P (tree_rdoc (TreeKids f [])).
Hypothesis P_kids : forall f ks, In (t_notation f) [JSON_ARRAY; JSON_OBJECT; JSON_COMMENT; JSON_ROOTS] ->
  (forall k, In k ks -> P (tree_rdoc k)) -> P (tree_rdoc (TreeKids f ks)).
Hypothesis P_pair : forall f k1 k2, t_notation f = JSON_OBJECT_PAIR -> P (tree_rdoc k1) -> P (tree_rdoc k2) -> P (tree_rdoc (TreeKids f [k1; k2])).

Lemma json_nodes is_white j : forall t, jtree is_white j t -> P (tree_rdoc t).
Proof.
  assert (HK : forall l ks, (forall x, In x l -> forall t, jtree is_white x t -> P (tree_rdoc t)) -> Forall2 (jtree is_white) l ks ->
    forall k, In k ks -> P (tree_rdoc k)).
  { intros l ks IH F. induction F as [|x t l ks Hx F IHF]; intros k Hk; [destruct Hk|]. destruct Hk as [<-|Hk]; [apply (IH x); [left; reflexivity|exact Hx]|].
    apply IHF; auto. intros y Hy. apply IH. right. exact Hy. }
  induction j as [|b|s|s|l IH|l IH|key x IH|s|l IH] using json_ind'; intros t H.
  - inversion H as [f (Hf & _)| | | | | | | |]; subst. apply P_leaf. rewrite Hf. simpl; auto.
  - inversion H as [|? f (Hf & _)| | | | | | |]; subst. apply P_leaf. rewrite Hf. destruct b; simpl; auto.
  - inversion H as [| |? f (Hf & _)| | | | | |]; subst. apply P_text. rewrite Hf. simpl; auto.
  - inversion H as [| | |? f (Hf & _)| | | | |]; subst. apply P_text. rewrite Hf. simpl; auto.
  - inversion H as [| | | |? f ks (Hf & _) F _| | | |]; subst. apply P_kids; [rewrite Hf; simpl; auto|apply (HK l ks IH F)].
  - inversion H as [| | | | |? f ks (Hf & _) F _| | |]; subst. apply P_kids; [rewrite Hf; simpl; auto|apply (HK l ks IH F)].
  - inversion H as [| | | | | |? ? f kk k (Hf & _) Hkk Hk| |]; subst. apply P_pair; auto.
    inversion Hkk as [| |? fk (Hfk & _)| | | | | |]; subst. apply P_text. rewrite Hfk. simpl; auto.
  - inversion H as [| | | | | | |? f ks (Hf & _) F|]; subst. apply P_kids; [rewrite Hf; simpl; auto|].
    intros k Hk. clear - F Hk P_text. induction F as [|x t l ks (f & -> & Hf & _) F IHF]; [destruct Hk|]. destruct Hk as [<-|Hk]; auto.
    apply P_text. rewrite Hf. simpl; auto.
  - inversion H as [| | | | | | | |? f ks (Hf & _) F]; subst. apply P_kids; [rewrite Hf; simpl; auto|apply (HK l ks IH F)].
Qed.
End Nodes.

Lemma json_openings is_white j t : jtree is_white j t -> all_same_openings (tree_rdoc t).
Proof.
  apply json_nodes.
  - intros f s Hn. cbn [tree_rdoc all_same_openings tree_info i_note r_info t_fields]. destruct Hn as [<-|[<-|[<-|[]]]]; simpl; tauto.
  - intros f Hn. cbn [tree_rdoc all_same_openings tree_info i_note r_info t_fields]. destruct Hn as [<-|[<-|[<-|[]]]]; simpl; tauto.
  - intros f ks Hn Hk. cbn [tree_rdoc all_same_openings tree_info i_note r_info t_fields]. split.
    + destruct Hn as [<-|[<-|[<-|[<-|[]]]]]; simpl; repeat split.
      * exists [chars "["], []. split; reflexivity.
      * exists [chars "["], []. split; reflexivity.
      * exists [chars "{"], []. split; reflexivity.
      * exists [chars "{"], []. split; reflexivity.
      * exists [], [chars " "]. split; reflexivity.
    + clear Hn. induction ks as [|k ks IH]; simpl; auto. split; [apply Hk; simpl; auto|]. apply IH. intros; apply Hk; simpl; auto.
  - intros f k1 k2 Hf H1 H2. cbn [tree_rdoc all_same_openings tree_info i_note r_info t_fields map]. rewrite Hf. simpl. tauto.
Qed.

Lemma json_doc_matched is_white j t : jtree is_white j t -> doc_matched (tree_rdoc t) = true.
Proof.
  apply json_nodes with (P := fun r => doc_matched r = true).
  - intros f s Hn. cbn [tree_rdoc doc_matched tree_info i_note r_info t_fields]. destruct Hn as [<-|[<-|[<-|[]]]]; reflexivity.
  - intros f Hn. cbn [tree_rdoc doc_matched tree_info i_note r_info t_fields map]. destruct Hn as [<-|[<-|[<-|[]]]]; reflexivity.
  - intros f ks Hn Hk. cbn [tree_rdoc doc_matched]. apply andb_true_iff. split.
    + cbn [r_info tree_info i_note t_fields]. destruct ks as [|k1 [|k2 ks]]; destruct Hn as [<-|[<-|[<-|[<-|[]]]]]; reflexivity.
    + apply forallb_forall. intros k Hin. apply in_map_iff in Hin as (x & <- & Hx). auto.
  - intros f k1 k2 Hf H1 H2. cbn [tree_rdoc doc_matched map forallb]. rewrite H1, H2. cbn [r_info tree_info i_note t_fields]. rewrite Hf. reflexivity.
Qed.

Section Json.
Variables (uw : str -> N) (cf : char -> bool).
Notation release := (Build_Env uw cf false).
Variables (checks : bool) (is_white : char -> bool).
Variables (j : json) (t : json_tree).
Hypothesis Hmade : made checks is_white j t.
Hypothesis Hdoc : is_document j.

(** C53.  Every choice in a JSON document obeys the requirement. *)
Theorem C53_json_obeys st : obedient (snd (@doc_shape jpd release (tree_rdoc t) st)).
Proof.
  destruct (made_jtree Hmade) as [Hj _]. apply C53_same_openings. apply (json_openings Hj).
Qed.

(** C53.  So a JSON document is printed in the same way, with the focus in the
    same place, at all widths at which the lines fit: narrowing the window
    changes nothing until a line would no longer fit. *)
Theorem C53_json w w' st path ft ups fl downs :
  NoDup (tree_ids t) -> (w' <= w)%N -> (w' < U16)%N -> ft = FStart \/ ft = FEnd ->
  @printed jpd release t w path ft st ups fl downs ->
  Forall (fun l => exact_width l <= w')%N (all_lines ups fl downs) ->
  @printed jpd release t w' path ft st ups fl downs.
Proof.
  intros Hids Hw Hw' Hft Hp HF. destruct (made_jtree Hmade) as [Hj _].
  pose proof (C46_tree_is_well_behaved t) as Hrep. pose proof (@jtree_valid release is_white j t Hj) as Hv.
  assert (Hft' : is_text_target ft = false) by (destruct Hft; subst; reflexivity).
  destruct (C01_printed_has_layout Hrep Hv Hft' Hp) as (es & Hes & E). rewrite E in HF.
  eapply C53_same_focus; eauto.
  - apply json_unique; exact Hids.
  - apply doc_matched_ok. apply (json_doc_matched Hj).
  - apply C53_json_obeys.
  - eapply once_linear; eauto. { apply json_unique; exact Hids. } apply (json_once Hj).
  - rewrite Hft'. discriminate.
Qed.
End Json.
