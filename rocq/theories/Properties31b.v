(** C64 (and C47) for JSON documents, and a way to have single lines as first
    options. *)
From Verif Require Export Properties31 Properties20.
From Coq Require Import List.
Import ListNotations.

Set Implicit Arguments.
#[local] Existing Instance tree_doc.

Section Tidy.
Context {pd : PrettyDoc} {env : Env}.

(** C47, C54, C64.  A simple way to have single lines as first options: in first
    options, put children inside Flats, and no Newlines; in the notations of all
    nodes except for the root, put Newlines only into second options. *)
Theorem C64_tidy r st : tidy_firsts r -> single_line_firsts (snd (doc_shape r st)).
Proof. intros H. apply elab_single. exact H. Qed.
End Tidy.

Lemma kids_notes (P : @note jpd -> Prop) f (ks : list json_tree) : P (t_notation f) -> (forall k, In k ks -> @all_notes jpd P (tree_rdoc k)) ->
  @all_notes jpd P (tree_rdoc (TreeKids f ks)).
Proof.
  intros H Hk. cbn [tree_rdoc all_notes tree_info i_note r_info t_fields]. split; auto. clear H.
  induction ks as [|k ks IH]; simpl; auto. split; [apply Hk; simpl; auto|]. apply IH. intros; apply Hk; simpl; auto.
Qed.

Lemma json_onelined is_white j : (is_entry j \/ is_member j) -> forall t, jtree is_white j t -> @all_notes jpd (onelined true false) (tree_rdoc t).
Proof.
  assert (HK : forall l ks, (forall x, In x l -> (is_entry x \/ is_member x) -> forall t, jtree is_white x t -> @all_notes jpd (onelined true false) (tree_rdoc t)) ->
    (forall x, In x l -> is_entry x \/ is_member x) -> Forall2 (jtree is_white) l ks ->
    forall k, In k ks -> @all_notes jpd (onelined true false) (tree_rdoc k)).
  { intros l ks IH Hl F. induction F as [|x t l ks Hx F IHF]; intros k Hk; [destruct Hk|].
    destruct Hk as [<-|Hk]; [apply (IH x); simpl; auto; apply Hl; simpl; auto|].
    apply IHF; auto; intros y Hy; [apply IH|apply Hl]; right; exact Hy. }
  induction j as [|b|s|s|l IH|l IH|key x IH|s|l IH] using json_ind'; intros He t H.
  - inversion H as [f (Hf & _)| | | | | | | |]; subst. apply kids_notes; [rewrite Hf; simpl; tauto|intros k []].
  - inversion H as [|? f (Hf & _)| | | | | | |]; subst. apply kids_notes; [rewrite Hf; destruct b; simpl; tauto|intros k []].
  - inversion H as [| |? f (Hf & _)| | | | | |]; subst. cbn [tree_rdoc all_notes tree_info i_note r_info t_fields]. rewrite Hf. simpl. tauto.
  - inversion H as [| | |? f (Hf & _)| | | | |]; subst. cbn [tree_rdoc all_notes tree_info i_note r_info t_fields]. rewrite Hf. simpl. tauto.
  - inversion H as [| | | |? f ks (Hf & _) F _| | | |]; subst. apply kids_notes; [rewrite Hf; simpl; tauto|].
    apply (HK l ks IH); auto. destruct He as [He|He]; inversion He as [y Hy|]; inversion Hy; subst. auto.
  - inversion H as [| | | | |? f ks (Hf & _) F _| | |]; subst. apply kids_notes; [rewrite Hf; simpl; tauto|].
    apply (HK l ks IH); auto. destruct He as [He|He]; inversion He as [y Hy|]; inversion Hy; subst. auto.
  - inversion H as [| | | | | |? ? f kk k (Hf & _) Hkk Hk| |]; subst. apply kids_notes; [rewrite Hf; simpl; tauto|].
    intros k0 [<-|[<-|[]]].
    + inversion Hkk as [| |? fk (Hfk & _)| | | | | |]; subst. cbn [tree_rdoc all_notes tree_info i_note r_info t_fields]. rewrite Hfk. simpl. tauto.
    + apply IH; auto. left. destruct He as [He|He]; [inversion He as [y Hy|]; inversion Hy|inversion He; subst; constructor; auto].
  - inversion H as [| | | | | | |? f ks (Hf & _) F|]; subst. apply kids_notes; [rewrite Hf; simpl; tauto|].
    intros k Hk. clear - F Hk. induction F as [|x t l ks (f & -> & Hf & _) F IHF]; [destruct Hk|]. destruct Hk as [<-|Hk]; auto.
    cbn [tree_rdoc all_notes tree_info i_note r_info t_fields]. rewrite Hf. simpl. tauto.
  - destruct He as [He|He]; inversion He as [y Hy|]; inversion Hy.
Qed.

Lemma json_onelined_firsts is_white j t : jtree is_white j t -> @all_notes jpd onelined_firsts (tree_rdoc t).
Proof.
  apply json_nodes.
  - intros f s Hn. cbn [tree_rdoc all_notes tree_info i_note r_info t_fields]. destruct Hn as [<-|[<-|[<-|[]]]]; simpl; tauto.
  - intros f Hn. apply kids_notes; [|intros k []]. destruct Hn as [<-|[<-|[<-|[]]]]; simpl; tauto.
  - intros f ks Hn Hk. apply kids_notes; [|exact Hk]. destruct Hn as [<-|[<-|[<-|[<-|[]]]]]; simpl; tauto.
  - intros f k1 k2 Hf H1 H2. apply kids_notes; [rewrite Hf; simpl; tauto|]. intros k [<-|[<-|[]]]; auto.
Qed.

Lemma json_tidy is_white j t : is_document j -> jtree is_white j t -> @tidy_firsts jpd (tree_rdoc t).
Proof.
  intros Hd H. split; [apply (json_onelined_firsts H)|]. intros k Hk. inversion Hd as [x He|l Hl]; subst.
  - pose proof (json_onelined (or_introl He) H) as K. destruct t as [f s|f ks]; [destruct Hk|]. cbn [tree_rdoc] in K, Hk.
    apply all_notes_kids in K. apply K. exact Hk.
  - inversion H as [| | | | | | | |? f ks (Hf & _) F]; subst. simpl in Hk. apply in_map_iff in Hk as (x & <- & Hx).
    clear - Hl F Hx. induction F as [|y t l ks Hy F IH]; [destruct Hx|]. destruct Hx as [<-|Hx].
    + eapply json_onelined; eauto. left. apply Hl. simpl. auto.
    + apply IH; auto. intros z Hz. apply Hl. simpl. auto.
Qed.

Section Json.
Variables (uw : str -> N) (cf : char -> bool).
Notation release := (Build_Env uw cf false).
Variables (checks : bool) (is_white : char -> bool).
Variables (j : json) (t : json_tree).
Hypothesis Hmade : made checks is_white j t.
Hypothesis Hdoc : is_document j.

(** C64.  What is printed of a JSON document comes first among its layouts that
    fit: at the first array, object or space in a comment at which another such
    layout differs, that one breaks a line and the printed one does not. *)
Theorem C64_json w st path ft ups fl downs :
  is_text_target ft = false ->
  @printed jpd release t w path ft st ups fl downs -> narrow_lines (all_lines ups fl downs) ->
  exists cs es, doc_picks (@doc_shape jpd release (tree_rdoc t) st) cs es /\ all_lines ups fl downs = lines_of es /\
    forall cs' es', doc_picks (@doc_shape jpd release (tree_rdoc t) st) cs' es' -> fitting w es' ->
      (cs = cs' /\ es = es') \/ comes_before cs cs'.
Proof.
  intros Hft Hp Hn. destruct (made_jtree Hmade) as [Hj _].
  apply (C64_comes_first (C46_tree_is_well_behaved t) (@jtree_valid release is_white j t Hj) (C53_json_obeys _ _ Hmade st) Hft Hp Hn).
Qed.

(** C64.  If the document fits with every array and object broken up, and every
    comment broken at every space, then the layout that is printed fits, and it
    is the first that does. *)
Theorem C64_json_first_fitting w st :
  (w < U16)%N -> fitting w (@second_events jpd (i_id (r_info (tree_rdoc t))) (snd (@doc_shape jpd release (tree_rdoc t) st))) ->
  exists cs es fl downs, doc_picks (@doc_shape jpd release (tree_rdoc t) st) cs es /\ fitting w es /\
    @printed jpd release t w [] FStart st [] fl downs /\ all_lines [] fl downs = lines_of es /\
    forall cs' es', doc_picks (@doc_shape jpd release (tree_rdoc t) st) cs' es' -> fitting w es' -> cs' = cs \/ comes_before cs cs'.
Proof.
  intros Hw Hg. destruct (made_jtree Hmade) as [Hj _].
  apply (C64_first_fitting (C46_tree_is_well_behaved t) (@jtree_valid release is_white j t Hj)); auto.
  - apply doc_matched_ok. apply (json_doc_matched Hj).
  - apply (C53_json_obeys _ _ Hmade st).
  - apply C64_tidy. apply (json_tidy Hdoc Hj).
Qed.
End Json.

Print Assumptions C64_tidy.
Print Assumptions C64_json.
Print Assumptions C64_json_first_fitting.
