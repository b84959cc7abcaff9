(** The layout of JSON documents: whole documents. *)
From Verif Require Export Properties2 PJson4.
From Coq Require Import String.

Set Implicit Arguments.

Section Roots.
Context {env : Env}.
Hypothesis Hrel : ovf = false.
Variable is_white : char -> bool.
Notation ctx := (@ctx jpd).
Notation elab := (@elab jpd env).
Notation elab_note := (@elab_note jpd env).
Notation pretty := (pretty is_white str_width wadd).
Notation good := (@PJson3.good env is_white).
Notation free_ok := (@free_ok env is_white).

Section Node.
Variables (i : @info jpd) (rks : list (@rdoc jpd)) (ks : list json_tree).
Notation E := (elab_note (RBranch i rks) (map jkid ks)).
Definition join4 : tree_notation := n_xor Left Right.

Lemma in_roots_cons p put x y l : in_root_rows p put (x :: y :: l) = put 0%N x ++ Break p :: in_root_rows p put (y :: l).
Proof. reflexivity. Qed.

Lemma kspec_true (k : SpecLayout.look) j : (forall rem e, k rem e = Some true) -> kspec k 0 j.
Proof. intros H. unfold kspec. destruct (is_jcomment j); intros rem; rewrite H; [|destruct rem]; reflexivity. Qed.

Lemma roots_fold w j0 b p c col0 : x_flat c = false -> wx b c -> ix b p c ->
  forall l ts, Forall2 (fun j t => styled t /\ free_ok j t) l ts ->
  forall m x prev acc o,
  (forall k, (forall rem e, k rem e = Some true) -> exists col', renders b w (acc c) j0 k col0 (o ++ pretty w p (prefix_width str_width wadd p) 0 x) col' (is_jcomment x)) ->
  forall k, (forall rem e, k rem e = Some true) ->
  exists col' e, renders b w (fold_kids (fun e c => E join4 (Some e) c) m prev (map jkid ts) acc c) j0 k col0
    (o ++ in_root_rows p (fun tail x => pretty w p (prefix_width str_width wadd p) tail x) (x :: l)) col' e.
Proof.
  intros Hf Hw Hx. induction 1 as [|y u l ts [Hy1 Hy2] F IH]; intros m x prev acc o Hacc k Hk.
  - destruct (Hacc k Hk) as (col' & R). exists col', (is_jcomment x). exact R.
  - cbn [map fold_kids].
    destruct (IH (S m) y (jkid u) (E join4 (Some (FoldEnv acc (k_doc prev) (S m) (jkid u)))) (o ++ pretty w p (prefix_width str_width wadd p) 0 x ++ [Break p])) with (k := k) as (col' & e & R); [|exact Hk|].
    2: { exists col', e. rewrite in_roots_cons. rewrite <- !app_assoc in R. exact R. }
    clear k Hk IH. intros k Hk.
    destruct (@free_child env is_white y u (S m) b p c w k (prefix_width str_width wadd p) 0%N j0 Hy1 Hy2 Hf Hw Hx (kspec_true k y Hk)) as (col' & R).
    exists col'. unfold join4, n_xor. cbn [SpecElab.elab_note fe_left fe_index fe_right].
    apply renders_concat with (c1 := prefix_width str_width wadd p); [|exact R].
    destruct (Hacc (fun _ _ => Some true) (fun _ _ => eq_refl)) as (c1 & R1). rewrite app_assoc. eapply renders_break; [exact Hrel|exact Hx|exact R1].
Qed.

Lemma roots_eq (c : ctx) l0 : ks = l0 -> E JSON_ROOTS None c =
  match l0 with
  | [] => SMark
  | [t] => child 0 (jkid t) c
  | t :: ts => fold_kids (fun e c => E join4 (Some e) c) 0 (jkid t) (map jkid ts) (fun c => child 0 (jkid t) c) c
  end.
Proof.
  intros Hks. unfold JSON_ROOTS. cbn [SpecElab.elab_note]. remember (map jkid ks) as kk eqn:Ek. rewrite Hks in Ek.
  destruct l0 as [|t [|t2 ts]]; cbn [map] in Ek; rewrite Ek; reflexivity.
Qed.
End Node.

Lemma doc_renders j t : is_document j -> jtree is_white j t -> forall b c w j0, x_flat c = false -> wx b c -> x_ind c = [] ->
  exists col' e, renders b w (elab (tree_rdoc t) c) j0 look_end 0 (pretty w [] 0 0 j) col' e.
Proof.
  intros Hd Ht b c w j0 Hf Hw Hi. assert (Hx : ix b [] c) by (unfold ix; rewrite Hi; reflexivity).
  inversion Hd as [? He|l He]; subst.
  - destruct (all_good Hrel (or_introl He) Ht) as (_ & _ & G).
    destruct (G b [] c w look_end 0%N 0%N j0 Hf Hw Hx (@kspec_true look_end j (fun _ _ => eq_refl))) as (col' & R). eauto.
  - inversion Ht as [| | | | | | | |? f ks Hp F]; subst.
    assert (G : Forall2 good l ks).
    { clear - He F Hrel. induction F as [|x t l ks Hx F IH]; constructor; [apply (all_good Hrel); [left; apply He; left; reflexivity|exact Hx]|].
      apply IH. intros y Hy. apply He. right. exact Hy. }
    rewrite (node_elab _ _ Hp), (roots_eq _ _ c eq_refl). cbn [SpecJson.pretty].
    destruct G as [|x t l ts Gx Gl].
    + exists 0%N, false. apply (@texts_renders env Hrel b w _ j0 look_end 0%N []). apply texts_mark.
    + destruct Gx as (G1 & _ & G2).
      assert (X : forall k, (forall rem e, k rem e = Some true) -> exists col', renders b w (child 0 (jkid t) c) j0 k 0%N ([] ++ pretty w [] (prefix_width str_width wadd []) 0 x) col' (is_jcomment x)).
      { intros k Hk. apply (@free_child env is_white x t 0 b [] c w k 0%N 0%N j0 G1 G2 Hf Hw Hx). apply kspec_true. exact Hk. }
      destruct ts as [|t2 ts].
      * inversion Gl. destruct (X look_end (fun _ _ => eq_refl)) as (col' & R). eauto.
      * apply (@roots_fold (tree_info (TreeKids f (t :: t2 :: ts))) (map tree_rdoc (t :: t2 :: ts)) (t :: t2 :: ts) w j0 b [] c 0%N Hf Hw Hx l (t2 :: ts) (good_free Gl) 0 x (jkid t) (fun c => child 0 (jkid t) c) [] X look_end (fun _ _ => eq_refl)).
Qed.
End Roots.

(** ** Lines *)
Section Lines.
Context {env : Env}.
Lemma strip_lines b : forall es o cur, strip es = map (paint b) o ->
  lines_from (map (jseg b) cur) es = map (map (jseg b)) (jlines_from cur o).
Proof.
  induction es as [|e es IH]; intros o cur H.
  - destruct o; [reflexivity|discriminate].
  - destruct e as [j t| |ind|j|j n|j n]; cbn [strip flat_map strip1 app] in H; cbn [lines_from]; try (apply IH; exact H).
    + destruct o as [|[c s|p] o]; try discriminate. cbn [map paint] in H.
      pose proof (f_equal (@tl _) H) as H2. cbn [tl] in H2.
      pose proof (f_equal (fun l => match l with SPut s :: _ => s | _ => text_seg t end) H) as H1. cbn beta iota in H1.
      cbn [jlines_from]. rewrite H1. specialize (IH o (cur ++ [(c, s)]) H2). rewrite map_app in IH. exact IH.
    + destruct o as [|[c s|p] o]; try discriminate. cbn [map paint] in H.
      pose proof (f_equal (@tl _) H) as H2. cbn [tl] in H2.
      pose proof (f_equal (fun l => match l with SBrk s :: _ => s | _ => [] end) H) as H1. cbn beta iota in H1.
      cbn [jlines_from map]. rewrite H1. f_equal. apply IH. exact H2.
Qed.
End Lines.

(** ** Valid notations *)
Lemma jtree_valid {env : Env} is_white j : forall t, jtree is_white j t -> valid_doc (tree_rdoc t).
Proof.
  assert (HK : forall l ks, (forall x, In x l -> forall t, jtree is_white x t -> valid_doc (tree_rdoc t)) -> Forall2 (jtree is_white) l ks ->
    forall k, In k (map (tree_rdoc (ts := basic_tree_style)) ks) -> valid_doc k).
  { intros l ks IH F. induction F as [|x t l ks Hx F IHF]; intros k Hk; [destruct Hk|]. destruct Hk as [<-|Hk]; [apply (IH x); [left; reflexivity|exact Hx]|].
    apply IHF; auto. intros y Hy. apply IH. right. exact Hy. }
  assert (V : forall n f, plainf n f -> validate n = Ok tt -> forall ks, (forall k, In k (map (tree_rdoc (ts := basic_tree_style)) ks) -> valid_doc k) -> valid_doc (tree_rdoc (TreeKids f ks))).
  { intros n f (Hn & _) Hv ks Hk. constructor; [|exact Hk]. cbn. rewrite Hn. exact Hv. }
  assert (W : forall n f s, plainf n f -> validate n = Ok tt -> valid_doc (tree_rdoc (TreeText f s))).
  { intros n f s (Hn & _) Hv. constructor. cbn. rewrite Hn. exact Hv. }
  assert (HW : forall l ks, Forall2 is_word l ks -> forall k, In k (map (tree_rdoc (ts := basic_tree_style)) ks) -> valid_doc k).
  { induction 1 as [|s t l ks (f & -> & Hf) _ IH]; intros k Hk; [destruct Hk|]. destruct Hk as [<-|Hk]; [|apply IH; exact Hk].
    eapply W; [exact Hf|vm_compute; reflexivity]. }
  induction j as [|b|s|s|l IH|l IH|key x IH|s|l IH] using json_ind'; intros t H; inversion H; subst.
  - eapply V; [eassumption|vm_compute; reflexivity|intros ? []].
  - destruct b; (eapply V; [eassumption|vm_compute; reflexivity|intros ? []]).
  - eapply W; [eassumption|vm_compute; reflexivity].
  - eapply W; [eassumption|vm_compute; reflexivity].
  - eapply V; [eassumption|vm_compute; reflexivity|eapply HK; eauto].
  - eapply V; [eassumption|vm_compute; reflexivity|eapply HK; eauto].
  - eapply V; [eassumption|vm_compute; reflexivity|]. intros k0 [<-|[<-|[]]]; [|apply IH; assumption].
    match goal with A : jtree _ (JString _) _ |- _ => inversion A; subst end. eapply W; [eassumption|vm_compute; reflexivity].
  - eapply V; [eassumption|vm_compute; reflexivity|eapply HW; eassumption].
  - eapply V; [eassumption|vm_compute; reflexivity|eapply HK; eauto].
Qed.
