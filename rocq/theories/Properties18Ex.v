(** Concrete cases for C52. *)
From Verif Require Export Properties18 Properties17Ex Properties13Ex.
From Verif Require Import Properties12Ex.
From Coq Require Import String.

Set Implicit Arguments.

(** The second option shows the children in the other order. *)
Definition note52 : notation nat nat := Choice (Concat (Child 0) (Concat (lit " ") (Child 1))) (Concat (Child 1) (Concat Newline (Child 0))).
Definition doc52 : sdoc := Node 1 note52 [Leaf 2 Text (codes "abc"); Node 3 (lit "{}") []].

Lemma once52 : all_once (s_tree doc52).
Proof.
  intros [|[|[|n]] q] x Hx; cbn in Hx.
  - injection Hx as <-. intros l Hl. cbn in Hl. destruct Hl as [<-|[<-|[]]]; [reflexivity|]. apply perm_swap.
  - destruct q as [|i q]; [|destruct i; discriminate]. injection Hx as <-. intros l [<-|[]]. reflexivity.
  - destruct q as [|i q]; [|destruct i; discriminate]. injection Hx as <-. intros l [<-|[]]. reflexivity.
  - destruct n; discriminate.
Qed.

Example C52_case w : (w = 6 \/ w = 5)%N ->
  exists ups fl downs, @printed spd (wide_env true) doc52 w [1] FEnd None ups fl downs.
Proof.
  intros Hw.
  assert (Hp : exists fl downs, @printed spd (wide_env true) doc52 w [] FStart None [] fl downs).
  { assert (Hs : exists ls, prints' doc52 w None ls).
    { destruct Hw as [->| ->].
      - exists [[seg (codes "abc") 3 [101; 102]; seg (codes " ") 1 [101]; seg (codes "{}") 2 [101; 103]]]. run.
      - exists [[seg (codes "{}") 2 [101; 103]]; [seg (codes "abc") 3 [101; 102]]]. run. }
    destruct Hs as (ls & fl & downs & Hp & _). eauto. }
  destruct Hp as (fl0 & downs0 & Hp).
  destruct (@C52_every_node spd (wide_env true) spd_ideq (s_tree doc52) doc52 (s_rep _)
    ltac:(apply s_valid_doc; vm_compute; reflexivity) ltac:(apply ids_unique; vm_compute; repeat constructor; simpl; intuition discriminate) once52 w None fl0 downs0 [1] (s_tree (Node 3 (lit "{}") [])) FEnd Hp eq_refl (or_intror eq_refl))
    as (ups & fl & downs & H & _). eauto.
Qed.

Lemma run_path K (d : sdoc) w path ft st up fl down ups downs :
  (forall m, @pretty_print spd (wide_env true) (K + m) d w path ft st = Ok (up, fl, down)) ->
  (forall m, collect (K + m) (@up_next spd (wide_env true) (K + m)) up = Ok ups) ->
  (forall m, collect (K + m) (@down_next spd (wide_env true) (K + m)) down = Ok downs) ->
  @printed spd (wide_env true) d w path ft st ups fl downs.
Proof.
  intros H1 H2 H3. exists up, down.
  split; [|split]; exists K; intros n Hn; replace n with (K + (n - K)) by lia; auto.
Qed.

(** If an option leaves a child out, then the child cannot be focused at a width
    at which that option is taken. *)
Definition hidden52 : sdoc := Node 1 (Choice (Child 0) (lit "..")) [Leaf 2 Text (codes "abc")].
Example C52_hidden_child :
  (exists ups fl downs, @printed spd (wide_env true) hidden52 3 [0] FStart None ups fl downs) /\
  print_fails (env := wide_env true) hidden52 2 [0] FStart None (FErr (InvalidPath 0)).
Proof.
  split.
  - do 3 eexists. eapply (@run_path 200); intros k.
    + vm_compute. reflexivity.
    + vm_compute. reflexivity.
    + vm_compute. reflexivity.
  - left. exists 200. intros n Hn. replace n with (200 + (n - 200)) by lia. generalize (n - 200). intros k. vm_compute. reflexivity.
Qed.

(** In {"key": [1, "two"], // some words  "other": null}: the string "two" is at
    path [0; 1; 1], and it can be focused at every width, even 0. *)
Example C52_json_case w st : exists ups fl downs,
  @printed (@tree_doc basic_tree_style) (c_env false) (tree_of case_json) w [0; 1; 1] FEnd st ups fl downs.
Proof.
  apply (@C52_json (fun s => N.of_nat (List.length s)) (fun _ => false) true white case_json _ case_made case_document).
  - vm_compute. repeat constructor; simpl; intuition discriminate.
  - right. reflexivity.
  - eexists. vm_compute. reflexivity.
Qed.
(** ... but there is nothing at [0; 1; 2]. *)
Example C52_json_nothing_case w st : ~ exists ups fl downs,
  @printed (@tree_doc basic_tree_style) (c_env false) (tree_of case_json) w [0; 1; 2] FEnd st ups fl downs.
Proof.
  intros H. apply (@C52_json (fun s => N.of_nat (List.length s)) (fun _ => false) true white case_json _ case_made case_document) in H.
  - destruct H as (x & H). vm_compute in H. discriminate.
  - vm_compute. repeat constructor; simpl; intuition discriminate.
  - right. reflexivity.
Qed.
