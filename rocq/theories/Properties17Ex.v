(** Concrete cases for C50 and C51. *)
From Verif Require Export Properties17 Properties16Ex.
From Coq Require Import String.

Set Implicit Arguments.

Notation prints' d w st ls := (@prints spd (wide_env true) d w st ls).

Lemma run_prints K (d : sdoc) w st up fl down downs ls :
  (forall m, @pretty_print spd (wide_env true) (K + m) d w [] FStart st = Ok (up, fl, down)) ->
  (forall m, collect (K + m) (@up_next spd (wide_env true) (K + m)) up = Ok []) ->
  (forall m, collect (K + m) (@down_next spd (wide_env true) (K + m)) down = Ok downs) ->
  ls = all_lines [] fl downs ->
  prints' d w st ls.
Proof.
  intros H1 H2 H3 ->. exists fl, downs. split; auto. exists up, down.
  split; [|split]; exists K; intros n Hn; replace n with (K + (n - K)) by lia; auto.
Qed.

Ltac run := eapply (@run_prints 200); [intros k; vm_compute; reflexivity|intros k; vm_compute; reflexivity|intros k; vm_compute; reflexivity|vm_compute; reflexivity].

(** One child, a text of width 4, in three ways. *)
Definition node50 (n : notation nat nat) : sdoc := Node 7 n [Leaf 8 Text ([97; 1000; 98]%N)].
(** On one line or on two. *)
Definition x50 : notation nat nat := Concat (lit "x=") (Concat (Choice (lit " ") Newline) (Child 0)).
Definition y50 : notation nat nat := Style 3 (Choice (lit "a longer line") (lit "y")).

Lemma node_with n m : with_note (s_tree (node50 n)) m = s_tree (node50 m).
Proof. reflexivity. Qed.

Lemma x50_wide w : (w = 7 \/ w = 10)%N -> prints' (node50 x50) w None [[seg (codes "x=") 2 [107]; seg (codes " ") 1 [107]; seg ([97; 1000; 98]%N) 4 [107; 108]]].
Proof. intros [->| ->]; run. Qed.
Lemma x50_narrow : prints' (node50 x50) 6 None [[seg (codes "x=") 2 [107]]; [seg ([97; 1000; 98]%N) 4 [107; 108]]].
Proof. run. Qed.
Lemma y50_narrow : prints' (node50 y50) 6 None [[seg (codes "y") 1 [107; 3]]].
Proof. run. Qed.
Lemma y50_ten : prints' (node50 y50) 10 None [[seg (codes "y") 1 [107; 3]]].
Proof. run. Qed.

(** The two above each other. *)
Example C50_case : prints' (node50 (n_xor x50 y50)) 6 None
  [[seg (codes "x=") 2 [107]]; [seg ([97; 1000; 98]%N) 4 [107; 108]]; [seg (codes "y") 1 [107; 3]]].
Proof.
  apply (@C50_above spd (wide_env true) spd_ideq (s_tree (node50 Empty)) x50 y50 _ (node50 x50) (node50 y50)); rewrite ?node_with;
    try apply s_rep; try (apply s_valid_doc; vm_compute; reflexivity).
  exists [[seg (codes "x=") 2 [107]]; [seg ([97; 1000; 98]%N) 4 [107; 108]]], [[seg (codes "y") 1 [107; 3]]].
  split; [exact x50_narrow|]. split; [exact y50_narrow|reflexivity].
Qed.

(** A column of two such nodes: the ids and so the styles are those of the nodes. *)
Example C50_column_case : prints' (Node 9 (Fold (Child 0) (n_xor Left Right)) [node50 x50; node50 y50]) 6 None
  [[seg (codes "x=") 2 [109; 107]]; [seg ([97; 1000; 98]%N) 4 [109; 107; 108]]; [seg (codes "y") 1 [109; 107; 3]]].
Proof.
  apply (@C50_column spd (wide_env true) spd_ideq
    (s_info (Node 9 (Fold (Child 0) (n_xor Left Right)) [node50 x50; node50 y50]))
    (map s_tree [node50 x50; node50 y50]) _ [node50 x50; node50 y50]).
  - discriminate.
  - exact (s_rep (Node 9 _ [node50 x50; node50 y50])).
  - apply (@s_valid_doc (Node 9 (Fold (Child 0) (n_xor Left Right)) [node50 x50; node50 y50])). vm_compute. reflexivity.
  - reflexivity.
  - repeat (constructor; [apply s_rep|]). constructor.
  - exists [[[seg (codes "x=") 2 [109; 107]]; [seg ([97; 1000; 98]%N) 4 [109; 107; 108]]]; [[seg (codes "y") 1 [109; 107; 3]]]].
    split; [|reflexivity]. constructor; [|constructor; [|constructor]].
    + run.
    + run.
Qed.

(** y, and below it x, indented by 4 of 10 columns: x is laid out in the remaining 6. *)
Example C51_case : prints' (node50 (n_add y50 (n_shr 4 x50))) 10 None
  [[seg (codes "y") 1 [107; 3]];
   [seg (codes "    ") 4 [107]; seg (codes "x=") 2 [107]]; [seg (codes "    ") 4 [107]; seg ([97; 1000; 98]%N) 4 [107; 108]]].
Proof.
  apply (@C51_shift_operator spd (wide_env true) spd_ideq (s_tree (node50 Empty)) y50 x50 4 _ (node50 y50) (node50 x50) 10%N None
    [[seg (codes "y") 1 [107; 3]]] [[seg (codes "x=") 2 [107]]; [seg ([97; 1000; 98]%N) 4 [107; 108]]]); rewrite ?node_with;
    try apply s_rep; try (apply s_valid_doc; vm_compute; reflexivity).
  - vm_compute. discriminate.
  - exact y50_ten.
  - exact x50_narrow.
  - repeat constructor.
Qed.
