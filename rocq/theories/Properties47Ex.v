(** Concrete cases for C57, focus marks and positions in texts. *)
From Verif Require Import Examples Properties10Ex Properties47 Properties23Ex.
From Coq Require Import String.

Set Implicit Arguments.
Open Scope string_scope.
Open Scope list_scope.
#[local] Existing Instance f_env.

(** Two words on two lines, with a mark between them, above a broken part. *)
Definition mark_doc : fdoc := FNode 0 (n_xor (Child 0) (Child 1))
  [FNode 1 (n_xor (Child 0) (Concat FocusMark (Child 1))) [word 2 "aaa"; word 3 "bbb"];
   FNode 10 (Child 0) [FBroken]].

Definition ev_aaa : @event fpd := @EText fpd 2 (@Textual fpd (codes "aaa") 3 [100; 101; 102] true).
Definition ev_bbb : @event fpd := @EText fpd 3 (@Textual fpd (codes "bbb") 3 [100; 101; 103] true).
Definition t_bbb : @textual fpd := @Textual fpd (codes "bbb") 3 [100; 101; 103] true.
Definition inside : list (@event fpd) :=
  [@EEnter fpd 1 0; ev_aaa; @EExit fpd 1 0; @ENewline fpd []; @EMark fpd 1; @EEnter fpd 1 1; ev_bbb; @EExit fpd 1 1].
Definition after_node : list (@pev fpd) := [Ev (@EExit fpd 0 0); Ev (@ENewline fpd []); Gap (@GapChild fpd 0 1)].

Lemma mark_layout : @open_layout fpd f_env 6 (f_open cl mark_doc) None = Ev (@EEnter fpd 0 0) :: map Ev inside ++ after_node.
Proof. vm_compute. reflexivity. Qed.

Lemma mark_leads : @leads fpd (oid_at (f_open cl mark_doc)) [] (@open_layout fpd f_env 6 (f_open cl mark_doc) None)
  [0] [Ev (@EEnter fpd 0 0)] (map Ev inside) after_node.
Proof.
  rewrite mark_layout.
  apply (@leads_down fpd (oid_at (f_open cl mark_doc)) [] _ 0 0 [] (map Ev inside) [Ev (@ENewline fpd []); Gap (@GapChild fpd 0 1)]
    [] [] (map Ev inside) []); try reflexivity; try no_in. constructor.
Qed.

Lemma mark_leads_word : @leads fpd (oid_at (f_open cl mark_doc)) [] (@open_layout fpd f_env 6 (f_open cl mark_doc) None)
  [0; 1] (Ev (@EEnter fpd 0 0) :: map Ev [@EEnter fpd 1 0; ev_aaa; @EExit fpd 1 0; @ENewline fpd []; @EMark fpd 1; @EEnter fpd 1 1])
  [Ev ev_bbb] (Ev (@EExit fpd 1 1) :: after_node).
Proof.
  rewrite mark_layout.
  apply (@leads_down fpd (oid_at (f_open cl mark_doc)) [] _ 0 0 [] (map Ev inside) [Ev (@ENewline fpd []); Gap (@GapChild fpd 0 1)]
    [1] (map Ev [@EEnter fpd 1 0; ev_aaa; @EExit fpd 1 0; @ENewline fpd []; @EMark fpd 1; @EEnter fpd 1 1]) [Ev ev_bbb] [Ev (@EExit fpd 1 1)]);
    try reflexivity; try no_in.
  apply (@leads_down fpd (oid_at (f_open cl mark_doc)) [0] _ 1 1
    (map Ev [@EEnter fpd 1 0; ev_aaa; @EExit fpd 1 0; @ENewline fpd []; @EMark fpd 1]) [Ev ev_bbb] [] [] [] [Ev ev_bbb] []);
    try reflexivity; try no_in.
  constructor.
Qed.

Lemma mark_orep : @orep fpd (f_open cl mark_doc) mark_doc.
Proof. apply f_orep. reflexivity. Qed.
Lemma mark_ovalid : @ovalid fpd (f_open cl mark_doc).
Proof. apply o_valid_ok. reflexivity. Qed.
Lemma mark_ounique : @ounique fpd (f_open cl mark_doc).
Proof. apply oids_unique. vm_compute. repeat (constructor; [simpl; intuition discriminate|]). constructor. Qed.

Example C57_case_mark :
  ev (fun n => @window fpd f_env n mark_doc 6 [0] FMark None 1 0)
    (Ok ([styled2 2 "aaa"], FocusedLine [] (styled2 3 "bbb"), [])).
Proof.
  apply (@C57_window_at_mark fpd f_env f_ideq (f_open cl mark_doc) mark_doc 6%N None [0] 1 1 0 [styled2 2 "aaa"] [] [] (styled2 3 "bbb")
    [Ev (@EEnter fpd 0 0)] (map Ev inside) after_node
    [@EEnter fpd 1 0; ev_aaa; @EExit fpd 1 0; @ENewline fpd []] (map Ev [@EEnter fpd 1 1; ev_bbb; @EExit fpd 1 1] ++ after_node)
    mark_orep mark_ovalid mark_ounique mark_leads); try reflexivity; try no_in.
  - left. exists [@EEnter fpd 0 0; @EEnter fpd 1 0; ev_aaa; @EExit fpd 1 0; @ENewline fpd []; @EMark fpd 1], [styled2 2 "aaa"]. repeat split.
  - right. exists [@EEnter fpd 1 1; ev_bbb; @EExit fpd 1 1; @EExit fpd 0 0], [], [Gap (@GapChild fpd 0 1)]. repeat split.
Qed.

(** In the middle of the second word. *)
Example C57_case_text :
  ev (fun n => @window fpd f_env n mark_doc 6 [0; 1] (FText 1) None 1 0)
    (Ok ([styled2 2 "aaa"], FocusedLine (styled2 3 "b") (styled2 3 "bb"), [])).
Proof.
  apply (@C57_window_in_text fpd f_env f_ideq (f_open cl mark_doc) mark_doc 6%N None [0; 1] 1 1 0 [styled2 2 "aaa"] []
    (styled2 3 "b") (styled2 3 "bb") _ _ _ [] 3 t_bbb (Ev (@EExit fpd 1 1) :: after_node)
    mark_orep mark_ovalid mark_ounique mark_leads_word); try reflexivity; try no_in.
  - intros j' t' [].
  - left. exists ([@EEnter fpd 0 0; @EEnter fpd 1 0; ev_aaa; @EExit fpd 1 0; @ENewline fpd []; @EMark fpd 1; @EEnter fpd 1 1] ++
      [@EText fpd 3 (@Textual fpd (codes "b") 1 [100; 101; 103] true)]), [styled2 2 "aaa"]. repeat split.
  - right. exists [@EText fpd 3 (@Textual fpd (codes "bb") 2 [100; 101; 103] true); @EExit fpd 1 1; @EExit fpd 0 0], [], [Gap (@GapChild fpd 0 1)].
    repeat split.
Qed.

(** When the mark is in a closed node, it cannot be found. *)
Definition dark_doc : fdoc := FNode 0 (n_xor (Child 0) (Child 1)) [word 1 "aaa"; FNode 10 (Concat (Child 0) FocusMark) [FBroken]].

Example C57_case_no_mark : is_doc_error (@window fpd f_env 200 dark_doc 6 [1] FMark None 0 0).
Proof. exists tt. vm_compute. reflexivity. Qed.

(** A document with these open nodes, and its lines. *)
Example C57_case_full : exists es, @layout fpd f_env 6 (doc_shape (RBranch (f_info mark_doc)
    [RBranch (f_info (FNode 1 (n_xor (Child 0) (Concat FocusMark (Child 1))) [])) [f_word 2 "aaa"; f_word 3 "bbb"];
     RBranch (f_info (FNode 10 (Child 0) [FBroken])) [f_word 11 "ccc"]]) None) = Some es /\
  (exists all_ups all_downs, lines_of es = rev all_ups ++ ([] ++ styled2 3 "bbb") :: all_downs /\
    [styled2 2 "aaa"] = firstn 1 all_ups /\ [] = firstn 0 all_downs) /\
  exists all_ups all_downs before after,
    lines_of es = rev all_ups ++ (before ++ text_seg t_bbb :: after) :: all_downs /\
    styled2 3 "b" = before ++ [text_seg (fst (split_at t_bbb 1))] /\
    styled2 3 "bb" = text_seg (snd (split_at t_bbb 1)) :: after /\
    [styled2 2 "aaa"] = firstn 1 all_ups /\ [] = firstn 0 all_downs.
Proof.
  eexists. split; [vm_compute; reflexivity|].
  match goal with |- (exists a b, lines_of ?es = _ /\ _) /\ _ => set (L := es) end.
  assert (Hc : @closes fpd (f_open cl mark_doc) (RBranch (f_info mark_doc)
    [RBranch (f_info (FNode 1 (n_xor (Child 0) (Concat FocusMark (Child 1))) [])) [f_word 2 "aaa"; f_word 3 "bbb"];
     RBranch (f_info (FNode 10 (Child 0) [FBroken])) [f_word 11 "ccc"]])).
  { constructor. constructor; [|constructor; [|constructor]].
    - apply (@cl_branch fpd (f_info (FNode 1 (n_xor (Child 0) (Concat FocusMark (Child 1))) []))). repeat constructor.
    - apply (@cl_closed fpd (RBranch (f_info (FNode 10 (Child 0) [FBroken])) [f_word 11 "ccc"])). }
  assert (Hl : @layout fpd f_env 6 (doc_shape (RBranch (f_info mark_doc)
    [RBranch (f_info (FNode 1 (n_xor (Child 0) (Concat FocusMark (Child 1))) [])) [f_word 2 "aaa"; f_word 3 "bbb"];
     RBranch (f_info (FNode 10 (Child 0) [FBroken])) [f_word 11 "ccc"]]) None) = Some L) by (vm_compute; reflexivity).
  split.
  - eapply (@C57_known_lines_at_mark fpd f_env _ _ 6%N None [0] 1 0 _ _ [] _ _ _ _ _
      [@EEnter fpd 1 0; ev_aaa; @EExit fpd 1 0; @ENewline fpd []] 1 (map Ev [@EEnter fpd 1 1; ev_bbb; @EExit fpd 1 1] ++ after_node) Hc Hl mark_leads);
      [reflexivity| |].
    + left. exists [@EEnter fpd 0 0; @EEnter fpd 1 0; ev_aaa; @EExit fpd 1 0; @ENewline fpd []; @EMark fpd 1], [styled2 2 "aaa"]. repeat split.
    + right. exists [@EEnter fpd 1 1; ev_bbb; @EExit fpd 1 1; @EExit fpd 0 0], [], [Gap (@GapChild fpd 0 1)]. repeat split.
  - eapply (@C57_known_lines_in_text fpd f_env _ _ 6%N None [0; 1] 1 1 0 _ _ _ _ _ _ _ _ [] 3 t_bbb (Ev (@EExit fpd 1 1) :: after_node) Hc Hl mark_leads_word);
      [reflexivity| |].
    + left. exists ([@EEnter fpd 0 0; @EEnter fpd 1 0; ev_aaa; @EExit fpd 1 0; @ENewline fpd []; @EMark fpd 1; @EEnter fpd 1 1] ++
        [@EText fpd 3 (@Textual fpd (codes "b") 1 [100; 101; 103] true)]), [styled2 2 "aaa"]. repeat split.
    + right. exists [@EText fpd 3 (@Textual fpd (codes "bb") 2 [100; 101; 103] true); @EExit fpd 1 1; @EExit fpd 0 0], [], [Gap (@GapChild fpd 0 1)].
      repeat split.
Qed.

(** In a vertical list with broken items at both ends: inside the word "two" … *)
Example C57_case_list_text :
  ev (fun n => @window fpd f_env n rows 5 [2] (FText 1) None 1 1)
    (Ok ([styled 1 "one"], FocusedLine [@Segment fpd (codes "t") 1 [100; 102]] [@Segment fpd (codes "wo") 2 [100; 102]], [styled 3 "three"])).
Proof.
  apply (@C57_list_in_text fpd f_env f_ideq (f_info rows) [f_open cl (FNode 10 (Child 0) [FBroken])]
    [f_word 1 "one"] (f_word 2 "two") [f_word 3 "three"] [f_open cl (FNode 11 (Child 0) [FBroken])] rows 5%N None
    [f_text 1 "one"] (f_text 2 "two") [f_text 3 "three"] [] 2 (@Textual fpd (codes "two") 3 [100; 102] true) []
    [] [@Segment fpd (codes "t") 1 [100; 102]] [@Segment fpd (codes "wo") 2 [100; 102]] [] 1 1 1);
  try reflexivity; try (repeat constructor; fail); try (right; vm_compute; lia).
  - exact (@f_orep cl rows eq_refl).
  - apply (@o_valid_ok fpd (f_open cl rows)). reflexivity.
  - apply (@oids_unique fpd (f_open cl rows)). vm_compute. repeat (constructor; [simpl; intuition discriminate|]). constructor.
  - intros j' t' [].
Qed.

(** … and at the mark between two words on different lines. *)
Definition mark_rows : fdoc := FNode 0 (Fold (Child 0) (n_xor Left Right))
  [FNode 10 (Child 0) [FBroken];
   FNode 1 (n_xor (Child 0) (Concat FocusMark (Child 1))) [word 2 "aaa"; word 3 "bbb"];
   word 4 "ccc"].

Example C57_case_list_mark :
  ev (fun n => @window fpd f_env n mark_rows 6 [1] FMark None 1 7)
    (Ok ([styled2 2 "aaa"], FocusedLine [] (styled2 3 "bbb"), [styled 4 "ccc"])).
Proof.
  apply (@C57_list_at_mark fpd f_env f_ideq (f_info mark_rows) [f_open cl (FNode 10 (Child 0) [FBroken])]
    [] (RBranch (f_info (FNode 1 (n_xor (Child 0) (Concat FocusMark (Child 1))) [])) [f_word 2 "aaa"; f_word 3 "bbb"])
    [f_word 4 "ccc"] [] mark_rows 6%N None [] inside [f_text 4 "ccc"]
    [@EEnter fpd 1 0; ev_aaa; @EExit fpd 1 0; @ENewline fpd []] [@EEnter fpd 1 1; ev_bbb; @EExit fpd 1 1]
    [styled2 2 "aaa"] [] (styled2 3 "bbb") [] 1 7);
  try reflexivity; try no_in; try (repeat constructor; fail); try (right; vm_compute; lia); try (left; reflexivity).
  - exact (@f_orep cl mark_rows eq_refl).
  - apply (@o_valid_ok fpd (f_open cl mark_rows)). reflexivity.
  - apply (@oids_unique fpd (f_open cl mark_rows)). vm_compute. repeat (constructor; [simpl; intuition discriminate|]). constructor.
Qed.
