(** Cases of C60 for focus marks and positions in texts: the documents of
    Properties47Ex, whose last part is broken. *)
From Coq Require Import String.
From Verif Require Import Examples Properties10Ex Properties47 Properties48 Properties23Ex Properties47Ex.

Set Implicit Arguments.
Open Scope string_scope.
Open Scope list_scope.
#[local] Existing Instance f_env.

Lemma mark_once : @open_once fpd (f_open cl mark_doc).
Proof.
  cbn. constructor; [intros [|[|m]]; simpl; lia|]. intros k [<-|[<-|[]]]; [|constructor].
  constructor; [intros [|[|m]]; simpl; lia|]. intros k [<-|[<-|[]]]; constructor.
Qed.

Example C60_case_mark n :
  @window_cost fpd f_env n mark_doc 6 [0] FMark None 1 0 <= 36 * (@open_parts fpd (f_open cl mark_doc) + 2) ^ 2.
Proof.
  apply (@C60_window_at_mark fpd f_env f_ideq (f_open cl mark_doc) mark_doc 6%N None [0] 1 1 0 [styled2 2 "aaa"] [] [] (styled2 3 "bbb")
    [Ev (@EEnter fpd 0 0)] (map Ev inside) after_node
    [@EEnter fpd 1 0; ev_aaa; @EExit fpd 1 0; @ENewline fpd []] (map Ev [@EEnter fpd 1 1; ev_bbb; @EExit fpd 1 1] ++ after_node)
    mark_orep mark_ovalid mark_ounique mark_once mark_leads); try reflexivity; try no_in.
  - left. exists [@EEnter fpd 0 0; @EEnter fpd 1 0; ev_aaa; @EExit fpd 1 0; @ENewline fpd []; @EMark fpd 1], [styled2 2 "aaa"]. repeat split.
  - right. exists [@EEnter fpd 1 1; ev_bbb; @EExit fpd 1 1; @EExit fpd 0 0], [], [Gap (@GapChild fpd 0 1)]. repeat split.
Qed.

Example C60_case_text n :
  @window_cost fpd f_env n mark_doc 6 [0; 1] (FText 1) None 1 0 <= 36 * (@open_parts fpd (f_open cl mark_doc) + 2) ^ 2.
Proof.
  apply (@C60_window_in_text fpd f_env f_ideq (f_open cl mark_doc) mark_doc 6%N None [0; 1] 1 1 0 [styled2 2 "aaa"] []
    (styled2 3 "b") (styled2 3 "bb") _ _ _ [] 3 t_bbb (Ev (@EExit fpd 1 1) :: after_node)
    mark_orep mark_ovalid mark_ounique mark_once mark_leads_word); try reflexivity; try no_in.
  - intros j' t' [].
  - left. exists ([@EEnter fpd 0 0; @EEnter fpd 1 0; ev_aaa; @EExit fpd 1 0; @ENewline fpd []; @EMark fpd 1; @EEnter fpd 1 1] ++
      [@EText fpd 3 (@Textual fpd (codes "b") 1 [100; 101; 103] true)]), [styled2 2 "aaa"]. repeat split.
  - right. exists [@EText fpd 3 (@Textual fpd (codes "bb") 2 [100; 101; 103] true); @EExit fpd 1 1; @EExit fpd 0 0], [], [Gap (@GapChild fpd 0 1)].
    repeat split.
Qed.

Example C60_case_mark_work :
  @open_parts fpd (f_open cl mark_doc) = 15 /\
  @window_cost fpd f_env 100 mark_doc 6 [0] FMark None 1 0 = 33 /\
  @window_cost fpd f_env 100 mark_doc 6 [0; 1] (FText 1) None 1 0 = 39.
Proof. vm_compute. repeat split. Qed.
