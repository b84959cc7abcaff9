(** Cases of C62 for open documents: the second line of [mark_doc]
    (Properties47Ex) in a pane of two rows, the line below it being broken. *)
From Coq Require Import String.
From Verif Require Import Examples Properties10Ex Properties29Ex Properties49 Properties23Ex Properties47Ex.

Set Implicit Arguments.
Open Scope string_scope.
Open Scope list_scope.
#[local] Existing Instance f_env.

Definition mark_contents (path : list nat) (ft : focus_target) (l : nat) : option (fdoc * printing_options) :=
  Some (mark_doc, PrintingOptions path ft f32_one WFull true).
Notation screen := (Size 6 2).
Notation shown ft path rs focus :=
  (ev (fun n => @SpecPane.drawn_in fpd f_env nat (mark_contents path ft) unit screen (rect_from_size screen) n (PDoc 0) [])
    ((SetFocus (Pos 1 focus)) :: List.concat rs, Ok tt)).

Example C62_case_mark : exists rs,
  @shows_lines fpd f_env (rect_from_size screen) (line_at [styled3 2 "aaa"] (FocusedLine [] (styled3 3 "bbb")) [] 1) [] rs /\
  shown FMark [0] rs 0.
Proof.
  refine (@C62_open_document_at_mark fpd f_env nat (mark_contents [0] FMark) unit screen (conj eq_refl eq_refl) f_ideq (f_open cl mark_doc) mark_doc 0
    (PrintingOptions [0] FMark f32_one WFull true) [] (rect_from_size screen) 1%N [0] [styled3 2 "aaa"] [] (styled3 3 "bbb") []
    [Ev (@EEnter fpd 0 0)] (map Ev inside) after_node 1
    [@EEnter fpd 1 0; ev_aaa; @EExit fpd 1 0; @ENewline fpd []] (map Ev [@EEnter fpd 1 1; ev_bbb; @EExit fpd 1 1] ++ after_node)
    eq_refl (whole_in _) eq_refl eq_refl eq_refl eq_refl eq_refl mark_orep mark_ovalid mark_ounique mark_leads eq_refl eq_refl _ _ _ _).
  - no_in.
  - left. exists [@EEnter fpd 0 0; @EEnter fpd 1 0; ev_aaa; @EExit fpd 1 0; @ENewline fpd []; @EMark fpd 1], [styled3 2 "aaa"]. repeat split.
  - right. exists [@EEnter fpd 1 1; ev_bbb; @EExit fpd 1 1; @EExit fpd 0 0], [], [Gap (@GapChild fpd 0 1)]. repeat split.
  - reflexivity.
Qed.

Example C62_case_text : exists rs,
  @shows_lines fpd f_env (rect_from_size screen) (line_at [styled3 2 "aaa"] (FocusedLine (styled3 3 "b") (styled3 3 "bb")) [] 1) [] rs /\
  shown (FText 1) [0; 1] rs 1.
Proof.
  refine (@C62_open_document_in_text fpd f_env nat (mark_contents [0; 1] (FText 1)) unit screen (conj eq_refl eq_refl) f_ideq (f_open cl mark_doc) mark_doc 0
    (PrintingOptions [0; 1] (FText 1) f32_one WFull true) [] (rect_from_size screen) 1%N [0; 1] [styled3 2 "aaa"] (styled3 3 "b") (styled3 3 "bb") []
    _ _ _ 1 3 t_bbb [] (Ev (@EExit fpd 1 1) :: after_node)
    eq_refl (whole_in _) eq_refl eq_refl eq_refl eq_refl eq_refl mark_orep mark_ovalid mark_ounique mark_leads_word eq_refl _ eq_refl eq_refl _ _ _).
  - intros j' t' [].
  - left. exists ([@EEnter fpd 0 0; @EEnter fpd 1 0; ev_aaa; @EExit fpd 1 0; @ENewline fpd []; @EMark fpd 1; @EEnter fpd 1 1] ++
      [@EText fpd 3 (@Textual fpd (codes "b") 1 [100; 101; 103] true)]), [styled3 2 "aaa"]. repeat split.
  - right. exists [@EText fpd 3 (@Textual fpd (codes "bb") 2 [100; 101; 103] true); @EExit fpd 1 1; @EExit fpd 0 0], [], [Gap (@GapChild fpd 0 1)].
    repeat split.
  - reflexivity.
Qed.

Example C62_case_end : exists rs,
  @shows_lines fpd f_env (rect_from_size screen) (line_at [styled3 2 "aaa"] (FocusedLine (styled3 3 "bbb") []) [] 1) [] rs /\
  shown FEnd [0; 1] rs 3.
Proof.
  refine (@C62_open_document_at_end fpd f_env nat (mark_contents [0; 1] FEnd) unit screen (conj eq_refl eq_refl) f_ideq (f_open cl mark_doc) mark_doc 0
    (PrintingOptions [0; 1] FEnd f32_one WFull true) [] (rect_from_size screen) 1%N [0; 1] [styled3 2 "aaa"] (styled3 3 "bbb") [] []
    _ _ _ eq_refl (whole_in _) eq_refl eq_refl eq_refl eq_refl eq_refl mark_orep mark_ovalid mark_ounique mark_leads_word _ _ _).
  - left. exists ([@EEnter fpd 0 0; @EEnter fpd 1 0; ev_aaa; @EExit fpd 1 0; @ENewline fpd []; @EMark fpd 1; @EEnter fpd 1 1] ++ [ev_bbb]), [styled3 2 "aaa"]. repeat split.
  - right. exists [@EExit fpd 1 1; @EExit fpd 0 0], [], [Gap (@GapChild fpd 0 1)]. repeat split.
  - reflexivity.
Qed.
