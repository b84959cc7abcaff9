(** Concrete cases for C62. *)
From Verif Require Import Examples Properties10Ex Properties29 Properties23Ex.
From Coq Require Import String.
Open Scope string_scope.
Open Scope list_scope.
Set Implicit Arguments.

Notation fwindow n d w path ft st ku kd := (@SpecMask.window fpd f_env n d w path ft st ku kd).

Lemma run_window K d w path ft st ku kd x :
  (forall m, fwindow (K + m) d w path ft st ku kd = x) -> ev (fun n => fwindow n d w path ft st ku kd) x.
Proof. intros H. exists K. intros n Hn. replace n with (K + (n - K)) by lia. apply H. Qed.

(** The list of Properties23Ex: its first and its last item are broken inside.
    The focus is at "two", in the middle of the pane. *)
Definition at_two : printing_options := PrintingOptions [2] FStart f32_half WFull true.
Definition broken_contents (l : nat) : option (fdoc * printing_options) :=
  match l with 0 => Some (rows, at_two) | _ => None end.

(** It cannot be printed as a whole, *)
Example C62_case_unprintable : is_doc_error (fwindow 200 rows 8 [2] FStart (Some []) 2 0) /\ is_doc_error (fwindow 200 rows 8 [2] FStart (Some []) 0 2).
Proof. split; exists tt; vm_compute; reflexivity. Qed.

(** ... but the three words can, *)
Definition in_style (st : list nat) (i : nat) (s : string) : @line fpd :=
  [@Segment fpd (codes s) (N.of_nat (String.length s)) ((st ++ [100]) ++ [100 + i])].
Lemma rows_visible w :
  @printed_part fpd f_env rows at_two w [] 1 1 [in_style [] 1 "one"] (FocusedLine [] (in_style [] 2 "two")) [in_style [] 3 "three"].
Proof. apply (@run_window 200). intros m. vm_compute. reflexivity. Qed.

Definition size62 : Pane.size := Size 8 3.
Lemma window62 : window_size size62. Proof. split; reflexivity. Qed.

(** ... so a pane of 3 rows shows them. *)
Example C62_case_document : exists rs,
  @shows_lines fpd f_env (rect_from_size size62)
    (line_at [in_style [] 1 "one"] (FocusedLine [] (in_style [] 2 "two")) [in_style [] 3 "three"] 1) [] rs /\
  ev (fun n => @SpecPane.drawn_in fpd f_env nat broken_contents unit size62 (rect_from_size size62) n (PDoc 0) [])
     (SetFocus (Pos 1 0) :: List.concat rs, Ok tt).
Proof.
  exact (@C62_document_pane fpd f_env nat broken_contents unit size62 window62 0 rows at_two [] (rect_from_size size62) 1%N
    _ _ _ eq_refl (whole_in size62) eq_refl eq_refl eq_refl (rows_visible 8) (fun _ => eq_refl)).
Qed.

(** A row more, and it fails. *)
Example C62_case_too_high :
  ev (fun n => @SpecPane.drawn_in fpd f_env nat broken_contents unit (Size 8 5) (rect_from_size (Size 8 5)) n (PDoc 0) [])
     ([], Err (PrintingErr (PrettyDocErr tt))).
Proof.
  apply (@C62_needs_visible_lines fpd f_env nat broken_contents unit (Size 8 5) (conj eq_refl eq_refl) 0 rows at_two [] (rect_from_size (Size 8 5)) 2%N);
    try reflexivity.
  - apply whole_in.
  - apply (@run_window 200). intros m. vm_compute. reflexivity.
  - intros _ up fl down H.
    assert (E : exists up fl down, ev (fun n => @pretty_print fpd f_env n rows 8 [2] FStart (Some [])) (Ok (up, fl, down)) /\ left_segments fl = []).
    { do 3 eexists. split; [exists 100; intros n Hn; replace n with (100 + (n - 100)) by lia; vm_compute; reflexivity|reflexivity]. }
    destruct E as (u & f & dn & E1 & E2).
    assert (X : Ok (up, fl, down) = Ok (u, f, dn)) by (eapply ev_det; [exact H|exact E1]).
    injection X as _ -> _. rewrite E2. reflexivity.
Qed.

(** The same list with sound items. *)
Definition sound_rows : fdoc := FNode 0 (Fold (Child 0) (n_xor Left Right))
  [FNode 10 (Child 0) [word 20 "zero"]; word 1 "one"; word 2 "two"; word 3 "three"; FNode 11 (Child 0) [word 21 "four"]].
Definition sound_contents (l : nat) : option (fdoc * printing_options) :=
  match l with 0 => Some (sound_rows, at_two) | _ => None end.

(** In two rows they look the same: the line above "two", "two" itself, and the
    line below can be asked for. *)
Lemma rows_look_the_same l : @looks_the_same fpd f_env (Size 8 2) (broken_contents l) (sound_contents l).
Proof.
  destruct l as [|l]; [|exact I]. split; [reflexivity|]. intros w st ku kd x _ Hk.
  assert (Hc : (ku = 0 /\ kd = 0) \/ (ku = 0 /\ kd = 1) \/ (ku = 1 /\ kd = 0)) by (cbn [s_height] in Hk; lia).
  cbv zeta.
  assert (X : exists y, ev (fun n => fwindow n rows w [2] FStart (Some st) ku kd) (Ok y) /\
                        ev (fun n => fwindow n sound_rows w [2] FStart (Some st) ku kd) (Ok y)).
  { destruct Hc as [[-> ->]|[[-> ->]|[-> ->]]]; eexists; split; apply (@run_window 300); intros m; vm_compute; reflexivity. }
  destruct X as (y & E1 & E2). intros E. change (asked_width at_two w) with w in *.
  assert (Y : Ok x = Ok y) by (eapply ev_det; [exact E|exact E1]). rewrite Y. exact E2.
Qed.

Lemma rows_print_visible : @prints_visible fpd f_env (Size 8 2) rows at_two.
Proof.
  intros w st ku kd Hw Hk.
  assert (Hc : (ku = 0 /\ kd = 0) \/ (ku = 0 /\ kd = 1) \/ (ku = 1 /\ kd = 0)) by (cbn [s_height] in Hk; lia).
  exists [in_style st 1 "one"], (FocusedLine [] (in_style st 2 "two")), [in_style st 3 "three"].
  split; [|split].
  - unfold printed_part. change (asked_width at_two w) with w.
    destruct Hc as [[-> ->]|[[-> ->]|[-> ->]]]; apply (@run_window 300); intros m; vm_compute; reflexivity.
  - destruct Hc as [[-> ->]|[[-> ->]|[-> ->]]]; repeat constructor.
  - reflexivity.
Qed.

(** The list twice, above each other, and a filler. *)
Definition pane62 : @pane nat (list nat) :=
  Vert [(Dynamic, PStyle [7] (PDoc 0)); (Proportional 1, PFill 45%N); (Dynamic, PDoc 1)].
Lemma pane62_sane : sane (Size 8 2) pane62.
Proof.
  constructor. constructor; try reflexivity.
  intros k p [E|[E|[E|[]]]]; injection E as <- <-; repeat constructor.
Qed.
Lemma pane62_well_made : @well_made fpd nat pane62.
Proof.
  constructor. split; [|split].
  - intros p [E|[E|[E|[]]]]; injection E as <- || discriminate; repeat constructor.
  - intros h p _. reflexivity.
  - intros k p [E|[E|[E|[]]]] Hk; injection E as <- <-; repeat constructor.
Qed.

Example C62_case_pane : exists calls,
  ev (fun n => @SpecPane.drawn fpd f_env nat broken_contents unit (Size 8 2) n pane62 []) (calls, Ok tt) /\
  ev (fun n => @SpecPane.drawn fpd f_env nat sound_contents unit (Size 8 2) n pane62 []) (calls, Ok tt).
Proof.
  apply (@C62_indistinguishable fpd f_env nat broken_contents unit (Size 8 2) (conj eq_refl eq_refl) sound_contents pane62 []).
  - discriminate.
  - exact pane62_sane.
  - exact pane62_well_made.
  - intros l _. apply rows_look_the_same.
  - intros [|l] doc o _ E; [|discriminate]. injection E as <- <-. split; [exact half_ok|exact rows_print_visible].
Qed.

(** C62_open_document: the second line of [pair_doc] (Properties23Ex) in a pane of
    two rows, the line below it being broken. *)
Definition at_second : printing_options := PrintingOptions [0; 1] FStart f32_one WFull false.
Definition pair_contents (l : nat) : option (fdoc * printing_options) := Some (pair_doc, at_second).
Definition styled3 (i : nat) (s : string) : @line fpd := [@Segment fpd (codes s) (N.of_nat (String.length s)) [100; 101; 100 + i]].

Example C62_case_open : exists rs,
  @shows_lines fpd f_env (rect_from_size (Size 5 2)) (line_at [styled3 2 "aaa"] (FocusedLine [] (styled3 3 "bbb")) [] 1) [] rs /\
  ev (fun n => @SpecPane.drawn_in fpd f_env nat pair_contents unit (Size 5 2) (rect_from_size (Size 5 2)) n (PDoc 0) []) (List.concat rs, Ok tt).
Proof.
  refine (@C62_open_document fpd f_env nat pair_contents unit (Size 5 2) (conj eq_refl eq_refl) f_ideq (f_open cl pair_doc) pair_doc 0
    at_second [] (rect_from_size (Size 5 2)) 1%N [0; 1] [styled3 2 "aaa"] [] (styled3 3 "bbb") []
    [Ev (@EEnter fpd 0 0); Ev (@EEnter fpd 1 0); f_text2 2 "aaa"; Ev (@EExit fpd 1 0); Ev (@ENewline fpd []); Ev (@EEnter fpd 1 1)]
    [f_text2 3 "bbb"]
    [Ev (@EExit fpd 1 1); Ev (@EExit fpd 0 0); Ev (@ENewline fpd []); Gap (@GapChild fpd 0 1)]
    eq_refl (whole_in _) eq_refl eq_refl eq_refl eq_refl eq_refl _ _ _ _ _ _ _).
  - apply f_orep. reflexivity.
  - apply o_valid_ok. reflexivity.
  - apply oids_unique. vm_compute. repeat (constructor; [simpl; intuition discriminate|]). constructor.
  - apply (@leads_down fpd (oid_at (f_open cl pair_doc)) [] _ 0 0 []
      [Ev (@EEnter fpd 1 0); f_text2 2 "aaa"; Ev (@EExit fpd 1 0); Ev (@ENewline fpd []); Ev (@EEnter fpd 1 1); f_text2 3 "bbb"; Ev (@EExit fpd 1 1)]
      [Ev (@ENewline fpd []); Gap (@GapChild fpd 0 1)] [1]
      [Ev (@EEnter fpd 1 0); f_text2 2 "aaa"; Ev (@EExit fpd 1 0); Ev (@ENewline fpd []); Ev (@EEnter fpd 1 1)]
      [f_text2 3 "bbb"] [Ev (@EExit fpd 1 1)]); try reflexivity; try no_in.
    apply (@leads_down fpd (oid_at (f_open cl pair_doc)) [0] _ 1 1
      [Ev (@EEnter fpd 1 0); f_text2 2 "aaa"; Ev (@EExit fpd 1 0); Ev (@ENewline fpd [])]
      [f_text2 3 "bbb"] [] [] [] [f_text2 3 "bbb"] []); try reflexivity; try no_in.
    constructor.
  - left. exists [@EEnter fpd 0 0; @EEnter fpd 1 0; @EText fpd 2 (@Textual fpd (codes "aaa") 3 [100; 101; 102] true); @EExit fpd 1 0;
      @ENewline fpd []; @EEnter fpd 1 1], [styled3 2 "aaa"]. repeat split.
  - right. exists [@EText fpd 3 (@Textual fpd (codes "bbb") 3 [100; 101; 103] true); @EExit fpd 1 1; @EExit fpd 0 0], [], [Gap (@GapChild fpd 0 1)].
    repeat split.
  - discriminate.
Qed.
