(** Specification of validate(): which flaws a notation can have, and where. *)
From Verif Require Export Notation Valid.

Set Implicit Arguments.

Section SpecValid.
Context {L C : Type}.

(** What a notation displays, as far as one can tell from the notation alone.
    [DUnknown]: a Fold, or Left or Right, about which nothing is known. *)
Inductive ditem : Type := DText | DEol | DNewline | DMark | DChild | DUnknown.

(** [resolves n l]: there is a way of resolving the Choices, Checks and Counts
    of [n] so that it displays [l]. *)
Fixpoint resolves (n : notation L C) (l : list ditem) : Prop :=
  match n with
  | Empty => l = []
  | Newline => l = [DNewline]
  | EndOfLine => l = [DEol]
  | Literal _ | Text => l = [DText]
  | FocusMark => l = [DMark]
  | Child _ => l = [DChild]
  | Fold _ _ | Left | Right => l = [DUnknown]
  | Flat x | Indent _ _ x | Style _ x => resolves x l
  | Choice a b | Check _ _ a b => resolves a l \/ resolves b l
  | Count a b c => resolves a l \/ resolves b l \/ resolves c l
  | Concat a b => exists l1 l2, resolves a l1 /\ resolves b l2 /\ l = l1 ++ l2
  end.

(** After displaying [l]: is an EndOfLine waiting for its newline?  (Children
    are assumed not to end with EndOfLine.) *)
Definition after_eol (l : list ditem) : bool :=
  fold_left (fun b i => match i with DEol => true | DMark => b | _ => false end) l false.

(** After displaying [l]: has a FocusMark certainly been displayed since the
    last unknown part? *)
Definition marked (l : list ditem) : bool :=
  fold_left (fun b i => match i with DMark => true | DUnknown => false | _ => b end) l false.

(** The possible things displayed after [n], if [B] are the possible things
    displayed before it. *)
Definition then_note (B : list ditem -> Prop) (n : notation L C) : list ditem -> Prop :=
  fun l => exists a b, B a /\ resolves n b /\ l = a ++ b.

(** [occurs c f B n c' f' B' x]: [n] is in the part [c] of a Count and the part
    [f] of a Fold (if any) and is preceded by one of [B]; its subnotation [x] is in [c'], [f'], and is
    preceded by one of [B'] (in the same part of the same Fold). *)
Inductive occurs : option count_context -> option fold_context -> (list ditem -> Prop) -> notation L C ->
    option count_context -> option fold_context -> (list ditem -> Prop) -> notation L C -> Prop :=
| oc_here c f B n : occurs c f B n c f B n
| oc_flat c f B n c' f' B' x : occurs c f B n c' f' B' x -> occurs c f B (Flat n) c' f' B' x
| oc_indent c f B p l n c' f' B' x : occurs c f B n c' f' B' x -> occurs c f B (Indent p l n) c' f' B' x
| oc_style c f B l n c' f' B' x : occurs c f B n c' f' B' x -> occurs c f B (Style l n) c' f' B' x
| oc_concat_l c f B n m c' f' B' x : occurs c f B n c' f' B' x -> occurs c f B (Concat n m) c' f' B' x
| oc_concat_r c f B n m c' f' B' x : occurs c f (then_note B n) m c' f' B' x -> occurs c f B (Concat n m) c' f' B' x
| oc_choice_l c f B n m c' f' B' x : occurs c f B n c' f' B' x -> occurs c f B (Choice n m) c' f' B' x
| oc_choice_r c f B n m c' f' B' x : occurs c f B m c' f' B' x -> occurs c f B (Choice n m) c' f' B' x
| oc_check_l c f B k p n m c' f' B' x : occurs c f B n c' f' B' x -> occurs c f B (Check k p n m) c' f' B' x
| oc_check_r c f B k p n m c' f' B' x : occurs c f B m c' f' B' x -> occurs c f B (Check k p n m) c' f' B' x
| oc_zero c f B z o m c' f' B' x : occurs (Some CZero) f B z c' f' B' x -> occurs c f B (Count z o m) c' f' B' x
| oc_one c f B z o m c' f' B' x : occurs (Some COne) f B o c' f' B' x -> occurs c f B (Count z o m) c' f' B' x
| oc_many c f B z o m c' f' B' x : occurs (Some CMany) f B m c' f' B' x -> occurs c f B (Count z o m) c' f' B' x
| oc_first c f B n m c' f' B' x : occurs c (Some InFoldFirst) (fun l => l = []) n c' f' B' x -> occurs c f B (Fold n m) c' f' B' x
| oc_join c f B n m c' f' B' x : occurs c (Some InFoldJoin) (fun l => l = []) m c' f' B' x -> occurs c f B (Fold n m) c' f' B' x.

(** [part_of n c f B x]: [x] occurs in the whole notation [n]. *)
Definition part_of (n : notation L C) c f B x : Prop := occurs None None (fun l => l = []) n c f B x.

(** The flaws. *)
Inductive flaw : option count_context -> option fold_context -> (list ditem -> Prop) -> notation L C -> notation_error -> Prop :=
| fl_left c f B : f <> Some InFoldJoin -> flaw c f B Left LeftOutsideJoin
| fl_right c f B : f <> Some InFoldJoin -> flaw c f B Right RightOutsideJoin
| fl_check_left c f B k n m : f <> Some InFoldJoin -> flaw c f B (Check k LeftChild n m) CheckPosLeftOutsideJoin
| fl_check_right c f B k n m : f <> Some InFoldJoin -> flaw c f B (Check k RightChild n m) CheckPosRightOutsideJoin
| fl_fold c f B n m : f <> None -> flaw c f B (Fold n m) NestedFold
| fl_count c f B z o m : c <> None -> flaw c f B (Count z o m) NestedCount
| fl_zero_child f B i : flaw (Some CZero) f B (Child i) CountZeroChild
| fl_one_child f B i : i <> 0%Z -> i <> (-1)%Z -> flaw (Some COne) f B (Child i) (CountOneChildIndex i)
| fl_zero_check f B k i n m : flaw (Some CZero) f B (Check k (CPChild i) n m) CountZeroCheckPosChild
| fl_one_check f B k i n m : i <> 0%Z -> i <> (-1)%Z -> flaw (Some COne) f B (Check k (CPChild i) n m) (CountOneCheckPosChildIndex i)
| fl_text_count c f B : c <> None -> flaw c f B Text TextInsideCount
| fl_text_fold c f B : f <> None -> flaw c f B Text TextInsideFold
| fl_text_eol c f (B : list ditem -> Prop) l : B l -> after_eol l = true -> flaw c f B Text TextAfterEol
| fl_literal_eol c f (B : list ditem -> Prop) s l : B l -> after_eol l = true -> flaw c f B (Literal s) TextAfterEol
| fl_marks c f (B : list ditem -> Prop) : (forall l, B l -> marked l = true) -> flaw c f B FocusMark MultipleFocusMarks.

(** The notation contains no Child and no Fold. *)
Fixpoint childless (n : notation L C) : bool :=
  match n with
  | Child _ | Fold _ _ => false
  | Flat a | Indent _ _ a | Style _ a => childless a
  | Concat a b | Choice a b | Check _ _ a b => childless a && childless b
  | Count a b c => childless a && childless b && childless c
  | _ => true
  end.

End SpecValid.
