(** Model of src/valid_notation.rs. *)
From Verif Require Export Notation.

Set Implicit Arguments.

(** valid_notation.rs:11-54 [NotationError]. *)
Inductive notation_error : Type :=
| LeftOutsideJoin
| RightOutsideJoin
| CheckPosLeftOutsideJoin
| CheckPosRightOutsideJoin
| NestedFold
| NestedCount
| CountZeroChild
| CountOneChildIndex (i : Z)
| CountZeroCheckPosChild
| CountOneCheckPosChildIndex (i : Z)
| TextInsideCount
| TextInsideFold
| TextAfterEol
| MultipleFocusMarks.

(** valid_notation.rs:63-74. *)
Inductive count_context : Type := CZero | COne | CMany.
Inductive fold_context : Type := InFoldFirst | InFoldJoin.

(** valid_notation.rs:58-61 [Context]. *)
Record context : Type := Context { ctx_count : option count_context; ctx_fold : option fold_context }.

(** valid_notation.rs:76-118. *)
Definition ctx_new : context := Context None None.
Definition count_zero (c : context) : context := Context (Some CZero) (ctx_fold c).
Definition count_one (c : context) : context := Context (Some COne) (ctx_fold c).
Definition count_many (c : context) : context := Context (Some CMany) (ctx_fold c).
Definition fold_first (c : context) : context := Context (ctx_count c) (Some InFoldFirst).
Definition fold_join (c : context) : context := Context (ctx_count c) (Some InFoldJoin).

(** valid_notation.rs:122-137 [History]. *)
Record history : Type := History { h_eol : bool; h_mark : bool }.

(** valid_notation.rs:139-168; [Default] is all false. *)
Definition h_default : history := History false false.
Definition h_uncertain : history := History false false.
Definition h_choice (a b : history) : history :=
  History (h_eol a || h_eol b) (h_mark a && h_mark b).
Definition with_mark (h : history) : history := History (h_eol h) true.
Definition with_eol (h : history) : history := History true (h_mark h).
Definition without_eol (h : history) : history := History false (h_mark h).

Definition vres := res notation_error.

Definition is_some {A} (o : option A) : bool := match o with Some _ => true | None => false end.

Definition count_is (c : context) (k : count_context) : bool :=
  match ctx_count c, k with
  | Some CZero, CZero | Some COne, COne | Some CMany, CMany => true
  | _, _ => false
  end.

Definition in_join (c : context) : bool :=
  match ctx_fold c with Some InFoldJoin => true | _ => false end.

(** valid_notation.rs:210-229, the match on [pos]. *)
Definition validate_pos (ctx : context) (pos : checkpos) : vres unit :=
  match pos with
  | Here => Ok tt
  | CPChild i =>
      if count_is ctx CZero then Err CountZeroCheckPosChild
      else if count_is ctx COne && negb (is_some (normalize_child_index i 1))
      then Err (CountOneCheckPosChildIndex i)
      else Ok tt
  | LeftChild => if in_join ctx then Ok tt else Err CheckPosLeftOutsideJoin
  | RightChild => if in_join ctx then Ok tt else Err CheckPosRightOutsideJoin
  end.

(** valid_notation.rs:185-264 [validate_rec].  Match arms are tried in order. *)
Fixpoint validate_rec {L C : Type} (n : notation L C) (h : history) (ctx : context) {struct n}
  : vres history :=
  match n with
  | Text =>
      if is_some (ctx_count ctx) then Err TextInsideCount
      else if is_some (ctx_fold ctx) then Err TextInsideFold
      else if h_eol h then Err TextAfterEol
      else Ok (without_eol h)
  | Empty => Ok h
  | Literal _ => if h_eol h then Err TextAfterEol else Ok (without_eol h)
  | Newline => Ok (without_eol h)
  | EndOfLine => Ok (with_eol h)
  | Flat note => validate_rec note h ctx
  | Indent _ _ note => validate_rec note h ctx
  | Concat n1 n2 =>
      h' <- validate_rec n1 h ctx ;;
      validate_rec n2 h' ctx
  | Choice n1 n2 =>
      h1 <- validate_rec n1 h ctx ;;
      h2 <- validate_rec n2 h ctx ;;
      Ok (h_choice h1 h2)
  | Check _ pos n1 n2 =>
      _ <- validate_pos ctx pos ;;
      h1 <- validate_rec n1 h ctx ;;
      h2 <- validate_rec n2 h ctx ;;
      Ok (h_choice h1 h2)
  | Child i =>
      if count_is ctx CZero then Err CountZeroChild
      else if count_is ctx COne && negb (is_some (normalize_child_index i 1))
      then Err (CountOneChildIndex i)
      else Ok (without_eol h)
  | Style _ note => validate_rec note h ctx
  | FocusMark => if h_mark h then Err MultipleFocusMarks else Ok (with_mark h)
  | Count zero one many =>
      if is_some (ctx_count ctx) then Err NestedCount
      else
        h1 <- validate_rec zero h (count_zero ctx) ;;
        h2 <- validate_rec one h (count_one ctx) ;;
        h3 <- validate_rec many h (count_many ctx) ;;
        Ok (h_choice (h_choice h1 h2) h3)
  | Fold first join =>
      if is_some (ctx_fold ctx) then Err NestedFold
      else
        _ <- validate_rec first h_uncertain (fold_first ctx) ;;
        _ <- validate_rec join h_uncertain (fold_join ctx) ;;
        Ok h_uncertain
  | Left => if in_join ctx then Ok h_uncertain else Err LeftOutsideJoin
  | Right => if in_join ctx then Ok h_uncertain else Err RightOutsideJoin
  end.

(** valid_notation.rs:172-175 [validate]: the notation itself is unchanged, so
    only success or the error is returned. *)
Definition validate {L C : Type} (n : notation L C) : vres unit :=
  _ <- validate_rec n h_default ctx_new ;; Ok tt.
