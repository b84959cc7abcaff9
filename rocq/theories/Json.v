(** Model of src/doc_examples/json.rs.  (The functions of
    src/notation_constructors.rs are the constructors of [notation].) *)
From Verif Require Export TreeDoc.
From Coq Require Import String.

Set Implicit Arguments.

Definition jlit (s : string) : tree_notation := Literal (chars s).

(** json.rs:17-20. *)
Definition CONSTANT_STYLE : str := chars "green_bold".
Definition STRING_STYLE : str := chars "magenta".
Definition NUMBER_STYLE : str := chars "blue".
Definition COMMENT_STYLE : str := chars "yellow".

(** json.rs:22-29. *)
Definition JSON_NULL : tree_notation := Style CONSTANT_STYLE (jlit "null").
Definition JSON_TRUE : tree_notation := Style CONSTANT_STYLE (jlit "true").
Definition JSON_FALSE : tree_notation := Style CONSTANT_STYLE (jlit "false").

(** json.rs:31-35.  The literal is a double quote. *)
Definition quote : tree_notation := Literal [34%N].
Definition JSON_STRING : tree_notation := Style STRING_STYLE (n_add (n_add quote Text) quote).

(** json.rs:37-38. *)
Definition JSON_NUMBER : tree_notation := Style NUMBER_STYLE Text.

(** json.rs:41-44 and 75-78 [single_seq]. *)
Definition single_seq : tree_notation :=
  Fold (Flat (Child 0)) (n_add (n_add Left (jlit ", ")) (Flat Right)).

(** json.rs:47-52 and 81-86 [separator]. *)
Definition separator : tree_notation := Check NeedsSeparator LeftChild (jlit ",") Empty.

(** json.rs:40-69 [JSON_ARRAY_NOTATION]. *)
Definition array_open : tree_notation := Style (chars "open") (jlit "[").
Definition array_close : tree_notation := Style (chars "close") (jlit "]").
Definition array_single : tree_notation := n_add (n_add array_open single_seq) array_close.
Definition array_multi : tree_notation :=
  n_xor (n_add array_open (n_shr 4 (Fold (Child 0) (n_xor (n_add Left separator) Right)))) array_close.
Definition array_note : tree_notation := n_or array_single array_multi.
Definition JSON_ARRAY : tree_notation :=
  Count (n_add (n_add array_open FocusMark) array_close) array_note array_note.

(** json.rs:71-72. *)
Definition JSON_OBJECT_PAIR : tree_notation := n_add (n_add (Child 0) (jlit ": ")) (Child 1).

(** json.rs:74-102 [JSON_OBJECT_NOTATION]. *)
Definition object_open : tree_notation := Style (chars "open") (jlit "{").
Definition object_close : tree_notation := Style (chars "close") (jlit "}").
Definition object_single : tree_notation := n_add (n_add object_open single_seq) object_close.
Definition object_multi : tree_notation :=
  n_xor (n_add object_open (n_shr 4 (Fold (Child 0) (n_xor (n_add Left separator) Right)))) object_close.
Definition object_note : tree_notation := n_or object_single object_multi.
Definition JSON_OBJECT : tree_notation :=
  Count (n_add (n_add object_open FocusMark) object_close) object_note object_note.

(** json.rs:104-118 [JSON_COMMENT_NOTATION]. *)
Definition comment_body : tree_notation :=
  Count FocusMark (Child 0) (Fold (Child 0) (n_add (n_add Left (n_or (jlit " ") Newline)) Right)).
Definition JSON_COMMENT : tree_notation :=
  Style COMMENT_STYLE (n_add (n_add (jlit "// ") (Indent (chars "// ") None comment_body)) EndOfLine).

(** json.rs:120. *)
Definition JSON_COMMENT_WORD : tree_notation := Text.

(** json.rs:122-132 [JSON_ROOTS_NOTATION]. *)
Definition JSON_ROOTS : tree_notation :=
  Count FocusMark (Child 0) (Fold (Child 0) (n_xor Left Right)).

(** json.rs:135 [Json]. *)
Definition json_tree : Type := tree (ts := basic_tree_style).

Section Make.
Variable checks : bool.   (* compiled with overflow checks? *)
Notation tres := (res Empty_set).
Notation new_text := (tree_new_text (ts := basic_tree_style) checks).
Notation new_branch := (tree_new_branch (ts := basic_tree_style) checks).

(** json.rs:139-141, 144-146, 149-155, 158-160. *)
Definition json_roots (values : list json_tree) (c : N) : tres (json_tree * N) := new_branch JSON_ROOTS values c.
Definition json_null (c : N) : tres (json_tree * N) := new_branch JSON_NULL [] c.
Definition json_bool (b : bool) (c : N) : tres (json_tree * N) :=
  if b then new_branch JSON_TRUE [] c else new_branch JSON_FALSE [] c.
Definition json_string (s : str) (c : N) : tres (json_tree * N) := new_text JSON_STRING s c.

(** json.rs:163-165.  Simplification: the argument is the string [f.to_string()]. *)
Definition json_number (f : str) (c : N) : tres (json_tree * N) := new_text JSON_NUMBER f c.

(** json.rs:168-170. *)
Definition json_array (elements : list json_tree) (c : N) : tres (json_tree * N) := new_branch JSON_ARRAY elements c.

(** json.rs:173-175. *)
Definition json_object_pair (key : str) (value : json_tree) (c : N) : tres (json_tree * N) :=
  '(k, c) <- json_string key c ;; new_branch JSON_OBJECT_PAIR [k; value] c.

(** json.rs:178-180. *)
Definition json_object (entries : list json_tree) (c : N) : tres (json_tree * N) := new_branch JSON_OBJECT entries c.

(** std: [str::split_whitespace]: the maximal runs of non-white characters.
    [is_white]: the Unicode property White_Space. *)
Fixpoint split_from (is_white : char -> bool) (word : str) (s : str) : list str :=
  match s with
  | [] => match word with [] => [] | _ => [word] end
  | ch :: s' =>
      if is_white ch then
        match word with [] => split_from is_white [] s' | _ => word :: split_from is_white [] s' end
      else split_from is_white (word ++ [ch]) s'
  end.
Definition split_whitespace (is_white : char -> bool) (s : str) : list str := split_from is_white [] s.

(** json.rs:183-192.  The words are created first, in order. *)
Fixpoint json_words (words : list str) (c : N) : tres (list json_tree * N) :=
  match words with
  | [] => Ok ([], c)
  | word :: words' =>
      '(t, c) <- new_text JSON_COMMENT_WORD word c ;;
      '(ts, c) <- json_words words' c ;;
      Ok (t :: ts, c)
  end.
Definition json_comment (is_white : char -> bool) (comment : str) (c : N) : tres (json_tree * N) :=
  '(words, c) <- json_words (split_whitespace is_white comment) c ;;
  '(t, c) <- new_branch JSON_COMMENT words c ;;
  Ok (tree_into_comment t, c).

End Make.
