(** What a JSON document looks like (C40), without notations: the documents, the
    ways in which one may be written, and which of them is chosen at a given
    width. *)
From Verif Require Export Json SpecTree.
From Coq Require Import String.

Set Implicit Arguments.

(** ** Documents *)

(** What the json_* functions are called with. *)
Inductive json : Type :=
| JNull
| JBool (b : bool)
| JString (s : str)
| JNumber (s : str)          (* the digits *)
| JArray (elements : list json)
| JObject (entries : list json)
| JPair (key : str) (value : json)
| JComment (text : str)
| JRoots (values : list json).

(** Where values and comments may be: an array contains values and comments, an
    object contains pairs (of a string and a value) and comments, and a document
    is a value, a comment, or a sequence of them. *)
Inductive is_value : json -> Prop :=
| v_null : is_value JNull
| v_bool b : is_value (JBool b)
| v_string s : is_value (JString s)
| v_number s : is_value (JNumber s)
| v_array l : (forall x, In x l -> is_entry x) -> is_value (JArray l)
| v_object l : (forall x, In x l -> is_member x) -> is_value (JObject l)
with is_entry : json -> Prop :=
| e_value x : is_value x -> is_entry x
| e_comment s : is_entry (JComment s)
with is_member : json -> Prop :=
| m_pair k x : is_value x -> is_member (JPair k x)
| m_comment s : is_member (JComment s).
Inductive is_document : json -> Prop :=
| d_entry x : is_entry x -> is_document x
| d_roots l : (forall x, In x l -> is_entry x) -> is_document (JRoots l).

Section Made.
Variables (checks : bool) (is_white : char -> bool).

(** [made j t]: the tree [t] was made by calls of the json_* functions as [j]
    says (in any order, and at any values of the id counter). *)
Inductive made : json -> json_tree -> Prop :=
| made_null c t c' : json_null checks c = Ok (t, c') -> made JNull t
| made_bool b c t c' : json_bool checks b c = Ok (t, c') -> made (JBool b) t
| made_string s c t c' : json_string checks s c = Ok (t, c') -> made (JString s) t
| made_number s c t c' : json_number checks s c = Ok (t, c') -> made (JNumber s) t
| made_array l ks c t c' : Forall2 made l ks -> json_array checks ks c = Ok (t, c') -> made (JArray l) t
| made_object l ks c t c' : Forall2 made l ks -> json_object checks ks c = Ok (t, c') -> made (JObject l) t
| made_pair key x k c t c' : made x k -> json_object_pair checks key k c = Ok (t, c') -> made (JPair key x) t
| made_comment s c t c' : json_comment checks is_white s c = Ok (t, c') -> made (JComment s) t
| made_roots l ks c t c' : Forall2 made l ks -> json_roots checks ks c = Ok (t, c') -> made (JRoots l) t.
End Made.

(** ** Output *)

(** A piece of the output: a text in some color, or the start of a new line,
    which begins with a prefix. *)
Inductive jpiece : Type :=
| Put (c : color) (s : str)
| Break (prefix : list (color * str)).

(** The lines of the output. *)
Fixpoint jlines_from (cur : list (color * str)) (o : list jpiece) : list (list (color * str)) :=
  match o with
  | [] => [cur]
  | Put c s :: o' => jlines_from (cur ++ [(c, s)]) o'
  | Break p :: o' => cur :: jlines_from p o'
  end.
Definition jlines (o : list jpiece) : list (list (color * str)) := jlines_from [] o.

(** The text of the output. *)
Fixpoint jtext (o : list jpiece) : str :=
  match o with
  | [] => []
  | Put _ s :: o' => s ++ jtext o'
  | Break p :: o' => 10%N :: List.concat (map snd p) ++ jtext o'
  end.

Definition is_jcomment (j : json) : bool := match j with JComment _ => true | _ => false end.
Fixpoint has_comment (j : json) : bool :=
  match j with
  | JComment _ => true
  | JArray l | JObject l | JRoots l => existsb has_comment l
  | JPair _ x => has_comment x
  | _ => false
  end.
(** Is there a comma after [x], if [rest] follows? *)
Definition needs_comma (x : json) (rest : list json) : bool :=
  negb (is_jcomment x) && existsb (fun y => negb (is_jcomment y)) rest.

Definition punct (s : string) : jpiece := Put White (chars s).
Definition quoted (s : str) : list jpiece := [Put Magenta [34%N]; Put Magenta s; Put Magenta [34%N]].

Fixpoint commas (l : list (list jpiece)) : list jpiece :=
  match l with
  | [] => []
  | [x] => x
  | x :: l' => x ++ punct ", " :: commas l'
  end.

(** A value or a pair without comments, on one line.  (Simplification: [null],
    [true] and [false] are white: see C41_constant_style_refuted.) *)
Fixpoint on_one_line (j : json) : list jpiece :=
  match j with
  | JNull => [punct "null"]
  | JBool true => [punct "true"]
  | JBool false => [punct "false"]
  | JString s => quoted s
  | JNumber s => [Put Blue s]
  | JArray l => punct "[" :: commas (map on_one_line l) ++ [punct "]"]
  | JObject l => punct "{" :: commas (map on_one_line l) ++ [punct "}"]
  | JPair k x => quoted k ++ punct ": " :: on_one_line x
  | JComment _ | JRoots _ => []
  end.

Definition tab : color * str := (White, repeat 32%N 4).
Definition slashes : color * str := (Yellow, chars "// ").

(** Every way in which a document may be written, if every line begins with
    [p].  The words of a comment are white: see C41_comment_words_refuted. *)
Section Written.
Variable is_white : char -> bool.

Inductive filled (p : list (color * str)) : list str -> list jpiece -> Prop :=
| f_none : filled p [] []
| f_one s : filled p [s] [Put White s]
| f_space s l o : l <> [] -> filled p l o -> filled p (s :: l) (Put White s :: Put Yellow [32%N] :: o)
| f_break s l o : l <> [] -> filled p l o -> filled p (s :: l) (Put White s :: Break p :: o).

Inductive written (p : list (color * str)) : json -> list jpiece -> Prop :=
| w_line x : has_comment x = false -> is_value x -> written p x (on_one_line x)
| w_array l o : l <> [] -> rows (p ++ [tab]) l o ->
    written p (JArray l) ([punct "["; Break (p ++ [tab])] ++ o ++ [Break p; punct "]"])
| w_object l o : l <> [] -> rows (p ++ [tab]) l o ->
    written p (JObject l) ([punct "{"; Break (p ++ [tab])] ++ o ++ [Break p; punct "}"])
| w_pair k x o : written p x o -> written p (JPair k x) (quoted k ++ punct ": " :: o)
| w_comment s o : filled (p ++ [slashes]) (split_whitespace is_white s) o ->
    written p (JComment s) (Put Yellow (chars "// ") :: o)
| w_no_roots : written p (JRoots []) []
| w_roots l o : roots_rows p l o -> written p (JRoots l) o
(** Each element on its own lines, with commas after the values (but the last). *)
with rows (p : list (color * str)) : list json -> list jpiece -> Prop :=
| r_last x o : written p x o -> rows p [x] o
| r_more x l o1 o2 : l <> [] -> written p x o1 -> rows p l o2 ->
    rows p (x :: l) (o1 ++ (if needs_comma x l then [punct ","] else []) ++ Break p :: o2)
(** ... and without commas. *)
with roots_rows (p : list (color * str)) : list json -> list jpiece -> Prop :=
| rr_last x o : written p x o -> roots_rows p [x] o
| rr_more x l o1 o2 : l <> [] -> written p x o1 -> roots_rows p l o2 ->
    roots_rows p (x :: l) (o1 ++ Break p :: o2).
End Written.

(** ** The choice *)
Section Pretty.
Variable is_white : char -> bool.
(** The widths of strings, how columns are added up, and the printing width. *)
Variables (width : str -> N) (add : N -> N -> N) (w : N).

Fixpoint out_width (o : list jpiece) : N :=
  match o with [] => 0 | Put _ s :: o' => width s + out_width o' | Break _ :: o' => out_width o' end%N.
Definition prefix_width (p : list (color * str)) : N := fold_left add (map (fun x => width (snd x)) p) 0%N.

(** The words of a comment: a word is put on the current line if it fits.
    [st]: the output so far and the column. *)
Definition put_word (p : list (color * str)) (st : list jpiece * N) (s : str) : list jpiece * N :=
  let '(o, col) := st in
  if (col + width [32%N] + width s <=? w)%N
  then (o ++ [Put Yellow [32%N]; Put White s], add (add col (width [32%N])) (width s))
  else (o ++ [Break p; Put White s], add (prefix_width p) (width s)).
Definition put_words (p : list (color * str)) (col : N) (l : list str) : list jpiece :=
  match l with
  | [] => []
  | s :: l' => fst (fold_left (put_word p) l' ([Put White s], add col (width s)))
  end.

(** The output for [j], at column [col] of a line, if new lines begin with [p],
    and text of width [tail] follows.  An array or object is written on one line
    if it has no comments and fits, together with what follows. *)
Section Rows.
Variables (p : list (color * str)) (put : N -> json -> list jpiece).
Fixpoint in_rows (l : list json) : list jpiece :=
  match l with
  | [] => []
  | [x] => put 0%N x
  | x :: l' =>
      (if needs_comma x l' then put (width (chars ",")) x ++ [punct ","] else put 0%N x) ++
      Break p :: in_rows l'
  end.
Fixpoint in_root_rows (l : list json) : list jpiece :=
  match l with
  | [] => []
  | [x] => put 0%N x
  | x :: l' => put 0%N x ++ Break p :: in_root_rows l'
  end.
End Rows.

Fixpoint pretty (p : list (color * str)) (col tail : N) (j : json) {struct j} : list jpiece :=
  let fits := negb (has_comment j) && (col + out_width (on_one_line j) + tail <=? w)%N in
  let p' := p ++ [tab] in
  match j with
  | JArray [] | JObject [] => on_one_line j
  | JArray l =>
      if fits then on_one_line j
      else [punct "["; Break p'] ++ in_rows p' (fun tail x => pretty p' (prefix_width p') tail x) l ++ [Break p; punct "]"]
  | JObject l =>
      if fits then on_one_line j
      else [punct "{"; Break p'] ++ in_rows p' (fun tail x => pretty p' (prefix_width p') tail x) l ++ [Break p; punct "}"]
  | JPair k x => quoted k ++ punct ": " ::
      pretty p (add (add (add (add col (width [34%N])) (width k)) (width [34%N])) (width (chars ": "))) tail x
  | JComment s =>
      Put Yellow (chars "// ") :: put_words (p ++ [slashes]) (add col (width (chars "// "))) (split_whitespace is_white s)
  | JRoots l => in_root_rows p (fun tail x => pretty p (prefix_width p) tail x) l
  | _ => on_one_line j
  end.

(** A whole document. *)
Definition pretty_json (j : json) : list jpiece := pretty [] 0 0 j.
End Pretty.

(** ** Tokens *)

(** The tokens of a value or a pair without comments. *)
Fixpoint separate (sep : str) (l : list (list str)) : list str :=
  match l with
  | [] => []
  | [x] => x
  | x :: l' => x ++ sep :: separate sep l'
  end.
Definition string_token (s : str) : str := 34%N :: s ++ [34%N].
Fixpoint tokens (j : json) : list str :=
  match j with
  | JNull => [chars "null"]
  | JBool true => [chars "true"]
  | JBool false => [chars "false"]
  | JString s => [string_token s]
  | JNumber s => [s]
  | JArray l => chars "[" :: separate (chars ",") (map tokens l) ++ [chars "]"]
  | JObject l => chars "{" :: separate (chars ",") (map tokens l) ++ [chars "}"]
  | JPair k x => string_token k :: chars ":" :: tokens x
  | JComment _ => []
  | JRoots l => List.concat (map tokens l)
  end.

(** [spaced toks s]: [s] consists of the tokens, in this order, with only spaces
    and line breaks before, between and after them. *)
Inductive spaced : list str -> str -> Prop :=
| sp_end : spaced [] []
| sp_space toks s : spaced toks s -> spaced toks (32%N :: s)
| sp_break toks s : spaced toks s -> spaced toks (10%N :: s)
| sp_token t toks s : spaced toks s -> spaced (t :: toks) (t ++ s).

(** The lines of the output, in the style [st] of the whole document (which only
    matters if it is bold). *)
Section Painted.
Context {env : Env}.
Definition bold_of (st : option basic_style) : bool := match st with Some s => bs_bold s | None => false end.
Definition painted (st : option basic_style) (o : list jpiece) : list (list (@segment (@tree_doc basic_tree_style))) :=
  map (map (fun x : color * str => @Segment (@tree_doc basic_tree_style) (snd x) (str_width (snd x)) (BasicStyle (fst x) (bold_of st)))) (jlines o).
End Painted.
