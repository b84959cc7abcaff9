(** JSON texts as in RFC 8259, and what a terminal shows (C56). *)
From Verif Require Export JsonProgram SpecJson.
From Coq Require Import String.

Set Implicit Arguments.

(** ** JSON texts *)

(** RFC 8259, section 2: ws. *)
Definition white_space (s : str) : Prop := Forall (fun c => c = 32 \/ c = 9 \/ c = 10 \/ c = 13)%N s.

(** Section 6: numbers. *)
Definition digit (c : char) : Prop := (48 <= c <= 57)%N.
Definition digits (s : str) : Prop := s <> [] /\ Forall digit s.
Definition is_int (s : str) : Prop := s = [48%N] \/ exists c s', s = c :: s' /\ (49 <= c <= 57)%N /\ Forall digit s'.
Definition is_frac (s : str) : Prop := exists ds, s = 46%N :: ds /\ digits ds.
Definition is_exp (s : str) : Prop := exists e sign ds,
  s = e :: sign ++ ds /\ (e = 101 \/ e = 69)%N /\ (sign = [] \/ sign = [43%N] \/ sign = [45%N]) /\ digits ds.
Definition is_number (s : str) : Prop := exists minus int frac exp,
  s = minus ++ int ++ frac ++ exp /\ (minus = [] \/ minus = [45%N]) /\ is_int int /\
  (frac = [] \/ is_frac frac) /\ (exp = [] \/ is_exp exp).

(** Section 7: strings.  [string_body src s]: between quotes, [src] denotes [s]. *)
Definition escape (e : char) : option char :=
  match e with
  | 34 => Some 34 | 92 => Some 92 | 47 => Some 47 | 98 => Some 8 | 102 => Some 12 | 110 => Some 10 | 114 => Some 13 | 116 => Some 9
  | _ => None
  end%N.
Definition hex (c : char) : option N := (
  if (48 <=? c) && (c <=? 57) then Some (c - 48)
  else if (65 <=? c) && (c <=? 70) then Some (c - 55)
  else if (97 <=? c) && (c <=? 102) then Some (c - 87)
  else None)%N.
Definition hex4 (a b c d : char) : option N :=
  match hex a, hex b, hex c, hex d with
  | Some a, Some b, Some c, Some d => Some (((a * 16 + b) * 16 + c) * 16 + d)%N
  | _, _, _, _ => None
  end.
(** A character that stands for itself. *)
Definition unescaped (c : char) : Prop := (32 <= c)%N /\ c <> 34%N /\ c <> 92%N.
Inductive string_body : str -> str -> Prop :=
| sb_end : string_body [] []
| sb_char c src s : unescaped c -> string_body src s -> string_body (c :: src) (c :: s)
| sb_escape e c src s : escape e = Some c -> string_body src s -> string_body (92%N :: e :: src) (c :: s)
| sb_unicode a b c d n src s : hex4 a b c d = Some n -> (n < 55296 \/ 57343 < n)%N -> string_body src s ->
    string_body (92%N :: 117%N :: a :: b :: c :: d :: src) (n :: s)
| sb_pair a b c d a' b' c' d' hi lo src s :
    hex4 a b c d = Some hi -> (55296 <= hi <= 56319)%N -> hex4 a' b' c' d' = Some lo -> (56320 <= lo <= 57343)%N ->
    string_body src s ->
    string_body (92%N :: 117%N :: a :: b :: c :: d :: 92%N :: 117%N :: a' :: b' :: c' :: d' :: src)
                ((65536 + (hi - 55296) * 1024 + (lo - 56320))%N :: s).

(** Sections 3-5: values.  [reads v s]: the text [s] is the value [v]. *)
Inductive reads : value -> str -> Prop :=
| rd_null : reads VNull (chars "null")
| rd_true : reads (VBool true) (chars "true")
| rd_false : reads (VBool false) (chars "false")
| rd_number s : is_number s -> reads (VNumber s) s
| rd_string src s : string_body src s -> reads (VString s) (34%N :: src ++ [34%N])
| rd_no_elements a : white_space a -> reads (VArray []) (91%N :: a ++ [93%N])
| rd_array l s : reads_elements l s -> reads (VArray l) (91%N :: s ++ [93%N])
| rd_no_members a : white_space a -> reads (VObject []) (123%N :: a ++ [125%N])
| rd_object l s : reads_members l s -> reads (VObject l) (123%N :: s ++ [125%N])
with reads_elements : list value -> str -> Prop :=
| re_one v a s b : white_space a -> reads v s -> white_space b -> reads_elements [v] (a ++ s ++ b)
| re_more v a s b l rest : white_space a -> reads v s -> white_space b -> reads_elements l rest ->
    reads_elements (v :: l) (a ++ s ++ b ++ 44%N :: rest)
with reads_members : list (str * value) -> str -> Prop :=
| rm_one key v a k b c s d : white_space a -> string_body k key -> white_space b -> white_space c -> reads v s -> white_space d ->
    reads_members [(key, v)] (a ++ 34%N :: k ++ 34%N :: b ++ 58%N :: c ++ s ++ d)
| rm_more key v a k b c s d l rest : white_space a -> string_body k key -> white_space b -> white_space c -> reads v s -> white_space d ->
    reads_members l rest ->
    reads_members ((key, v) :: l) (a ++ 34%N :: k ++ 34%N :: b ++ 58%N :: c ++ s ++ d ++ 44%N :: rest).

(** A JSON text: a value, with white space around it. *)
Definition json_text (v : value) (text : str) : Prop :=
  exists a s b, text = a ++ s ++ b /\ white_space a /\ reads v s /\ white_space b.

(** Values whose strings need no escapes, and whose numbers are numbers. *)
Fixpoint unescaped_value (v : value) : Prop :=
  match v with
  | VNull | VBool _ => True
  | VNumber s => is_number s
  | VString s => Forall unescaped s
  | VArray l => (fix go (l : list value) := match l with [] => True | x :: l' => unescaped_value x /\ go l' end) l
  | VObject l => (fix go (l : list (str * value)) :=
      match l with [] => True | (k, x) :: l' => Forall unescaped k /\ unescaped_value x /\ go l' end) l
  end.

(** The JSON document that a value becomes. *)
Fixpoint value_json (v : value) : json :=
  match v with
  | VNull => JNull
  | VBool b => JBool b
  | VNumber s => JNumber s
  | VString s => JString s
  | VArray l => JArray (map value_json l)
  | VObject l => JObject (map (fun '(k, x) => JPair k (value_json x)) l)
  end.

(** Values in which no string (or number) has a character outside of [P]. *)
Fixpoint all_chars (P : char -> Prop) (v : value) : Prop :=
  match v with
  | VNull | VBool _ => True
  | VNumber s => Forall P s
  | VString s => Forall P s
  | VArray l => (fix go (l : list value) := match l with [] => True | x :: l' => all_chars P x /\ go l' end) l
  | VObject l => (fix go (l : list (str * value)) :=
      match l with [] => True | (k, x) :: l' => Forall P k /\ all_chars P x /\ go l' end) l
  end.

(** How many nodes the document of a value has: a member of an object is a node,
    and so is its key. *)
Fixpoint nodes (v : value) : N :=
  match v with
  | VArray l => 1 + (fix go (l : list value) := match l with [] => 0 | x :: l' => nodes x + go l' end) l
  | VObject l => 1 + (fix go (l : list (str * value)) := match l with [] => 0 | (_, x) :: l' => nodes x + 2 + go l' end) l
  | _ => 1
  end%N.

(** ** Terminals *)

(** What is shown: characters, in some color (or in the terminal's own color),
    and ends of lines. *)
Inductive shown : Type :=
| Glyph (c : char) (col : option color)
| LineEnd.

(** ECMA-48: ESC [ begins a control sequence, which ends at the first character
    between @ and ~. *)
Inductive mode : Type := Normal | Escaped | Sequence (parameters : str).
(** Select graphic rendition, for the parameters that set the foreground color. *)
Definition palette : list (string * option color) :=
  [("38;5;0", Some Black); ("38;5;1", Some Red); ("38;5;2", Some Green); ("38;5;3", Some Yellow);
   ("38;5;4", Some Blue); ("38;5;5", Some Magenta); ("38;5;6", Some Cyan); ("38;5;7", Some White); ("39", None)]%string.
Definition select (parameters : str) (col : option color) : option color :=
  match find (fun x => str_eqb parameters (chars (fst x))) palette with Some x => snd x | None => col end.

(** The output of a terminal in mode [m] with the color [col], and in which
    state it is then. *)
Fixpoint terminal (m : mode) (col : option color) (s : str) : list shown * (mode * option color) :=
  match s with
  | [] => ([], (m, col))
  | c :: s' =>
      match m with
      | Normal =>
          if (c =? 27)%N then terminal Escaped col s'
          else let '(o, st) := terminal Normal col s' in ((if (c =? 10)%N then LineEnd else Glyph c col) :: o, st)
      | Escaped => if (c =? 91)%N then terminal (Sequence []) col s' else terminal Normal col s'
      | Sequence p =>
          if ((64 <=? c) && (c <=? 126))%N
          then terminal Normal (if (c =? 109)%N then select p col else col) s'
          else terminal (Sequence (p ++ [c])) col s'
      end
  end.

(** The text that is shown. *)
Definition shown_text (o : list shown) : str := map (fun x => match x with Glyph c _ => c | LineEnd => 10%N end) o.

(** A terminal that shows these lines, in these colors. *)
Definition shows (ls : list (list (color * str))) : list shown :=
  List.concat (map (fun l =>
    List.concat (map (fun x => map (fun c => if (c =? 10)%N then LineEnd else Glyph c (Some (fst x))) (snd x)) l) ++ [LineEnd]) ls).
