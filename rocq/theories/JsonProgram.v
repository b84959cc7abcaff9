(** Model of examples/json.rs, the program that reformats JSON files: from the
    parsed file to the string that is written.  Parsing (serde_json), the command
    line (clap) and the timing are not modelled. *)
From Verif Require Export Json Printer.
From Coq Require Import String.

Set Implicit Arguments.

(** serde_json::Value.  Simplification: a number is the string that its f64 is
    printed as (examples/json.rs:30: [as_f64], then json.rs:164 [to_string]; the
    conversion to f64 is not modelled).  The entries of an object are listed in
    the order in which its map is iterated over. *)
Inductive value : Type :=
| VNull
| VBool (b : bool)
| VNumber (s : str)
| VString (s : str)
| VArray (elems : list value)
| VObject (entries : list (str * value)).

Section ToDoc.
Variable checks : bool.   (* compiled with overflow checks? *)
Notation tres := (res Empty_set).

(** examples/json.rs:24-40 [json_to_doc], with the id counter. *)
Fixpoint json_to_doc (v : value) (c : N) {struct v} : tres (json_tree * N) :=
  match v with
  | VNull => json_null checks c
  | VBool b => json_bool checks b c
  | VNumber n => json_number checks n c
  | VString s => json_string checks s c
  | VArray elems =>
      '(ts, c) <- (fix go (l : list value) (c : N) : tres (list json_tree * N) :=
         match l with
         | [] => Ok ([], c)
         | x :: l' => '(t, c) <- json_to_doc x c ;; '(ts, c) <- go l' c ;; Ok (t :: ts, c)
         end) elems c ;;
      json_array checks ts c
  | VObject entries =>
      '(ts, c) <- (fix go (l : list (str * value)) (c : N) : tres (list json_tree * N) :=
         match l with
         | [] => Ok ([], c)
         | (key, val) :: l' =>
             '(t, c) <- json_to_doc val c ;;
             '(t, c) <- json_object_pair checks key t c ;;
             '(ts, c) <- go l' c ;;
             Ok (t :: ts, c)
         end) entries c ;;
      json_object checks ts c
  end.
End ToDoc.

Section Program.
Context {env : Env}.
Local Notation jpd := (@tree_doc basic_tree_style).

(** examples/json.rs:42-51 [pretty_print_json].  Where the program prints an
    error and exits ([unwrap], 81-89), the model returns that error. *)
Definition pretty_print_json (fuel : nat) (doc : json_tree) (width : N) : @pres jpd (list (@line jpd)) :=
  '(_, focused_line, next_lines) <- @pretty_print jpd env fuel doc width [] FStart None ;;
  lines <- @collect jpd fuel (@down_next jpd env fuel) next_lines ;;
  Ok (@focused_to_line jpd focused_line :: lines).

(** termion::color: [Fg(color)] is displayed as the control sequence
    ESC [ 38 ; 5 ; number m, and [Fg(Reset)] as ESC [ 39 m.  (The crate termion is
    not in the sandbox: this is from its documentation.) *)
Definition csi (s : string) : str := 27%N :: chars ("[" ++ s).
Definition fg (c : color) : str :=
  match c with
  | White => csi "38;5;7m"
  | Black => csi "38;5;0m"
  | Red => csi "38;5;1m"
  | Green => csi "38;5;2m"
  | Yellow => csi "38;5;3m"
  | Blue => csi "38;5;4m"
  | Magenta => csi "38;5;5m"
  | Cyan => csi "38;5;6m"
  end.
Definition fg_reset : str := csi "39m".

(** examples/json.rs:60-72, one segment. *)
Definition segment_to_string (s : @segment jpd) : str := fg (bs_color (seg_style s)) ++ seg_str s.
(** examples/json.rs:53-78 [lines_to_string] (writing to a String never fails). *)
Definition lines_to_string (ls : list (@line jpd)) : str :=
  fold_left (fun string line => fold_left (fun string s => string ++ segment_to_string s) line string ++ [newline_char]) ls [] ++ fg_reset.

(** examples/json.rs:104-120, 126: from the parsed file to the output of
    [println!].  The id counter starts at 0. *)
Definition json_program (fuel : nat) (v : value) (width : N) : @pres jpd str :=
  match json_to_doc ovf v 0 with
  | Ok (doc, _) =>
      lines <- pretty_print_json fuel doc width ;;
      Ok (lines_to_string lines ++ [newline_char])
  | Fail (FPanic p) => Panic p
  | Fail FFuel => OutOfFuel
  | Fail (FErr e) => match e with end
  end.
End Program.
