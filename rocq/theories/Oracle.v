(** Model of src/oracle.rs. *)
From Verif Require Export Printer.

Set Implicit Arguments.

Section Oracle.
Context {pd : PrettyDoc} {env : Env}.

(** oracle.rs:9 [MAX_WIDTH]. *)
Definition MAX_WIDTH : N := 10000.

(** oracle.rs:14-18 [Layout].  Simplification: the non-empty vector [lines] is
    kept as all lines but the last, and the last line. *)
Record olayout : Type := OLayout { ol_done : list str; ol_last : str; ol_eol : bool }.

(** oracle.rs:140-145 [Layout::empty]. *)
Definition ol_empty : olayout := OLayout [] [] false.

(** oracle.rs:147-151 [Layout::append_newline]. *)
Definition append_newline (l : olayout) (indent : str) : olayout :=
  OLayout (ol_done l ++ [ol_last l]) indent false.

(** oracle.rs:153-159 [Layout::append_text]. *)
Definition append_text (l : olayout) (text : str) : pres olayout :=
  if ol_eol l then Panic PExpect
  else Ok (OLayout (ol_done l) (ol_last l ++ text) (ol_eol l)).

(** oracle.rs:161-164 [Layout::last_line_len]. *)
Definition last_line_len (l : olayout) : N := str_width (ol_last l).

(** oracle.rs:167-177 [Display for Layout]: a newline character before every
    line but the first. *)
Definition ol_display (l : olayout) : str :=
  match ol_done l ++ [ol_last l] with
  | [] => []
  | first :: rest => fold_left (fun acc s => (acc ++ [newline_char]) ++ s) rest first
  end.

(** oracle.rs:68-76: the indentation strings, collected from the innermost,
    reversed and joined. *)
Definition indent_string (ind : indentation) : str := concat (rev (map seg_str ind)).

(** [map(|w| w.min(MAX_WIDTH))], oracle.rs:81 and 127. *)
Definition capped (o : option N) : option N := option_map (fun w => N.min w MAX_WIDTH) o.

(** oracle.rs:107-137 [first_line_len].  [n] bounds the recursion depth. *)
Fixpoint first_line_len (n : nat) (c : cnote) (suffix_len : option N) : pres (option N) :=
  match n with
  | O => OutOfFuel
  | S n =>
      match c with
      | CEmpty | CFocusMark => Ok suffix_len
      | CTextual t =>
          match suffix_len with
          | None => Ok None
          | Some w => s <- add16 ovf (tx_width t) w ;; Ok (Some s)
          end
      | CEndOfLine =>
          match suffix_len with
          | None => Ok None
          | Some w => if (w =? 0)%N then Ok (Some 0%N) else Ok None
          end
      | CNewline _ => Ok (Some 0%N)
      | CChild _ x => x <- eval x ;; first_line_len n x suffix_len
      | CConcat x y =>
          y <- eval y ;;
          s <- first_line_len n y suffix_len ;;
          x <- eval x ;;
          first_line_len n x (capped s)
      | CChoice _ y => y <- eval y ;; first_line_len n y suffix_len
      end
  end.

(** oracle.rs:36-105 [pp]. *)
Fixpoint opp (n : nat) (prefix : olayout) (c : cnote) (suffix_len : option N) (width : N) : pres olayout :=
  match n with
  | O => OutOfFuel
  | S n =>
      if (width <? MAX_WIDTH)%N then
        match c with
        | CEmpty | CFocusMark => Ok prefix
        | CTextual t => append_text prefix (tx_str t)
        | CEndOfLine => Ok (OLayout (ol_done prefix) (ol_last prefix) true)
        | CNewline ind => Ok (append_newline prefix (indent_string ind))
        | CChild _ x => x <- eval x ;; opp n prefix x suffix_len width
        | CConcat x y =>
            x <- eval x ;;
            y <- eval y ;;
            s <- first_line_len n y suffix_len ;;
            y_prefix <- opp n prefix x (capped s) width ;;
            opp n y_prefix y suffix_len width
        | CChoice x y =>
            x <- eval x ;;
            let last_len := last_line_len prefix in
            first <- first_line_len n x suffix_len ;;
            fits <- match first with
                    | None => Ok false
                    | Some first_len =>
                        if ol_eol prefix && (0 <? first_len)%N then Ok false
                        else s <- add16 ovf last_len first_len ;; Ok (s <=? width)%N
                    end ;;
            z <- (if fits : bool then Ok x else eval y) ;;
            opp n prefix z suffix_len width
        end
      else Panic PAssert
  end.

(** [unwrap()]/[expect(..)]: an error becomes a panic. *)
Definition unwrapped {A} (r : pres A) : pres A :=
  match r with Err _ => Panic PExpect | r => r end.

(** oracle.rs:24-32 [oracular_pretty_print]. *)
Definition oracular_pretty_print (fuel : nat) (doc : D) (width : N) : pres str :=
  d <- unwrapped (with_optional_style doc None) ;;
  note <- unwrapped (eval d) ;;
  layout <- unwrapped (opp fuel ol_empty note (Some 0%N) width) ;;
  Ok (ol_display layout).

End Oracle.
