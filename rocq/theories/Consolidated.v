(** Model of src/consolidated_notation.rs. *)
From Verif Require Export PrettyDoc.

Set Implicit Arguments.

Section Consolidated.
Context {pd : PrettyDoc} {env : Env}.

Definition note : Type := notation Lbl Cnd.
Definition pres (A : Type) : Type := res (perr Er) A.

(** consolidated_notation.rs:39-44 [Segment]. *)
Record segment : Type := Segment { seg_str : str; seg_width : N; seg_style : Sty }.

(** consolidated_notation.rs:48-55 [Textual]. *)
Record textual : Type := Textual {
  tx_str : str; tx_width : N; tx_style : Sty; tx_from_text : bool }.

(** consolidated_notation.rs:66-71 [IndentNode] and [Option<Rc<IndentNode>>]: a
    linked list from the rightmost level to the leftmost.  Simplification: a
    list whose head is the rightmost (innermost) level; sharing is dropped. *)
Definition indentation : Type := list segment.

(** consolidated_notation.rs:92-103 [JoinPos]. *)
Record joinpos : Type := JoinPos {
  jp_parent : D; jp_child : D; jp_index : nat; jp_first : note; jp_join : note }.

(** consolidated_notation.rs:76-88 [DelayedConsolidatedNotation]. *)
Record delayed : Type := Delayed {
  dl_note : note; dl_doc : D; dl_flat : bool; dl_indent : indentation;
  dl_style : Sty; dl_join : option joinpos }.

(** consolidated_notation.rs:19-34 [ConsolidatedNotation]. *)
Inductive cnote : Type :=
| CEmpty
| CEndOfLine
| CNewline (ind : indentation)
| CTextual (t : textual)
| CConcat (a b : delayed)
| CChoice (a b : delayed)
| CChild (i : nat) (d : delayed)
| CFocusMark.

(** Field updates ([self.x = ...]). *)
Definition set_note (d : delayed) (n : note) : delayed :=
  Delayed n (dl_doc d) (dl_flat d) (dl_indent d) (dl_style d) (dl_join d).
Definition set_flat (d : delayed) : delayed :=
  Delayed (dl_note d) (dl_doc d) true (dl_indent d) (dl_style d) (dl_join d).
Definition set_indent (d : delayed) (i : indentation) : delayed :=
  Delayed (dl_note d) (dl_doc d) (dl_flat d) i (dl_style d) (dl_join d).
Definition set_style (d : delayed) (s : Sty) : delayed :=
  Delayed (dl_note d) (dl_doc d) (dl_flat d) (dl_indent d) s (dl_join d).
Definition set_join (d : delayed) (j : option joinpos) : delayed :=
  Delayed (dl_note d) (dl_doc d) (dl_flat d) (dl_indent d) (dl_style d) j.
Definition set_doc (d : delayed) (x : D) : delayed :=
  Delayed (dl_note d) x (dl_flat d) (dl_indent d) (dl_style d) (dl_join d).

(** consolidated_notation.rs:108-129 [Textual::split_at].  [char_indices().nth]
    and the byte split become a split of the character list. *)
Definition split_at (t : textual) (char_pos : nat) : textual * textual :=
  let l := firstn char_pos (tx_str t) in
  let r := skipn char_pos (tx_str t) in
  (Textual l (str_width l) (tx_style t) (tx_from_text t),
   Textual r (str_width r) (tx_style t) (tx_from_text t)).

(** consolidated_notation.rs:228-244 [with_optional_style]. *)
Definition with_optional_style (doc : D) (style : option Sty) : pres delayed :=
  n <- lift (m_notation doc) ;;
  s <- lift (m_node_style doc) ;;
  Ok (Delayed n doc false []
        (match style with Some st => style_combine st s | None => s end) None).

(** consolidated_notation.rs:318-341, computing [doc_to_inspect]. *)
Definition doc_to_inspect (d : delayed) (pos : checkpos) : pres D :=
  match pos with
  | Here => Ok (dl_doc d)
  | CPChild i =>
      nc <- lift (m_num_children (dl_doc d)) ;;
      match nc with
      | None => Err CheckPosChildOnChildlessDoc
      | Some n =>
          match normalize_child_index i n with
          | None => Err (CheckPosChildIndexOutOfBounds i n)
          | Some index => lift (m_unwrap_child (dl_doc d) index)
          end
      end
  | RightChild =>
      match dl_join d with
      | None => Panic PJoinPosUnwrap
      | Some jp => Ok (jp_child jp)
      end
  | LeftChild =>
      match dl_join d with
      | None => Panic PJoinPosUnwrap
      | Some jp =>
          match jp_index jp with
          | O => Panic POverflow
          | S i => lift (m_unwrap_prev_sibling (jp_child jp) (jp_parent jp) i)
          end
      end
  end.

(** [Left], consolidated_notation.rs:403-425.  [evf] and [evj] evaluate the
    fold's [first] and [join]; both take as extra argument how to evaluate a
    further [Left].  [k] bounds the number of nested [Left] steps; it is the
    current join index, which each step decreases by one. *)
Fixpoint left_h (evf evj : (delayed -> pres cnote) -> delayed -> pres cnote)
    (k : nat) (d : delayed) {struct k} : pres cnote :=
  match dl_join d with
  | None => Panic PLeftOutsideFold
  | Some jp =>
      if Nat.eqb (jp_index jp) 1
      then evf (fun _ => Panic PLeftOutsideFold) (set_join d None)
      else
        match k with
        | O => Panic POverflow
        | S k' =>
            child <- lift (m_unwrap_prev_sibling (jp_child jp) (jp_parent jp) k') ;;
            evj (left_h evf evj k')
              (set_join d (Some (JoinPos (jp_parent jp) child k' (jp_first jp) (jp_join jp))))
        end
  end.

(** consolidated_notation.rs:251-440 [eval], by recursion on the notation; the
    argument [d] carries the other fields of [self].  The recursion of the Rust
    function is not structural at [Left] (it jumps back to the fold's [first]
    or [join]); [lh] says how to evaluate a [Left] at this point.  Theorem
    [eval_eqn] (PEval.v) shows that [eval] below satisfies exactly the recursive
    equations of the Rust code. *)
Fixpoint eval_n (lh : delayed -> pres cnote) (n : note) (d : delayed) {struct n} : pres cnote :=
  match n with
  | Empty => Ok CEmpty
  | EndOfLine => Ok CEndOfLine
  | Newline => Ok (CNewline (dl_indent d))
  | Literal s => Ok (CTextual (Textual s (str_width s) (dl_style d) false))
  | Text =>
      nc <- lift (m_num_children (dl_doc d)) ;;
      match nc with
      | Some _ => Err TextNotationOnTextlessDoc
      | None =>
          t <- lift (m_unwrap_text (dl_doc d)) ;;
          Ok (CTextual (Textual t (str_width t) (dl_style d) true))
      end
  | Flat x => eval_n lh x (set_flat d)
  | Indent prefix label x =>
      s <- match label with
           | Some l =>
               ls <- lift (m_lookup_style (dl_doc d) l) ;;
               Ok (style_combine (dl_style d) ls)
           | None => Ok (dl_style d)
           end ;;
      eval_n lh x (set_indent d (Segment prefix (str_width prefix) s :: dl_indent d))
  | Concat a b => Ok (CConcat (set_note d a) (set_note d b))
  | Choice a b =>
      if dl_flat d then eval_n lh a d
      else Ok (CChoice (set_note d a) (set_note d b))
  | Check c pos a b =>
      x <- doc_to_inspect d pos ;;
      r <- lift (m_condition x c) ;;
      if r : bool then eval_n lh a d else eval_n lh b d
  | Child i =>
      nc <- lift (m_num_children (dl_doc d)) ;;
      match nc with
      | None => Err ChildNotationOnChildlessDoc
      | Some len =>
          match normalize_child_index i len with
          | None => Err (ChildIndexOutOfBounds i len)
          | Some index =>
              x <- lift (m_unwrap_child (dl_doc d) index) ;;
              nt <- lift (m_notation x) ;;
              s <- lift (m_node_style x) ;;
              Ok (CChild index
                    (Delayed nt x (dl_flat d) (dl_indent d)
                       (style_combine (dl_style d) s) (dl_join d)))
          end
      end
  | Style l x =>
      ls <- lift (m_lookup_style (dl_doc d) l) ;;
      eval_n lh x (set_style d (style_combine (dl_style d) ls))
  | FocusMark => Ok CFocusMark
  | Count zero one many =>
      nc <- lift (m_num_children (dl_doc d)) ;;
      match nc with
      | None => Err CountNotationOnChildlessDoc
      | Some O => eval_n lh zero d
      | Some (S O) => eval_n lh one d
      | Some (S (S _)) => eval_n lh many d
      end
  | Fold first join =>
      nc <- lift (m_num_children (dl_doc d)) ;;
      match nc with
      | None => Err NumChildrenChanged
      | Some O => Ok CEmpty
      | Some (S O) => eval_n lh first d
      | Some (S m) =>
          child <- lift (m_unwrap_last_child (dl_doc d)) ;;
          eval_n
            (left_h (fun h x => eval_n h first x) (fun h x => eval_n h join x) m)
            join
            (set_join d (Some (JoinPos (dl_doc d) child m first join)))
      end
  | Left =>
      match dl_join d with
      | None => Panic PLeftOutsideFold
      | Some _ => lh d
      end
  | Right =>
      match dl_join d with
      | None => Panic PRightOutsideFold
      | Some jp =>
          nt <- lift (m_notation (jp_child jp)) ;;
          s <- lift (m_node_style (jp_child jp)) ;;
          Ok (CChild (jp_index jp)
                (Delayed nt (jp_child jp) (dl_flat d) (dl_indent d)
                   (style_combine (dl_style d) s) None))
      end
  end.

(** How to evaluate a [Left], given the [join_pos] field. *)
Definition left_of (j : option joinpos) : delayed -> pres cnote :=
  match j with
  | None => fun _ => Panic PLeftOutsideFold
  | Some jp =>
      left_h (fun h x => eval_n h (jp_first jp) x) (fun h x => eval_n h (jp_join jp) x)
        (jp_index jp)
  end.

(** consolidated_notation.rs:251 [eval(self)]. *)
Definition eval (d : delayed) : pres cnote :=
  eval_n (left_of (dl_join d)) (dl_note d) d.

End Consolidated.
