(** When a document of one type behaves as a document of another type.

    A [PrettyDoc] implementation chooses six types: nodes, ids, styles, labels,
    conditions and errors.  Two implementations are compared by saying which
    values of the first correspond to which values of the second. *)
From Verif Require Export SpecMask.

Set Implicit Arguments.

Section SpecSim.
Variables pd1 pd2 : PrettyDoc.

(** Which values of the first implementation correspond to which values of the
    second; [lk_off] are the errors by which a method of the first may refuse to
    answer a question that the second answers. *)
Record likeness : Type := Likeness {
  lk_doc : @D pd1 -> @D pd2 -> Prop;
  lk_id : @Id pd1 -> @Id pd2 -> Prop;
  lk_sty : @Sty pd1 -> @Sty pd2 -> Prop;
  lk_lbl : @Lbl pd1 -> @Lbl pd2 -> Prop;
  lk_cnd : @Cnd pd1 -> @Cnd pd2 -> Prop;
  lk_err : @Er pd1 -> @Er pd2 -> Prop;
  lk_off : @Er pd1 -> Prop }.

Variable T : likeness.

(** Two notations with corresponding labels and conditions. *)
Fixpoint note_like (n' : @note pd1) (n : @note pd2) : Prop :=
  match n', n with
  | Empty, Empty | Newline, Newline | EndOfLine, EndOfLine | Text, Text
  | FocusMark, FocusMark | Left, Left | Right, Right => True
  | Literal s', Literal s => s' = s
  | Flat a', Flat a => note_like a' a
  | Indent s' l' a', Indent s l a =>
      s' = s /\ note_like a' a /\
      match l', l with None, None => True | Some x', Some x => lk_lbl T x' x | _, _ => False end
  | Concat a' b', Concat a b | Choice a' b', Choice a b | Fold a' b', Fold a b => note_like a' a /\ note_like b' b
  | Check c' p' a' b', Check c p a b => lk_cnd T c' c /\ p' = p /\ note_like a' a /\ note_like b' b
  | Child i', Child i => i' = i
  | Style l' a', Style l a => lk_lbl T l' l /\ note_like a' a
  | Count a' b' c', Count a b c => note_like a' a /\ note_like b' b /\ note_like c' c
  | _, _ => False
  end.

(** A method of the first implementation answers as a method of the second:
    corresponding answers, corresponding errors, both panic; or it refuses. *)
Definition answers_like {A B} (Q : A -> B -> Prop) (x' : mres (@Er pd1) A) (x : mres (@Er pd2) B) : Prop :=
  match x' with
  | MOk a' => exists a, x = MOk a /\ Q a' a
  | MErr e' => lk_off T e' \/ exists e, x = MErr e /\ lk_err T e' e
  | MPanic => x = MPanic
  end.

(** Corresponding nodes behave alike, equality tells corresponding ids apart in
    the same way, and combining corresponding styles gives corresponding styles. *)
Record behaves_like : Prop := {
  bh_eq : forall i' i j' j, lk_id T i' i -> lk_id T j' j -> id_eqb i' j' = id_eqb i j;
  bh_combine : forall s' s t' t, lk_sty T s' s -> lk_sty T t' t ->
    lk_sty T (style_combine s' t') (style_combine s t);
  bh_id : forall d' d, lk_doc T d' d -> answers_like (lk_id T) (m_id d') (m_id d);
  bh_notation : forall d' d, lk_doc T d' d -> answers_like note_like (m_notation d') (m_notation d);
  bh_condition : forall d' d c' c, lk_doc T d' d -> lk_cnd T c' c ->
    answers_like eq (m_condition d' c') (m_condition d c);
  bh_lookup : forall d' d l' l, lk_doc T d' d -> lk_lbl T l' l ->
    answers_like (lk_sty T) (m_lookup_style d' l') (m_lookup_style d l);
  bh_style : forall d' d, lk_doc T d' d -> answers_like (lk_sty T) (m_node_style d') (m_node_style d);
  bh_num : forall d' d, lk_doc T d' d -> answers_like eq (m_num_children d') (m_num_children d);
  bh_text : forall d' d, lk_doc T d' d -> answers_like eq (m_unwrap_text d') (m_unwrap_text d);
  bh_child : forall d' d i, lk_doc T d' d ->
    answers_like (lk_doc T) (m_unwrap_child d' i) (m_unwrap_child d i);
  bh_last : forall d' d, lk_doc T d' d ->
    answers_like (lk_doc T) (m_unwrap_last_child d') (m_unwrap_last_child d);
  bh_prev : forall d' d p' p i, lk_doc T d' d -> lk_doc T p' p ->
    answers_like (lk_doc T) (m_unwrap_prev_sibling d' p' i) (m_unwrap_prev_sibling d p i) }.

(** ** Results *)
Definition seg_like (s' : @segment pd1) (s : @segment pd2) : Prop :=
  seg_str s' = seg_str s /\ seg_width s' = seg_width s /\ lk_sty T (seg_style s') (seg_style s).

(** Lines with the same text, and corresponding styles. *)
Definition line_like : @line pd1 -> @line pd2 -> Prop := Forall2 seg_like.

Definition focused_like (l' : @focused_line pd1) (l : @focused_line pd2) : Prop :=
  line_like (left_segments l') (left_segments l) /\ line_like (right_segments l') (right_segments l).

Definition perr_like (e' : perr (@Er pd1)) (e : perr (@Er pd2)) : Prop :=
  match e', e with
  | InvalidPath i', InvalidPath i => i' = i
  | TextNotationOnTextlessDoc, TextNotationOnTextlessDoc
  | ChildNotationOnChildlessDoc, ChildNotationOnChildlessDoc
  | CheckPosChildOnChildlessDoc, CheckPosChildOnChildlessDoc
  | CountNotationOnChildlessDoc, CountNotationOnChildlessDoc
  | NumChildrenChanged, NumChildrenChanged
  | TextAfterEndOfLine, TextAfterEndOfLine
  | MissingFocusMark, MissingFocusMark
  | MissingText, MissingText => True
  | ChildIndexOutOfBounds i' n', ChildIndexOutOfBounds i n
  | CheckPosChildIndexOutOfBounds i' n', CheckPosChildIndexOutOfBounds i n => i' = i /\ n' = n
  | PrettyDocErr x', PrettyDocErr x => lk_err T x' x
  | _, _ => False
  end.

Definition failure_like (f' : failure (perr (@Er pd1))) (f : failure (perr (@Er pd2))) : Prop :=
  match f', f with
  | FErr e', FErr e => perr_like e' e
  | FPanic p', FPanic p => p' = p
  | FFuel, FFuel => True
  | _, _ => False
  end.

(** The first ended with a refusal. *)
Definition refused {A} (x' : @pres pd1 A) : Prop := exists e, x' = Err (PrettyDocErr e) /\ lk_off T e.

Definition same_result {A B} (Q : A -> B -> Prop) (x' : @pres pd1 A) (x : @pres pd2 B) : Prop :=
  match x' with
  | Ok a' => exists a, x = Ok a /\ Q a' a
  | Fail f' => refused x' \/ exists f, x = Fail f /\ failure_like f' f
  end.

Definition window_like (a' : list (@line pd1) * @focused_line pd1 * list (@line pd1))
    (a : list (@line pd2) * @focused_line pd2 * list (@line pd2)) : Prop :=
  Forall2 line_like (fst (fst a')) (fst (fst a)) /\ focused_like (snd (fst a')) (snd (fst a)) /\
  Forall2 line_like (snd a') (snd a).

(** The style of a root node with the given root style, if any. *)
Definition in_root_style {pd : PrettyDoc} (root : option (@Sty pd)) (s : @Sty pd) : @Sty pd :=
  match root with Some r => style_combine r s | None => s end.

(** Root styles with which corresponding styles give corresponding styles. *)
Definition root_style_like (st' : option (@Sty pd1)) (st : option (@Sty pd2)) : Prop :=
  forall s' s, lk_sty T s' s -> lk_sty T (in_root_style st' s') (in_root_style st s).

End SpecSim.
