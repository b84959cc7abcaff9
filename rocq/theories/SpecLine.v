(** Specification of line breaking: which option of each choice is displayed.

    [lays strict w j rest s p t p']: at position [p] of the current line, and
    followed by [rest], the part [s] of the document (of the node with id [j])
    is displayed as [t], and [p'] is the position after it. *)
From Verif Require Export SpecLayout SpecProps.

Set Implicit Arguments.

(** What is on the rest of the line: texts (of some width), EndOfLines,
    Newlines. *)
Inductive piece : Type := ITxt (w : N) | IEol | INl.

(** Only the first line. *)
Fixpoint first_line (l : list piece) : list piece :=
  match l with
  | [] | INl :: _ => []
  | i :: l' => i :: first_line l'
  end.

Fixpoint total_width (l : list piece) : N :=
  match l with
  | [] => 0%N
  | ITxt w :: l' => (w + total_width l')%N
  | _ :: l' => total_width l'
  end.

(** Text after an EndOfLine ([eol]: there is already one). *)
Fixpoint text_after (eol : bool) (l : list piece) : bool :=
  match l with
  | [] => false
  | ITxt _ :: l' => eol || text_after eol l'
  | IEol :: l' => text_after true l'
  | INl :: l' => text_after false l'
  end.

(** The first line of [l] can be put at position [(len, eol)]. *)
Definition line_fits (w len : N) (eol : bool) (l : list piece) : Prop :=
  (len + total_width (first_line l) <= w)%N /\ text_after eol (first_line l) = false.

Section SpecLine.
Context {pd : PrettyDoc}.

(** What [s] displays if every choice takes its second option. *)
Fixpoint seconds (s : shape) : list piece :=
  match s with
  | SFail _ | SEmpty | SMark => []
  | SEol => [IEol]
  | SNewline _ => [INl]
  | SText t => [ITxt (tx_width t)]
  | SConcat a b => seconds a ++ seconds b
  | SChoice _ b => seconds b
  | SChild _ _ s' => seconds s'
  end.

(** What [s] displays if every choice takes its first option. *)
Fixpoint firsts (s : shape) : list piece :=
  match s with
  | SFail _ | SEmpty | SMark => []
  | SEol => [IEol]
  | SNewline _ => [INl]
  | SText t => [ITxt (tx_width t)]
  | SConcat a b => firsts a ++ firsts b
  | SChoice a _ => firsts a
  | SChild _ _ s' => firsts s'
  end.

(** The same, as a layout. *)
Fixpoint first_events (j : Id) (s : shape) : list event :=
  match s with
  | SFail _ | SEmpty => []
  | SMark => [EMark j]
  | SEol => [EEol]
  | SNewline ind => [ENewline ind]
  | SText t => [EText j t]
  | SConcat a b => first_events j a ++ first_events j b
  | SChoice a _ => first_events j a
  | SChild n (Ok j') s' => EEnter j n :: first_events j' s' ++ [EExit j n]
  | SChild _ (Fail _) _ => []
  end.

(** In every choice, the first line of the second option is no wider than the
    first option, has no EndOfLine, and has no text if the first option has none. *)
Fixpoint narrowing (s : shape) : Prop :=
  match s with
  | SConcat a b => narrowing a /\ narrowing b
  | SChoice a b => narrowing a /\ narrowing b /\
      (total_width (first_line (seconds b)) <= total_width (firsts a))%N /\
      ~ In IEol (first_line (seconds b)) /\
      (forall x, In (ITxt x) (first_line (seconds b)) -> exists y, In (ITxt y) (firsts a))
  | SChild _ _ s' => narrowing s'
  | _ => True
  end.

(** A layout, with a marker ([First]) where a choice took its first option. *)
Inductive mark : Type := Ev (e : event) | First.

Definition events (t : list mark) : list event :=
  flat_map (fun m => match m with Ev e => [e] | First => [] end) t.

Definition indent_width (ind : indentation) : N := exact_width (rev ind).

Inductive lays (strict : bool) (w : N) : Id -> list piece -> shape -> N * bool -> list mark -> N * bool -> Prop :=
| L_empty j rest p : lays strict w j rest SEmpty p [] p
| L_mark j rest p : lays strict w j rest SMark p [Ev (EMark j)] p
| L_eol j rest len eol : lays strict w j rest SEol (len, eol) [Ev EEol] (len, true)
| L_newline j rest ind p : lays strict w j rest (SNewline ind) p [Ev (ENewline ind)] (indent_width ind, false)
| L_text j rest x len eol : (strict = true -> eol = false) ->
    lays strict w j rest (SText x) (len, eol) [Ev (EText j x)] ((len + tx_width x)%N, eol)
| L_concat j rest a b p p1 p2 t1 t2 :
    lays strict w j (seconds b ++ rest) a p t1 p1 -> lays strict w j rest b p1 t2 p2 ->
    lays strict w j rest (SConcat a b) p (t1 ++ t2) p2
| L_first j rest a b len eol t p' :
    line_fits w len eol (seconds a ++ rest) ->
    lays strict w j rest a (len, eol) t p' -> lays strict w j rest (SChoice a b) (len, eol) (First :: t) p'
| L_second j rest a b len eol t p' :
    ~ line_fits w len eol (seconds a ++ rest) ->
    lays strict w j rest b (len, eol) t p' -> lays strict w j rest (SChoice a b) (len, eol) t p'
| L_child j rest n j' s p t p' :
    lays strict w j' rest s p t p' ->
    lays strict w j rest (SChild n (Ok j') s) p (Ev (EEnter j n) :: t ++ [Ev (EExit j n)]) p'.

(** The layout of a whole document. *)
Definition lays_doc (strict : bool) (w : N) (root : pres Id * shape) (t : list mark) : Prop :=
  exists j p', fst root = Ok j /\ lays strict w j [] (snd root) (0%N, false) t p'.

(** The part of a layout on its first line, and text after an EndOfLine. *)
Fixpoint items_of (es : list event) : list piece :=
  match es with
  | [] => []
  | EText _ t :: es' => ITxt (tx_width t) :: items_of es'
  | EEol :: es' => IEol :: items_of es'
  | ENewline _ :: es' => INl :: items_of es'
  | _ :: es' => items_of es'
  end.

Definition narrow_lines (ls : list (list segment)) : Prop :=
  Forall (fun l => exact_width l < U16)%N ls.

(** Every choice replaced by its first option. *)
Fixpoint drop_choices (s : shape) : shape :=
  match s with
  | SConcat a b => SConcat (drop_choices a) (drop_choices b)
  | SChoice a _ => drop_choices a
  | SChild n i s' => SChild n i (drop_choices s')
  | _ => s
  end.

(** Every choice in the notations of a document replaced by its first option. *)
Fixpoint note_firsts (n : note) : note :=
  match n with
  | Flat a => Flat (note_firsts a)
  | Indent p l a => Indent p l (note_firsts a)
  | Concat a b => Concat (note_firsts a) (note_firsts b)
  | Choice a _ => note_firsts a
  | Check c p a b => Check c p (note_firsts a) (note_firsts b)
  | Style l a => Style l (note_firsts a)
  | Count a b c => Count (note_firsts a) (note_firsts b) (note_firsts c)
  | Fold a b => Fold (note_firsts a) (note_firsts b)
  | _ => n
  end.

Definition info_firsts (i : info) : info :=
  Info (i_id i) (note_firsts (i_note i)) (i_style i) (i_lookup i) (i_cond i).

Fixpoint first_options (r : rdoc) : rdoc :=
  match r with
  | RText i s => RText (info_firsts i) s
  | RBranch i ks => RBranch (info_firsts i) (map first_options ks)
  end.

End SpecLine.
