(** Specification for C53 and C54: the documented requirement on choices.

    notation.rs:74-77: "For every choice [(x | y)], if [x] 'fits on the current
    line' then [y] must too." *)
From Verif Require Export SpecWide.

Set Implicit Arguments.

Section SpecResize.
Context {pd : PrettyDoc}.

(** [l] is what [s] displays for some way of picking options. *)
Inductive displays : shape -> list piece -> Prop :=
| D_empty : displays SEmpty []
| D_mark : displays SMark []
| D_eol : displays SEol [IEol]
| D_newline ind : displays (SNewline ind) [INl]
| D_text t : displays (SText t) [ITxt (tx_width t)]
| D_concat a b x y : displays a x -> displays b y -> displays (SConcat a b) (x ++ y)
| D_first a b x : displays a x -> displays (SChoice a b) x
| D_second a b y : displays b y -> displays (SChoice a b) y
| D_child n i s x : displays s x -> displays (SChild n i s) x.

(** If [x] can be put on the current line then so can [y]: whatever the width,
    the line so far, and what follows. *)
Definition no_longer (y x : list piece) : Prop :=
  forall w len eol rest, line_fits w len eol (x ++ rest) -> line_fits w len eol (y ++ rest).

(** Every choice obeys the requirement. *)
Fixpoint obedient (s : shape) : Prop :=
  match s with
  | SConcat a b => obedient a /\ obedient b
  | SChoice a b => obedient a /\ obedient b /\ forall x, displays a x -> no_longer (seconds b) x
  | SChild _ _ s' => obedient s'
  | _ => True
  end.

End SpecResize.

(** ** A simple way to obey the requirement *)

Section Openings.
Context {pd : PrettyDoc}.

(** How a notation starts: the literals at its start, and what comes after them:
    nothing more, a Newline, or something else. *)
Inductive after_literals : Type := Nothing | Break | Other.

Fixpoint opening (n : note) : list str * after_literals :=
  match n with
  | Empty | FocusMark => ([], Nothing)
  | Newline => ([], Break)
  | Literal s => ([s], Nothing)
  | Flat a | Style _ a | Indent _ _ a => opening a
  | Concat a b =>
      match opening a with
      | (l, Nothing) => (l ++ fst (opening b), snd (opening b))
      | o => o
      end
  | _ => ([], Other)
  end.

(** In every choice, the second option starts with some literals (or none) and
    then a Newline, and the first option starts with these literals too. *)
Fixpoint same_openings (n : note) : Prop :=
  match n with
  | Choice a b => same_openings a /\ same_openings b /\
      exists lits more, fst (opening a) = lits ++ more /\ opening b = (lits, Break)
  | Flat a | Style _ a | Indent _ _ a => same_openings a
  | Concat a b | Check _ _ a b | Fold a b => same_openings a /\ same_openings b
  | Count a b c => same_openings a /\ same_openings b /\ same_openings c
  | _ => True
  end.

Fixpoint all_same_openings (r : rdoc) : Prop :=
  match r with
  | RText i _ => same_openings (i_note i)
  | RBranch i ks => same_openings (i_note i) /\
      (fix go ks := match ks with [] => True | k :: ks' => all_same_openings k /\ go ks' end) ks
  end.

End Openings.
