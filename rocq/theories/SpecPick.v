(** Specification for C64: all the layouts of a document, one for every way of
    picking options, and which of them comes first.

    README.md:6-8: the printer prints the document "picking a fitting layout that
    fits in your desired line width if possible". *)
From Verif Require Export SpecResize.

Set Implicit Arguments.

Section SpecPick.
Context {pd : PrettyDoc}.

(** [picks j s cs es]: [es] is the layout of [s] (a part of the node with id
    [j]) when [cs] says, for each choice that is met from left to right, whether
    it takes its first option ([true]) or its second ([false]).  (Choices inside
    a Flat are not in [s] any more.) *)
Inductive picks : Id -> shape -> list bool -> list event -> Prop :=
| R_empty j : picks j SEmpty [] []
| R_mark j : picks j SMark [] [EMark j]
| R_eol j : picks j SEol [] [EEol]
| R_newline j ind : picks j (SNewline ind) [] [ENewline ind]
| R_text j x : picks j (SText x) [] [EText j x]
| R_concat j a b ca cb ea eb : picks j a ca ea -> picks j b cb eb ->
    picks j (SConcat a b) (ca ++ cb) (ea ++ eb)
| R_first j a b cs es : picks j a cs es -> picks j (SChoice a b) (true :: cs) es
| R_second j a b cs es : picks j b cs es -> picks j (SChoice a b) (false :: cs) es
| R_child j n j' s cs es : picks j' s cs es ->
    picks j (SChild n (Ok j') s) cs (EEnter j n :: es ++ [EExit j n]).

(** The layouts of a whole document. *)
Definition doc_picks (root : pres Id * shape) (cs : list bool) (es : list event) : Prop :=
  exists j, fst root = Ok j /\ picks j (snd root) cs es.

(** No line is wider than [w], and no text comes after an EndOfLine. *)
Definition fitting (w : N) (es : list event) : Prop :=
  Forall (fun l => exact_width l <= w)%N (lines_of es) /\ text_after false (items_of es) = false.

(** [cs] comes before [cs']: at the first choice at which they differ, [cs]
    takes the first option and [cs'] the second. *)
Definition comes_before (cs cs' : list bool) : Prop :=
  exists same more more', cs = same ++ true :: more /\ cs' = same ++ false :: more'.

End SpecPick.

(** ** First options that are single lines

    notation.rs:79-80: "whenever possible, [x] should not contain newlines". *)
Section OneLine.
Context {pd : PrettyDoc}.

(** [n] shows no Newline, inside a Flat ([flat]) or not; its children are only
    shown inside a Flat.  [inner]: inside a Fold that is itself inside of [n]. *)
Fixpoint onelined (flat inner : bool) (n : note) : Prop :=
  match n with
  | Newline => False
  | Choice a b => onelined flat inner a /\ (flat = true \/ onelined flat inner b)
  | Flat a => onelined true inner a
  | Style _ a | Indent _ _ a => onelined flat inner a
  | Concat a b | Check _ _ a b => onelined flat inner a /\ onelined flat inner b
  | Count a b c => onelined flat inner a /\ onelined flat inner b /\ onelined flat inner c
  | Fold a b => onelined flat true a /\ onelined flat true b
  | Child _ | Right => flat = true
  | Left => inner = true
  | _ => True
  end.

(** All first options outside of Flats are of this kind. *)
Fixpoint onelined_firsts (n : note) : Prop :=
  match n with
  | Choice a b => onelined false false a /\ onelined_firsts b
  | Style _ a | Indent _ _ a => onelined_firsts a
  | Concat a b | Check _ _ a b | Fold a b => onelined_firsts a /\ onelined_firsts b
  | Count a b c => onelined_firsts a /\ onelined_firsts b /\ onelined_firsts c
  | _ => True
  end.

(** [P] of the notations of all nodes. *)
Fixpoint all_notes (P : note -> Prop) (r : rdoc) : Prop :=
  match r with
  | RText i _ => P (i_note i)
  | RBranch i ks => P (i_note i) /\
      (fix go ks := match ks with [] => True | k :: ks' => all_notes P k /\ go ks' end) ks
  end.

(** All first options are single lines: those that are written in the notations
    are, and so is every node but the root inside a Flat. *)
Definition tidy_firsts (r : rdoc) : Prop :=
  all_notes onelined_firsts r /\ forall k, In k (r_kids r) -> all_notes (onelined true false) k.

End OneLine.
