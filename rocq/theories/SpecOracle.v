(** Definitions used in the statements about the oracle (C08). *)
From Verif Require Export SpecElab.

Set Implicit Arguments.

Section SpecOracle.
Context {pd : PrettyDoc}.

(** All the strings a notation can display by itself. *)
Fixpoint note_literals (n : note) : list str :=
  match n with
  | Literal s => [s]
  | Flat a | Indent _ _ a | Style _ a => note_literals a
  | Concat a b | Choice a b | Check _ _ a b | Fold a b => note_literals a ++ note_literals b
  | Count a b c => note_literals a ++ note_literals b ++ note_literals c
  | _ => []
  end.

(** Does [EndOfLine] occur in a notation? *)
Fixpoint note_has_eol (n : note) : bool :=
  match n with
  | EndOfLine => true
  | Flat a | Indent _ _ a | Style _ a => note_has_eol a
  | Concat a b | Choice a b | Check _ _ a b | Fold a b => note_has_eol a || note_has_eol b
  | Count a b c => note_has_eol a || note_has_eol b || note_has_eol c
  | _ => false
  end.

(** All the Literals and Texts of a document. *)
Fixpoint doc_texts (r : rdoc) : list str :=
  match r with
  | RText i s => s :: note_literals (i_note i)
  | RBranch i ks => note_literals (i_note i) ++ flat_map doc_texts ks
  end.

Fixpoint doc_has_eol (r : rdoc) : bool :=
  match r with
  | RText i _ => note_has_eol (i_note i)
  | RBranch i ks => note_has_eol (i_note i) || existsb doc_has_eol ks
  end.

End SpecOracle.

(** The column width of a string is the sum of the widths of its parts. *)
Definition widths_add_up (width : str -> N) : Prop :=
  forall a b, width (a ++ b) = (width a + width b)%N.
