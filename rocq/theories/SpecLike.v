(** Documents that differ in parts that are irrelevant to the layout. *)
From Verif Require Export SpecElab SpecPrint.

Set Implicit Arguments.

Section Like.
Context {pd : PrettyDoc}.

(** Which styles, which ids, and which texts count as alike. *)
Variable RS : Sty -> Sty -> Prop.
Variable RI : Id -> Id -> Prop.
Variable RT : str -> str -> Prop.

Definition lookup_like (i i' : info) (l l' : option Lbl) : Prop :=
  match l, l' with
  | None, None => True
  | Some l, Some l' => RS (i_lookup i l) (i_lookup i' l')
  | _, _ => False
  end.

(** The same notation up to style labels, which (in the nodes [i] and [i'])
    stand for styles that are alike, and up to literals and prefixes. *)
Inductive note_like (i i' : info) : note -> note -> Prop :=
| nl_empty : note_like i i' Empty Empty
| nl_newline : note_like i i' Newline Newline
| nl_eol : note_like i i' EndOfLine EndOfLine
| nl_text : note_like i i' Text Text
| nl_literal s s' : RT s s' -> note_like i i' (Literal s) (Literal s')
| nl_flat a a' : note_like i i' a a' -> note_like i i' (Flat a) (Flat a')
| nl_indent p p' l l' a a' : RT p p' -> lookup_like i i' l l' -> note_like i i' a a' -> note_like i i' (Indent p l a) (Indent p' l' a')
| nl_concat a a' b b' : note_like i i' a a' -> note_like i i' b b' -> note_like i i' (Concat a b) (Concat a' b')
| nl_choice a a' b b' : note_like i i' a a' -> note_like i i' b b' -> note_like i i' (Choice a b) (Choice a' b')
| nl_check c p a a' b b' : note_like i i' a a' -> note_like i i' b b' -> note_like i i' (Check c p a b) (Check c p a' b')
| nl_child k : note_like i i' (Child k) (Child k)
| nl_style l l' a a' : RS (i_lookup i l) (i_lookup i' l') -> note_like i i' a a' -> note_like i i' (Style l a) (Style l' a')
| nl_mark : note_like i i' FocusMark FocusMark
| nl_count a a' b b' c c' : note_like i i' a a' -> note_like i i' b b' -> note_like i i' c c' ->
    note_like i i' (Count a b c) (Count a' b' c')
| nl_fold a a' b b' : note_like i i' a a' -> note_like i i' b b' -> note_like i i' (Fold a b) (Fold a' b')
| nl_left : note_like i i' Left Left
| nl_right : note_like i i' Right Right.

(** The same conditions hold. *)
Definition info_like (i i' : info) : Prop :=
  RI (i_id i) (i_id i') /\ note_like i i' (i_note i) (i_note i') /\ RS (i_style i) (i_style i') /\
  forall c, i_cond i' c = i_cond i c.

Inductive doc_like : rdoc -> rdoc -> Prop :=
| dl_text i i' s s' : info_like i i' -> RT s s' -> doc_like (RText i s) (RText i' s')
| dl_branch i i' ks ks' : info_like i i' -> Forall2 doc_like ks ks' -> doc_like (RBranch i ks) (RBranch i' ks').

(** Lines with texts that are alike, of the same widths, in styles that are alike. *)
Definition seg_like (s s' : segment) : Prop :=
  RT (seg_str s) (seg_str s') /\ seg_width s' = seg_width s /\ RS (seg_style s) (seg_style s').
Definition line_like : line -> line -> Prop := Forall2 seg_like.
Definition lines_like : list line -> list line -> Prop := Forall2 line_like.

Definition opt_like (s s' : option Sty) : Prop :=
  match s, s' with None, None => True | Some s, Some s' => RS s s' | _, _ => False end.

End Like.

(** Texts that take up the same space: as many characters, and every piece of
    the one is as wide as the same piece of the other. *)
Definition same_cells {env : Env} (s s' : str) : Prop :=
  length s' = length s /\ forall n m, str_width (firstn m (skipn n s')) = str_width (firstn m (skipn n s)).

(** The document [r], with the text of the node at path [q] replaced. *)
Fixpoint put_text {pd : PrettyDoc} (q : list nat) (s' : str) (r : rdoc) {struct q} : rdoc :=
  match q, r with
  | [], RText i _ => RText i s'
  | n :: q', RBranch i ks =>
      RBranch i (firstn n ks ++ match nth_error ks n with Some k => [put_text q' s' k] | None => [] end ++ skipn (S n) ks)
  | _, _ => r
  end.
