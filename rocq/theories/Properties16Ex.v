(** Concrete cases for C49. *)
From Verif Require Export Properties16 Properties10Ex Properties2Ex.
From Coq Require Import String.
#[local] Existing Instance debug_env.

Set Implicit Arguments.

(** A document with an indentation in style [l] and a text in style [m]. *)
Definition doc49 (l m : nat) : sdoc :=
  Node 7 (Concat (lit "f(") (Concat (Indent (codes "  ") (Some l) (Concat Newline (Child 0))) (Concat Newline (Style m (lit ")")))))
    [Leaf 8 (Choice Text Newline) ([97; 98]%N)].

(** Any number of labels against any other. *)
Definition RS49 (a b : list nat) : Prop := List.length a = List.length b.

Lemma RS49_combine a a' b b' : RS49 a a' -> RS49 b b' -> RS49 (a ++ b) (a' ++ b').
Proof. unfold RS49. rewrite !app_length. congruence. Qed.

Lemma like49 l m l' m' : doc_like (pd := spd) RS49 eq eq (s_tree (doc49 l m)) (s_tree (doc49 l' m')).
Proof. repeat (first [apply dl_branch | apply dl_text | constructor]). Qed.

Lemma valid49 l m : valid_doc (s_tree (doc49 l m)).
Proof. apply s_valid_doc. vm_compute. reflexivity. Qed.

Definition focus49 : printing_options := PrintingOptions [0] FEnd f32_half WFull true.

Lemma printed49 l m st : @printed_in spd (wide_env true) (doc49 l m) focus49 80 st
  [[seg (codes "f(") 2 (st ++ [107])]]
  {| left_segments := [seg (codes "  ") 2 ((st ++ [107]) ++ [l]); seg ([97; 98]%N) 2 ((st ++ [107]) ++ [108])]; right_segments := [] |}
  [[seg (codes ")") 1 ((st ++ [107]) ++ [m])]].
Proof.
  eapply (@run_printed 200); intros k.
  - vm_compute. reflexivity.
  - vm_compute. reflexivity.
  - vm_compute. reflexivity.
Qed.

Lemma unique49 l m : unique_ids (id_at (s_tree (doc49 l m))).
Proof. apply ids_unique. vm_compute. repeat constructor; simpl; intuition discriminate. Qed.

(** The styles [1] and [2], and [3] and [4]: same lines, same focus. *)
Example C49_case st : exists ups fl downs,
  @printed spd (wide_env true) (doc49 3 4) 80 [0] FEnd (Some st) ups fl downs /\
  line_like RS49 eq [seg (codes "  ") 2 ((st ++ [107]) ++ [1]); seg ([97; 98]%N) 2 ((st ++ [107]) ++ [108])] (left_segments fl) /\
  List.length ups = 1.
Proof.
  destruct (@layout spd (wide_env true) 80 (doc_shape (s_tree (doc49 1 2)) (Some st))) as [es|] eqn:Hes;
    [|vm_compute in Hes; discriminate].
  assert (Hlin : linear es).
  { vm_compute in Hes. injection Hes as <-. unfold linear. vm_compute. repeat constructor; simpl; intuition. }
  destruct (@C49_same_focus spd (wide_env true) spd_ideq RS49 eq RS49_combine _ _ _ _
    (s_rep (doc49 1 2)) (s_rep (doc49 3 4)) (@valid49 1 2) (@valid49 3 4) (@like49 1 2 3 4)
    80%N [0] FEnd (Some st) (Some st) es _ _ _ (@unique49 1 2) (@unique49 3 4) Hes Hlin eq_refl eq_refl (printed49 1 2 st)) as (ups & fl & downs & Hp & H1 & H2 & _).
  exists ups, fl, downs. split; auto. split; auto. inversion H1; subst. match goal with H : Forall2 _ [] _ |- _ => inversion H end. reflexivity.
Qed.
