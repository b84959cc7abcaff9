(** Laws of notations: replacing one side by the other, anywhere in the
    notations of a document, does not change what is printed. *)
From Verif Require Export SpecSpine PElab.

Set Implicit Arguments.

Section SpecRewrite.
Context {pd : PrettyDoc} {env : Env}.

(** [join], with [Left] replaced by [left], and the other names that mean
    something in a join replaced by the child number [i] ([Right]) and the child
    before it. *)
Fixpoint inst (left : note) (i : nat) (n : note) : note :=
  match n with
  | Left => left
  | Right => Child (Z.of_nat i)
  | Check c LeftChild a b => Check c (CPChild (Z.of_nat (i - 1))) (inst left i a) (inst left i b)
  | Check c RightChild a b => Check c (CPChild (Z.of_nat i)) (inst left i a) (inst left i b)
  | Check c p a b => Check c p (inst left i a) (inst left i b)
  | Flat a => Flat (inst left i a)
  | Indent p l a => Indent p l (inst left i a)
  | Style l a => Style l (inst left i a)
  | Concat a b => Concat (inst left i a) (inst left i b)
  | Choice a b => Choice (inst left i a) (inst left i b)
  | Count a b c => Count (inst left i a) (inst left i b) (inst left i c)
  | _ => n
  end.

(** The fold over children 0, ..., i. *)
Fixpoint fold_upto (first join : note) (i : nat) : note :=
  match i with
  | O => first
  | S i' => inst (fold_upto first join i') i join
  end.

(** [Fold{first, join}] on a node with [n] children. *)
Definition unfolded (first join : note) (n : nat) : note :=
  match n with O => Empty | S i => fold_upto first join i end.

(** ** Laws, for (parts of) the notation of node [x] *)

(** What [Fold] means. *)
Inductive fold_law (x : rdoc) : note -> note -> Prop :=
(* Fold, when first and join are well-scoped *)
| law_fold i ks f j : x = RBranch i ks -> wsc true false f -> wsc true true j ->
    fold_law x (Fold f j) (unfolded f j (length ks)).

(** What [Child], [Count] and [Check] mean. *)
Inductive select_law (x : rdoc) : note -> note -> Prop :=
(* Child *)
| law_child_neg i : (i < 0)%Z -> (0 <= i + Z.of_nat (length (r_kids x)))%Z ->
    select_law x (Child i) (Child (i + Z.of_nat (length (r_kids x))))
(* Count *)
| law_count0 i a b c : x = RBranch i [] -> select_law x (Count a b c) a
| law_count1 i k a b c : x = RBranch i [k] -> select_law x (Count a b c) b
| law_count2 i k1 k2 ks a b c : x = RBranch i (k1 :: k2 :: ks) -> select_law x (Count a b c) c
(* Check *)
| law_check_true c pos a b y : inspected x None pos = Some y -> i_cond (r_info y) c = true -> select_law x (Check c pos a b) a
| law_check_false c pos a b y : inspected x None pos = Some y -> i_cond (r_info y) c = false -> select_law x (Check c pos a b) b.

(** The algebra of notations. *)
Inductive algebra_law (x : rdoc) : note -> note -> Prop :=
(* [+] *)
| law_assoc a b c : algebra_law x (Concat a (Concat b c)) (Concat (Concat a b) c)
| law_empty_l a : algebra_law x (Concat Empty a) a
| law_empty_r a : algebra_law x (Concat a Empty) a
(* [|] *)
| law_choice_same a : algebra_law x (Choice a a) a
| law_choice_concat a b c : algebra_law x (Concat (Choice a b) c) (Choice (Concat a c) (Concat b c))
(* Flat *)
| law_flat_flat a : algebra_law x (Flat (Flat a)) (Flat a)
| law_flat_concat a b : algebra_law x (Flat (Concat a b)) (Concat (Flat a) (Flat b))
| law_flat_choice a b : algebra_law x (Flat (Choice a b)) (Flat a)
| law_flat_text : algebra_law x (Flat Text) Text
| law_flat_literal s : algebra_law x (Flat (Literal s)) (Literal s)
| law_flat_newline : algebra_law x (Flat Newline) Newline
| law_flat_indent p l a : algebra_law x (Flat (Indent p l a)) (Indent p l (Flat a))
| law_flat_style l a : algebra_law x (Flat (Style l a)) (Style l (Flat a))
(* Indent *)
| law_indent_concat p l a b : algebra_law x (Indent p l (Concat a b)) (Concat (Indent p l a) (Indent p l b))
| law_indent_choice p l a b : algebra_law x (Indent p l (Choice a b)) (Choice (Indent p l a) (Indent p l b))
| law_indent_text p l : algebra_law x (Indent p l Text) Text
| law_indent_literal p l s : algebra_law x (Indent p l (Literal s)) (Literal s)
(* Style *)
| law_style_concat l a b : algebra_law x (Style l (Concat a b)) (Concat (Style l a) (Style l b))
| law_style_choice l a b : algebra_law x (Style l (Choice a b)) (Choice (Style l a) (Style l b))
| law_style_newline l : algebra_law x (Style l Newline) Newline.

(** All of them. *)
Inductive any_law (x : rdoc) (a b : note) : Prop :=
| any_fold : fold_law x a b -> any_law x a b
| any_select : select_law x a b -> any_law x a b
| any_algebra : algebra_law x a b -> any_law x a b.

(** ** Rewriting with laws [law], in both directions, anywhere *)
Section Rewriting.
Variable law : rdoc -> note -> note -> Prop.

Inductive rw (x : rdoc) : note -> note -> Prop :=
| rw_law a b : law x a b -> rw x a b
| rw_refl a : rw x a a
| rw_sym a b : rw x a b -> rw x b a
| rw_trans a b c : rw x a b -> rw x b c -> rw x a c
| rw_flat a a' : rw x a a' -> rw x (Flat a) (Flat a')
| rw_indent p l a a' : rw x a a' -> rw x (Indent p l a) (Indent p l a')
| rw_style l a a' : rw x a a' -> rw x (Style l a) (Style l a')
| rw_concat a a' b b' : rw x a a' -> rw x b b' -> rw x (Concat a b) (Concat a' b')
| rw_choice a a' b b' : rw x a a' -> rw x b b' -> rw x (Choice a b) (Choice a' b')
| rw_check c p a a' b b' : rw x a a' -> rw x b b' -> rw x (Check c p a b) (Check c p a' b')
| rw_count a a' b b' c c' : rw x a a' -> rw x b b' -> rw x c c' -> rw x (Count a b c) (Count a' b' c')
| rw_fold f f' j j' : rw x f f' -> rw x j j' -> rw x (Fold f j) (Fold f' j').

(** The same document, with rewritten notations. *)
Definition rewritten_info (x : rdoc) (i i' : info) : Prop :=
  i_id i' = i_id i /\ i_style i' = i_style i /\ (forall l, i_lookup i' l = i_lookup i l) /\
  (forall c, i_cond i' c = i_cond i c) /\ rw x (i_note i) (i_note i').

Inductive rewritten : rdoc -> rdoc -> Prop :=
| RW_text i i' s : rewritten_info (RText i s) i i' -> rewritten (RText i s) (RText i' s)
| RW_branch i i' ks ks' : rewritten_info (RBranch i ks) i i' -> rewritten_all ks ks' ->
    rewritten (RBranch i ks) (RBranch i' ks')
with rewritten_all : list rdoc -> list rdoc -> Prop :=
| RW_nil : rewritten_all [] []
| RW_cons k k' ks ks' : rewritten k k' -> rewritten_all ks ks' -> rewritten_all (k :: ks) (k' :: ks').

End Rewriting.

End SpecRewrite.
