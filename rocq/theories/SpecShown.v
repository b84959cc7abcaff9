(** Notations that are displayed whatever options the choices take. *)
From Verif Require Export SpecSpine.

Set Implicit Arguments.

Section SpecShown.
Context {pd : PrettyDoc} {env : Env}.

(** [shown root fs x o n]: like [reach] (SpecSpine), but never going into an
    option of a Choice, except the first option of a Choice inside a Flat. *)
Inductive shown (root : rdoc) : list frame -> rdoc -> option folding -> note -> Prop :=
| s_root : shown root [] root None (i_note (r_info root))
| s_concat1 fs x o a b : shown root fs x o (Concat a b) -> shown root fs x o a
| s_concat2 fs x o a b : shown root fs x o (Concat a b) -> shown root fs x o b
| s_choice1 fs x o a b : shown root fs x o (Choice a b) -> In InFlat fs -> shown root fs x o a
| s_check1 fs x o c pos a b y : shown root fs x o (Check c pos a b) ->
    inspected x o pos = Some y -> i_cond (r_info y) c = true -> shown root fs x o a
| s_check2 fs x o c pos a b y : shown root fs x o (Check c pos a b) ->
    inspected x o pos = Some y -> i_cond (r_info y) c = false -> shown root fs x o b
| s_flat fs x o a : shown root fs x o (Flat a) -> shown root (fs ++ [InFlat]) x o a
| s_style fs x o l a : shown root fs x o (Style l a) -> shown root (fs ++ [InStyle x l]) x o a
| s_indent fs x o p l a : shown root fs x o (Indent p l a) -> shown root (fs ++ [InIndent x p l]) x o a
| s_zero fs x o a b c : shown root fs x o (Count a b c) -> (exists i, x = RBranch i []) -> shown root fs x o a
| s_one fs x o a b c : shown root fs x o (Count a b c) -> length (r_kids x) = 1 -> shown root fs x o b
| s_many fs x o a b c : shown root fs x o (Count a b c) -> 2 <= length (r_kids x) -> shown root fs x o c
| s_child fs x o i m k : shown root fs x o (Child i) ->
    kid_number i (length (r_kids x)) = Some m -> nth_error (r_kids x) m = Some k ->
    shown root (fs ++ [InNode m k]) k None (i_note (r_info k))
| s_fold1 fs x o f j : shown root fs x o (Fold f j) -> length (r_kids x) = 1 -> shown root fs x None f
| s_foldn fs x o f j n : shown root fs x o (Fold f j) -> length (r_kids x) = S (S n) ->
    shown root fs x (Some (Folding (S n) f j)) j
| s_left1 fs x f : shown root fs x (Some f) Left -> f_index f = 1 -> shown root fs x None (f_first f)
| s_left fs x f n : shown root fs x (Some f) Left -> f_index f = S (S n) ->
    shown root fs x (Some (Folding (S n) (f_first f) (f_join f))) (f_join f)
| s_right fs x f k : shown root fs x (Some f) Right -> nth_error (r_kids x) (f_index f) = Some k ->
    shown root (fs ++ [InNode (f_index f) k]) k None (i_note (r_info k)).

End SpecShown.
