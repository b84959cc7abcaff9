(** Vocabulary for Tree, BasicStyle and the default methods of PrettyDoc (C39,
    C41, C46). *)
From Verif Require Export TreeDoc SpecElab.
From Coq Require Import Permutation.

Set Implicit Arguments.

(** ** Colors and their names *)
Section Names.
Import String.
Definition color_name (c : color) : string :=
  match c with
  | White => "white" | Black => "black" | Red => "red" | Green => "green"
  | Yellow => "yellow" | Blue => "blue" | Magenta => "magenta" | Cyan => "cyan"
  end%string.
Definition bold_name (c : color) : string := ("bold_" ++ color_name c)%string.
End Names.

Section Trees.
Context {ts : TreeStyle}.

(** The ids of all the nodes of a tree. *)
Fixpoint tree_ids (t : tree) : list N :=
  t_id (t_fields t) :: match t with TreeText _ _ => [] | TreeKids _ ks => flat_map tree_ids ks end.

(** A program that creates trees in one thread: [tree_history checks n counter pool]:
    after creating [n] nodes since the counter was 0, the counter is [counter]
    and the trees that the program owns are [pool].  Trees are moved, not
    cloned, and the counter is not reset. *)
Inductive tree_history (checks : bool) : N -> N -> list tree -> Prop :=
| h_start : tree_history checks 0 0 []
| h_text n c pool note s t c' :
    tree_history checks n c pool -> tree_new_text checks note s c = Ok (t, c') ->
    tree_history checks (n + 1) c' (t :: pool)
| h_branch n c pool note children t c' :
    tree_history checks n c (children ++ pool) -> tree_new_branch checks note children c = Ok (t, c') ->
    tree_history checks (n + 1) c' (t :: pool)
| h_comment n c t pool : tree_history checks n c (t :: pool) -> tree_history checks n c (tree_into_comment t :: pool)
| h_style n c t pool s : tree_history checks n c (t :: pool) -> tree_history checks n c (tree_with_style s t :: pool)
| h_override n c t pool l s : tree_history checks n c (t :: pool) -> tree_history checks n c (tree_with_override l s t :: pool)
| h_drop n c t pool : tree_history checks n c (t :: pool) -> tree_history checks n c pool
| h_take_apart n c f ks pool : tree_history checks n c (TreeKids f ks :: pool) -> tree_history checks n c (ks ++ pool)
| h_reorder n c pool pool' : tree_history checks n c pool -> Permutation pool pool' -> tree_history checks n c pool'.

(** A tree with another [needs_separator] flag. *)
Definition with_separator (flag : bool) (t : tree) : tree :=
  t_with (fun f => TreeFields (t_id f) (t_notation f) (t_node_style f) (t_style_overrides f) (t_is_comment f) flag) t.

(** Child [i] is not a comment, and some later child is not one either. *)
Definition followed (children : list tree) (i : nat) : Prop :=
  exists j child other, i < j /\ nth_error children i = Some child /\ t_is_comment (t_fields child) = false /\
    nth_error children j = Some other /\ t_is_comment (t_fields other) = false.

(** The tree, as a plain tree (SpecElab). *)
Definition tree_info (t : tree) : @info tree_doc :=
  @Info tree_doc (t_id (t_fields t)) (t_notation (t_fields t)) (t_node_style (t_fields t)) (tree_lookup_style t) (tree_cond t).
Fixpoint tree_rdoc (t : tree) : @rdoc tree_doc :=
  match t with
  | TreeText _ s => @RText tree_doc (tree_info t) s
  | TreeKids _ ks => @RBranch tree_doc (tree_info t) (map tree_rdoc ks)
  end.

End Trees.
