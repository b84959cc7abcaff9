(** Which notations of a document are inside which others.

    [reach root fs x o n]: going down from the root of the document, through
    notations and into children, one gets to the part [n] of the notation of
    node [x].  [fs] lists, outermost first, what was entered on the way: nodes,
    [Style], [Indent] and [Flat] notations.  [o] is only used inside [Fold]. *)
From Verif Require Export SpecElab.

Set Implicit Arguments.

Section SpecSpine.
Context {pd : PrettyDoc} {env : Env}.

Inductive frame : Type :=
| InNode (n : nat) (k : rdoc)                          (* child number [n], which is [k] *)
| InStyle (x : rdoc) (l : Lbl)                         (* Style(l, _) in the notation of [x] *)
| InIndent (x : rdoc) (prefix : str) (l : option Lbl)  (* Indent(prefix, l, _) in the notation of [x] *)
| InFlat.                                              (* Flat(_) *)

(** Inside [Fold{first, join}]: [f_index] is the number of the child that [Right]
    stands for; [Left] stands for the fold of the children before it. *)
Record folding : Type := Folding { f_index : nat; f_first : note; f_join : note }.

(** The node inspected by a Check. *)
Definition inspected (x : rdoc) (o : option folding) (pos : checkpos) : option rdoc :=
  match pos with
  | Here => Some x
  | CPChild i => match kid_number i (length (r_kids x)) with
                 | Some m => nth_error (r_kids x) m
                 | None => None
                 end
  | LeftChild => match o with Some f => nth_error (r_kids x) (f_index f - 1) | None => None end
  | RightChild => match o with Some f => nth_error (r_kids x) (f_index f) | None => None end
  end.

Inductive reach (root : rdoc) : list frame -> rdoc -> option folding -> note -> Prop :=
| r_root : reach root [] root None (i_note (r_info root))
| r_concat1 fs x o a b : reach root fs x o (Concat a b) -> reach root fs x o a
| r_concat2 fs x o a b : reach root fs x o (Concat a b) -> reach root fs x o b
| r_choice1 fs x o a b : reach root fs x o (Choice a b) -> reach root fs x o a
| r_choice2 fs x o a b : reach root fs x o (Choice a b) -> ~ In InFlat fs -> reach root fs x o b
| r_check1 fs x o c pos a b y : reach root fs x o (Check c pos a b) ->
    inspected x o pos = Some y -> i_cond (r_info y) c = true -> reach root fs x o a
| r_check2 fs x o c pos a b y : reach root fs x o (Check c pos a b) ->
    inspected x o pos = Some y -> i_cond (r_info y) c = false -> reach root fs x o b
| r_flat fs x o a : reach root fs x o (Flat a) -> reach root (fs ++ [InFlat]) x o a
| r_style fs x o l a : reach root fs x o (Style l a) -> reach root (fs ++ [InStyle x l]) x o a
| r_indent fs x o p l a : reach root fs x o (Indent p l a) -> reach root (fs ++ [InIndent x p l]) x o a
| r_zero fs x o a b c : reach root fs x o (Count a b c) -> length (r_kids x) = 0 -> reach root fs x o a
| r_one fs x o a b c : reach root fs x o (Count a b c) -> length (r_kids x) = 1 -> reach root fs x o b
| r_many fs x o a b c : reach root fs x o (Count a b c) -> 2 <= length (r_kids x) -> reach root fs x o c
| r_child fs x o i m k : reach root fs x o (Child i) ->
    kid_number i (length (r_kids x)) = Some m -> nth_error (r_kids x) m = Some k ->
    reach root (fs ++ [InNode m k]) k None (i_note (r_info k))
| r_fold1 fs x o f j : reach root fs x o (Fold f j) -> length (r_kids x) = 1 -> reach root fs x None f
| r_foldn fs x o f j n : reach root fs x o (Fold f j) -> length (r_kids x) = S (S n) ->
    reach root fs x (Some (Folding (S n) f j)) j
| r_left1 fs x f : reach root fs x (Some f) Left -> f_index f = 1 -> reach root fs x None (f_first f)
| r_left fs x f n : reach root fs x (Some f) Left -> f_index f = S (S n) ->
    reach root fs x (Some (Folding (S n) (f_first f) (f_join f))) (f_join f)
| r_right fs x f k : reach root fs x (Some f) Right -> nth_error (r_kids x) (f_index f) = Some k ->
    reach root (fs ++ [InNode (f_index f) k]) k None (i_note (r_info k)).

(** The error that displaying part [n] of the notation of node [x] leads to when
    the notation does not match the node. *)
Definition mismatch (x : rdoc) (n : note) : option (perr Er) :=
  match x, n with
  | RBranch _ _, Text => Some TextNotationOnTextlessDoc
  | RText _ _, Child _ => Some ChildNotationOnChildlessDoc
  | RBranch _ ks, Child i =>
      match kid_number i (length ks) with
      | Some _ => None
      | None => Some (ChildIndexOutOfBounds i (length ks))
      end
  | RText _ _, Check _ (CPChild _) _ _ => Some CheckPosChildOnChildlessDoc
  | RBranch _ ks, Check _ (CPChild i) _ _ =>
      match kid_number i (length ks) with
      | Some _ => None
      | None => Some (CheckPosChildIndexOutOfBounds i (length ks))
      end
  | RText _ _, Count _ _ _ => Some CountNotationOnChildlessDoc
  | RText _ _, Fold _ _ => Some NumChildrenChanged
  | _, _ => None
  end.

(** No notation of the document (whatever options are chosen) is at odds with
    the node it belongs to. *)
Definition matched (root : rdoc) : Prop :=
  forall fs x o n, reach root fs x o n -> mismatch x n = None.

(** The path of the node. *)
Fixpoint path_of (fs : list frame) : list nat :=
  match fs with
  | [] => []
  | InNode n _ :: fs' => n :: path_of fs'
  | _ :: fs' => path_of fs'
  end.

(** The styles applied on the way, combined from the outside in, starting from
    style [s]. *)
Fixpoint style_from (s : Sty) (fs : list frame) : Sty :=
  match fs with
  | [] => s
  | InNode _ k :: fs' => style_from (style_combine s (i_style (r_info k))) fs'
  | InStyle x l :: fs' => style_from (style_combine s (i_lookup (r_info x) l)) fs'
  | _ :: fs' => style_from s fs'
  end.

(** The indentation strings on the way, outermost first, each with the styles
    applied to it. *)
Fixpoint indents_from (s : Sty) (fs : list frame) : list segment :=
  match fs with
  | [] => []
  | InIndent x p l :: fs' =>
      Segment p (str_width p) (match l with Some l => style_combine s (i_lookup (r_info x) l) | None => s end)
      :: indents_from s fs'
  | InNode _ k :: fs' => indents_from (style_combine s (i_style (r_info k))) fs'
  | InStyle x l :: fs' => indents_from (style_combine s (i_lookup (r_info x) l)) fs'
  | InFlat :: fs' => indents_from s fs'
  end.

(** The style of the root node, with the root style (if given) outermost. *)
Definition root_style (root : rdoc) (st : option Sty) : Sty :=
  match st with
  | Some s => style_combine s (i_style (r_info root))
  | None => i_style (r_info root)
  end.

End SpecSpine.
