(** Specification of what a document's notations mean: documents as plain
    trees ([rdoc]), and the notation tree ([shape]) of a document, defined
    directly: styles and indentation are explicit contexts, [Fold] is a left
    fold over the children, [Flat] drops the second option of every choice. *)
From Verif Require Export SpecLayout SpecDoc Valid.

Set Implicit Arguments.

Section SpecElab.
Context {pd : PrettyDoc} {env : Env}.

Record info : Type := Info {
  i_id : Id; i_note : note; i_style : Sty; i_lookup : Lbl -> Sty; i_cond : Cnd -> bool }.

(** A document: every node has either a text or children. *)
Inductive rdoc : Type :=
| RText (i : info) (s : str)
| RBranch (i : info) (kids : list rdoc).

Definition r_info (r : rdoc) : info := match r with RText i _ | RBranch i _ => i end.
Definition r_kids (r : rdoc) : list rdoc := match r with RText _ _ => [] | RBranch _ ks => ks end.

(** [rep r d]: the node [d] behaves as the tree [r] says, when its methods are
    used as documented.  Nothing is said about calls outside their contract. *)
Inductive rep : rdoc -> D -> Prop :=
| RepText i s d : rep_info i d ->
    m_num_children d = MOk None -> m_unwrap_text d = MOk s ->
    rep (RText i s) d
| RepBranch i ks d : rep_info i d ->
    m_num_children d = MOk (Some (length ks)) ->
    (forall n, n < length ks -> exists x, m_unwrap_child d n = MOk x) ->
    (ks <> [] -> exists x, m_unwrap_last_child d = MOk x) ->
    (forall n y, S n < length ks -> child_handle d (S n) y -> exists x, m_unwrap_prev_sibling y d n = MOk x) ->
    (forall n x k, child_handle d n x -> nth_error ks n = Some k -> rep k x) ->
    rep (RBranch i ks) d
with rep_info : info -> D -> Prop :=
| RepInfo i d :
    m_id d = MOk (i_id i) -> m_notation d = MOk (i_note i) -> m_node_style d = MOk (i_style i) ->
    (forall l, m_lookup_style d l = MOk (i_lookup i l)) ->
    (forall c, m_condition d c = MOk (i_cond i c)) ->
    rep_info i d.

(** Every notation in the document was accepted by [validate]. *)
Inductive valid_doc : rdoc -> Prop :=
| VText i s : validate (i_note i) = Ok tt -> valid_doc (RText i s)
| VBranch i ks : validate (i_note i) = Ok tt -> (forall k, In k ks -> valid_doc k) ->
    valid_doc (RBranch i ks).

(** The node at a path. *)
Fixpoint node_at (r : rdoc) (q : list nat) : option rdoc :=
  match q with
  | [] => Some r
  | n :: q' => match nth_error (r_kids r) n with Some k => node_at k q' | None => None end
  end.

Definition id_at (r : rdoc) (q : list nat) : option Id :=
  option_map (fun x => i_id (r_info x)) (node_at r q).

(** ** The notation tree *)

(** The context in which a notation is displayed. *)
Record ctx : Type := Ctx { x_flat : bool; x_ind : list segment; x_sty : Sty }.

Definition in_flat (c : ctx) : ctx := Ctx true (x_ind c) (x_sty c).
Definition in_style (s : Sty) (c : ctx) : ctx := Ctx (x_flat c) (x_ind c) (style_combine (x_sty c) s).
Definition in_indent (prefix : str) (s : option Sty) (c : ctx) : ctx :=
  Ctx (x_flat c)
      (Segment prefix (str_width prefix)
         (match s with Some s => style_combine (x_sty c) s | None => x_sty c end) :: x_ind c)
      (x_sty c).

(** The child that an index stands for: negative indices count from the end. *)
Definition kid_number (i : Z) (n : nat) : option nat :=
  if (0 <=? i)%Z
  then (if (i <? Z.of_nat n)%Z then Some (Z.to_nat i) else None)
  else (if (- Z.of_nat n <=? i)%Z then Some (n - Z.to_nat (- i)) else None).

(** A child, with its tree in any context. *)
Record kid : Type := Kid { k_doc : rdoc; k_tree : ctx -> shape }.

Definition child (n : nat) (k : kid) (c : ctx) : shape :=
  SChild n (Ok (i_id (r_info (k_doc k)))) (k_tree k (in_style (i_style (r_info (k_doc k))) c)).

(** Inside [Fold.join]: what [Left] stands for, the child to its left, and the
    child (number [fe_index]) that [Right] stands for. *)
Record foldenv : Type := FoldEnv {
  fe_left : ctx -> shape; fe_ldoc : rdoc; fe_index : nat; fe_right : kid }.

Fixpoint fold_kids (join : foldenv -> ctx -> shape) (i : nat) (prev : kid) (ks : list kid)
    (acc : ctx -> shape) : ctx -> shape :=
  match ks with
  | [] => acc
  | k :: ks' => fold_kids join (S i) k ks' (join (FoldEnv acc (k_doc prev) (S i) k))
  end.

(** The tree of the part [n] of the notation of node [self], whose children are
    [kids]. *)
Fixpoint elab_note (self : rdoc) (kids : list kid) (n : note) (fe : option foldenv) (c : ctx) {struct n} : shape :=
  let i := r_info self in
  let branch (s : shape) (e : perr Er) : shape :=
    match self with RBranch _ _ => s | RText _ _ => SFail (FErr e) end in
  match n with
  | Empty => SEmpty
  | Newline => SNewline (x_ind c)
  | EndOfLine => SEol
  | Literal s => SText (Textual s (str_width s) (x_sty c) false)
  | Text =>
      match self with
      | RText _ s => SText (Textual s (str_width s) (x_sty c) true)
      | RBranch _ _ => SFail (FErr TextNotationOnTextlessDoc)
      end
  | Flat x => elab_note self kids x fe (in_flat c)
  | Indent prefix label x =>
      elab_note self kids x fe (in_indent prefix (option_map (i_lookup i) label) c)
  | Concat a b => SConcat (elab_note self kids a fe c) (elab_note self kids b fe c)
  | Choice a b =>
      if x_flat c then elab_note self kids a fe c
      else SChoice (elab_note self kids a fe c) (elab_note self kids b fe c)
  | Check cond pos a b =>
      let go (x : rdoc) := if i_cond (r_info x) cond then elab_note self kids a fe c else elab_note self kids b fe c in
      match pos with
      | Here => go self
      | CPChild k =>
          branch
            match kid_number k (length kids) with
            | Some m => match nth_error kids m with Some x => go (k_doc x) | None => SEmpty end
            | None => SFail (FErr (CheckPosChildIndexOutOfBounds k (length kids)))
            end
            CheckPosChildOnChildlessDoc
      | LeftChild => match fe with Some e => go (fe_ldoc e) | None => SFail (FPanic PJoinPosUnwrap) end
      | RightChild => match fe with Some e => go (k_doc (fe_right e)) | None => SFail (FPanic PJoinPosUnwrap) end
      end
  | Child k =>
      branch
        match kid_number k (length kids) with
        | Some m => match nth_error kids m with Some x => child m x c | None => SEmpty end
        | None => SFail (FErr (ChildIndexOutOfBounds k (length kids)))
        end
        ChildNotationOnChildlessDoc
  | Style l x => elab_note self kids x fe (in_style (i_lookup i l) c)
  | FocusMark => SMark
  | Count zero one many =>
      branch
        match kids with
        | [] => elab_note self kids zero fe c
        | [_] => elab_note self kids one fe c
        | _ => elab_note self kids many fe c
        end
        CountNotationOnChildlessDoc
  | Fold first join =>
      branch
        match kids with
        | [] => SEmpty
        | k :: ks =>
            fold_kids (fun e c => elab_note self kids join (Some e) c) 0 k ks
              (fun c => elab_note self kids first None c) c
        end
        NumChildrenChanged
  | Left => match fe with Some e => fe_left e c | None => SFail (FPanic PLeftOutsideFold) end
  | Right => match fe with Some e => child (fe_index e) (fe_right e) c | None => SFail (FPanic PRightOutsideFold) end
  end.

Fixpoint elab (r : rdoc) (c : ctx) : shape :=
  match r with
  | RText i _ => elab_note r [] (i_note i) None c
  | RBranch i ks => elab_note r (map (fun k => Kid k (elab k)) ks) (i_note i) None c
  end.

(** The root's context: no indentation, not flat, the root style outermost. *)
Definition root_ctx (r : rdoc) (st : option Sty) : ctx :=
  Ctx false [] (match st with Some s => style_combine s (i_style (r_info r)) | None => i_style (r_info r) end).

(** The whole document: its root's id and its notation tree. *)
Definition doc_shape (r : rdoc) (st : option Sty) : pres Id * shape :=
  (Ok (i_id (r_info r)), elab r (root_ctx r st)).

End SpecElab.
