(** C57, the other two focus targets: a focus mark, and a position in a text. *)
From Verif Require Export PPeek12 PPeek14 Properties23.

Set Implicit Arguments.

Section Peephole2.
Context {pd : PrettyDoc} {env : Env} {ideq : IdEq pd}.

(** C57.  As C57_window_at_start, with the focus at the focus mark of the node at
    [path].  [b ++ c ++ a] is the partial layout of the open nodes and [c] the part
    of the focused node.  The first mark of this node, [j], is known, and so is
    everything from the start of the node to the mark ([mid]).  If the [ku] lines
    above the mark and the [kd] lines below it are known, they are printed: no
    closed node can prevent it. *)
Theorem C57_window_at_mark o d w st path j ku kd ups downs l r b c a mid rest :
  orep o d -> ovalid o -> ounique o ->
  leads (oid_at o) [] (open_layout w o st) path b c a -> oid_at o path = Some j ->
  c ++ a = map Ev mid ++ Ev (EMark j) :: rest -> ~ In (EMark j) mid ->
  above (b ++ map Ev mid ++ [Ev (EMark j)]) ku ups l -> below rest kd r downs ->
  ev (fun n => window n d w path FMark st ku kd) (Ok (ups, FocusedLine l r, downs)).
Proof. intros. eapply open_window_mark; eauto. Qed.

(** The same with the focus at the [k]-th character of the first text from the
    start of the node at [path] on.  [t] is the text; it is known, and what is
    before it.  (Its two halves have to be as wide as the text: see C78.) *)
Theorem C57_window_in_text o d w st path k ku kd ups downs l r b c a mid j t rest :
  orep o d -> ovalid o -> ounique o ->
  leads (oid_at o) [] (open_layout w o st) path b c a ->
  c ++ a = map Ev mid ++ Ev (EText j t) :: rest ->
  (forall j' t', In (EText j' t') mid -> tx_from_text t' = false) -> tx_from_text t = true ->
  (str_width (firstn k (tx_str t)) + str_width (skipn k (tx_str t)) = tx_width t)%N ->
  above (b ++ map Ev mid ++ [Ev (EText j (fst (split_at t k)))]) ku ups l ->
  below (Ev (EText j (snd (split_at t k))) :: rest) kd r downs ->
  ev (fun n => window n d w path (FText k) st ku kd) (Ok (ups, FocusedLine l r, downs)).
Proof.
  intros H1 H2 H3 H4 H5 H6 H7 H8 H9 H10. eapply open_window_text; eauto.
  destruct (existsb tftext mid) eqn:E; auto. apply existsb_exists in E as (e & Hin & He).
  destruct e; try discriminate. simpl in He. rewrite (H6 _ _ Hin) in He. discriminate.
Qed.

(** These lines are consecutive lines of every document with these nodes open. *)
Theorem C57_known_lines_at_mark o f w st path ku kd ups downs l r b c a es mid j rest :
  closes o f -> layout w (doc_shape f st) = Some es ->
  leads (oid_at o) [] (open_layout w o st) path b c a ->
  c ++ a = map Ev mid ++ Ev (EMark j) :: rest ->
  above (b ++ map Ev mid ++ [Ev (EMark j)]) ku ups l -> below rest kd r downs ->
  exists all_ups all_downs, lines_of es = rev all_ups ++ (l ++ r) :: all_downs /\
    ups = firstn ku all_ups /\ downs = firstn kd all_downs.
Proof.
  intros Hc Hes Hl E Ha Hb.
  pose proof (closes_layout w st Hc Hes) as Hf. rewrite (leads_split Hl), E in Hf.
  assert (Hf' : fills ((b ++ map Ev mid ++ [Ev (EMark j)]) ++ rest) es).
  { rewrite <- !app_assoc. exact Hf. }
  apply fills_split in Hf' as (e1 & e2 & -> & F1 & F2).
  destruct (above_full Ha F1) as (all & H1 & ->). destruct (below_full Hb F2) as (all' & H2 & ->).
  exists all, all'. split; auto. apply lines_join; auto.
Qed.

Theorem C57_known_lines_in_text o f w st path k ku kd ups downs l r b c a es mid j t rest :
  closes o f -> layout w (doc_shape f st) = Some es ->
  leads (oid_at o) [] (open_layout w o st) path b c a ->
  c ++ a = map Ev mid ++ Ev (EText j t) :: rest ->
  above (b ++ map Ev mid ++ [Ev (EText j (fst (split_at t k)))]) ku ups l ->
  below (Ev (EText j (snd (split_at t k))) :: rest) kd r downs ->
  exists all_ups all_downs before after,
    lines_of es = rev all_ups ++ (before ++ text_seg t :: after) :: all_downs /\
    l = before ++ [text_seg (fst (split_at t k))] /\ r = text_seg (snd (split_at t k)) :: after /\
    ups = firstn ku all_ups /\ downs = firstn kd all_downs.
Proof.
  intros Hc Hes Hl E Ha Hb.
  pose proof (closes_layout w st Hc Hes) as Hf. rewrite (leads_split Hl), E in Hf.
  rewrite app_assoc in Hf. apply fills_split in Hf as (e1 & e2 & -> & F1 & F2).
  change (Ev (EText j t) :: rest) with (map Ev [EText j t] ++ rest) in F2.
  apply fills_split in F2 as (e3 & e4 & -> & F3 & F4). apply fills_ev in F3. subst e3.
  assert (G1 : fills (b ++ map Ev mid ++ [Ev (EText j (fst (split_at t k)))]) (e1 ++ [EText j (fst (split_at t k))])).
  { rewrite app_assoc. apply fills_app; auto. apply fi_ev, fi_nil. }
  assert (G2 : fills (Ev (EText j (snd (split_at t k))) :: rest) (EText j (snd (split_at t k)) :: e4)).
  { change (Ev (EText j (snd (split_at t k))) :: rest) with (map Ev [EText j (snd (split_at t k))] ++ rest).
    change (EText j (snd (split_at t k)) :: e4) with ([EText j (snd (split_at t k))] ++ e4).
    apply fills_app; auto. apply fi_ev, fi_nil. }
  destruct (above_full Ha G1) as (all & L1 & ->). destruct (below_full Hb G2) as (all' & L2 & ->).
  destruct (lines_app e1 [EText j (fst (split_at t k))] []) as (l' & ls & A1 & A2).
  unfold lines_of in L1. rewrite A2 in L1. simpl in L1. apply app_inj_tail in L1 as [-> L1].
  simpl in L2. destruct (lines_cur e4 [text_seg (snd (split_at t k))]) as (x & ls & B1 & B2).
  cbn [app text_seg tx_str tx_width tx_style split_at snd] in B2. rewrite B2 in L2. injection L2 as L2 ->.
  exists all, all', l', x.
  split.
  - apply (@Verif.PWhole.lines_join _ e1 (EText j t :: e4) all l' (text_seg t :: x) all'); [exact A1|].
    cbn. destruct (lines_cur e4 [text_seg t]) as (x' & ls' & C1 & C2). rewrite B1 in C1. injection C1 as <- <-. exact C2.
  - repeat (split; [solve [eauto]|]). auto.
Qed.

(** Vertical lists (C57_list_at_start), with the focus at the mark of the item
    [r]: [before] is what is laid out in front of its first mark, [after] what
    follows it. *)
Theorem C57_list_at_mark i A B r C E d w st esB es esC before after init left right rest ku kd :
  i_note i = Fold (Child 0) (n_xor Left Right) ->
  let o := OBranch i (A ++ map whole (B ++ r :: C) ++ E) in
  orep o d -> ovalid o -> ounique o ->
  let laid_out x es := layout w (doc_shape x (Some (root_style i st))) = Some es in
  Forall2 laid_out B esB -> laid_out r es -> Forall2 laid_out C esC ->
  let mark := EMark (i_id (r_info r)) in
  es = before ++ mark :: after -> ~ In mark before ->
  lines_of before = init ++ [left] -> lines_of after = right :: rest ->
  let above_lines := concat (map lines_of esB) ++ init in
  let below_lines := rest ++ concat (map lines_of esC) in
  A = [] \/ ku <= length above_lines -> E = [] \/ kd <= length below_lines ->
  ev (fun n => window n d w [length A + length B] FMark st ku kd)
    (Ok (firstn ku (rev above_lines), FocusedLine left right, firstn kd below_lines)).
Proof. cbv zeta. intros. eapply vlist_mark; eauto. Qed.

(** The same with the focus at the [k]-th character of the first text of the item. *)
Theorem C57_list_in_text i A B r C E d w st esB es esC before j t after init left right rest k ku kd :
  i_note i = Fold (Child 0) (n_xor Left Right) ->
  let o := OBranch i (A ++ map whole (B ++ r :: C) ++ E) in
  orep o d -> ovalid o -> ounique o ->
  let laid_out x es := layout w (doc_shape x (Some (root_style i st))) = Some es in
  Forall2 laid_out B esB -> laid_out r es -> Forall2 laid_out C esC ->
  es = before ++ EText j t :: after ->
  (forall j' t', In (EText j' t') before -> tx_from_text t' = false) -> tx_from_text t = true ->
  (str_width (firstn k (tx_str t)) + str_width (skipn k (tx_str t)) = tx_width t)%N ->
  let halves := split_at t k in
  lines_of (before ++ [EText j (fst halves)]) = init ++ [left] ->
  lines_of (EText j (snd halves) :: after) = right :: rest ->
  let above_lines := concat (map lines_of esB) ++ init in
  let below_lines := rest ++ concat (map lines_of esC) in
  A = [] \/ ku <= length above_lines -> E = [] \/ kd <= length below_lines ->
  ev (fun n => window n d w [length A + length B] (FText k) st ku kd)
    (Ok (firstn ku (rev above_lines), FocusedLine left right, firstn kd below_lines)).
Proof.
  cbv zeta. intros H1 H2 H3 H4 H5 H6 H7 H8 H9 H10 H11 H12 H13 H14 H15.
  eapply vlist_text; eauto.
  destruct (existsb tftext before) eqn:Ex; auto. apply existsb_exists in Ex as (e & Hin & He).
  destruct e; try discriminate. simpl in He. rewrite (H9 _ _ Hin) in He. discriminate.
Qed.

End Peephole2.
