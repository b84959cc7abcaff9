(** C57: to show a part of a document, only that part has to be there. *)
From Verif Require Export PPeek12 SpecMask.

Set Implicit Arguments.

Section Peephole.
Context {pd : PrettyDoc} {env : Env} {ideq : IdEq pd}.

(** C57.  Let some nodes of a document be closed: nothing is promised about them
    except that they tell their notation, style and conditions.  If, in the
    partial layout of the open nodes, the focused node can be found, and the
    [ku] lines above the focus and the [kd] lines below it are known, then these
    lines are printed: no closed node can prevent it, or change them.

    [b ++ c ++ a] is the partial layout, and [c] the part of the focused node. *)
Theorem C57_window_at_start o d w st path ku kd ups downs l r b c a :
  orep o d -> ovalid o -> ounique o ->
  leads (oid_at o) [] (open_layout w o st) path b c a ->
  above b ku ups l -> below (c ++ a) kd r downs ->
  ev (fun n => window n d w path FStart st ku kd) (Ok (ups, FocusedLine l r, downs)).
Proof. intros H1 H2 H3 H4 H5 H6. eapply open_window; eauto. Qed.

Theorem C57_window_at_end o d w st path ku kd ups downs l r b c a :
  orep o d -> ovalid o -> ounique o ->
  leads (oid_at o) [] (open_layout w o st) path b c a ->
  above (b ++ c) ku ups l -> below a kd r downs ->
  ev (fun n => window n d w path FEnd st ku kd) (Ok (ups, FocusedLine l r, downs)).
Proof. intros H1 H2 H3 H4 H5 H6. eapply open_window; eauto. Qed.

(** The partial layout is the layout with gaps, whatever the closed nodes
    contain, and without closed nodes it is the layout. *)
Theorem C57_partial_layout_sound w o r st es :
  closes o r -> layout w (doc_shape r st) = Some es -> fills (open_layout w o st) es.
Proof. apply closes_layout. Qed.

Theorem C57_partial_layout_complete w r st es :
  layout w (doc_shape r st) = Some es -> open_layout w (whole r) st = map Ev es.
Proof. apply whole_layout. Qed.

(** So the lines that are known are consecutive lines of the full layout of
    every document [f] that has these nodes open, [l ++ r] being the line with
    the focus. *)
Theorem C57_known_lines_are_the_lines o f w st path ku kd ups downs l r b c a es :
  closes o f -> layout w (doc_shape f st) = Some es ->
  leads (oid_at o) [] (open_layout w o st) path b c a ->
  above b ku ups l /\ below (c ++ a) kd r downs \/ above (b ++ c) ku ups l /\ below a kd r downs ->
  exists all_ups all_downs, lines_of es = rev all_ups ++ (l ++ r) :: all_downs /\
    ups = firstn ku all_ups /\ downs = firstn kd all_downs.
Proof.
  intros Hc Hes Hl H.
  pose proof (closes_layout w st Hc Hes) as Hf. rewrite (leads_split Hl) in Hf.
  assert (Hx : exists x y, fills (x ++ y) es /\ above x ku ups l /\ below y kd r downs).
  { destruct H as [[H1 H2]|[H1 H2]]; [exists b, (c ++ a)|exists (b ++ c), a]; repeat split; auto.
    rewrite <- app_assoc. exact Hf. }
  destruct Hx as (x & y & Hxy & Ha & Hb). apply fills_split in Hxy as (e1 & e2 & -> & F1 & F2).
  destruct (above_full Ha F1) as (all & H1 & ->). destruct (below_full Hb F2) as (all' & H2 & ->).
  exists all, all'. split; auto. apply lines_join; auto.
Qed.

(** Vertical lists, [Fold { first: Child(0), join: Left ^ Right }].  The items
    before [A] and after [E] may be closed; the items [B], [r] and [C] between
    them are well-behaved.  The focus is at the start of [r].  If the lines that
    are asked for are lines of [B], [r] and [C], they are printed. *)
Theorem C57_list_at_start i A B r C E d w st esB es esC first rest ku kd :
  i_note i = Fold (Child 0) (n_xor Left Right) ->
  let o := OBranch i (A ++ map whole (B ++ r :: C) ++ E) in
  orep o d -> ovalid o -> ounique o ->
  let laid_out x es := layout w (doc_shape x (Some (root_style i st))) = Some es in
  Forall2 laid_out B esB -> laid_out r es -> Forall2 laid_out C esC ->
  let above_lines := concat (map lines_of esB) in
  let below_lines := rest ++ concat (map lines_of esC) in
  lines_of es = first :: rest ->
  A = [] \/ ku <= length above_lines -> E = [] \/ kd <= length below_lines ->
  ev (fun n => window n d w [length A + length B] FStart st ku kd)
    (Ok (firstn ku (rev above_lines), FocusedLine [] first, firstn kd below_lines)).
Proof. cbv zeta. intros. eapply vlist_start; eauto. Qed.

Theorem C57_list_at_end i A B r C E d w st esB es esC init last ku kd :
  i_note i = Fold (Child 0) (n_xor Left Right) ->
  let o := OBranch i (A ++ map whole (B ++ r :: C) ++ E) in
  orep o d -> ovalid o -> ounique o ->
  let laid_out x es := layout w (doc_shape x (Some (root_style i st))) = Some es in
  Forall2 laid_out B esB -> laid_out r es -> Forall2 laid_out C esC ->
  let above_lines := concat (map lines_of esB) ++ init in
  let below_lines := concat (map lines_of esC) in
  lines_of es = init ++ [last] ->
  A = [] \/ ku <= length above_lines -> E = [] \/ kd <= length below_lines ->
  ev (fun n => window n d w [length A + length B] FEnd st ku kd)
    (Ok (firstn ku (rev above_lines), FocusedLine last [], firstn kd below_lines)).
Proof. cbv zeta. intros. eapply vlist_end; eauto. Qed.

End Peephole.
