(** C62 for open documents, the other focus targets. *)
From Verif Require Export Properties29 Properties47.

Set Implicit Arguments.

Section Visible2.
Context {pd : PrettyDoc} {env : Env} {L : Type}.
Variable get_content : L -> option (D * printing_options).
Notation width_of r := (max_col r - min_col r)%N.
Notation height_of r := (max_row r - min_row r)%N.
Variables (WE : Type) (sz : Pane.size).
Hypothesis Hwin : window_size sz.
Notation drawn_in gc := (SpecPane.drawn_in gc WE sz).
Notation displayed r p st calls := (ev (fun n => drawn_in get_content r n p st) (calls, Ok tt)).

Lemma open_pane d l opts st r k ups lft rgt downs x y :
  get_content l = Some (d, opts) -> rect_in sz r -> (0 < width_of r)%N ->
  choose_focus_line_row (X := perr Er) opts (height_of r) = Ok k -> (k < height_of r)%N ->
  above x (N.to_nat k) ups lft -> below y (N.to_nat (height_of r) - N.to_nat k - 1) rgt downs ->
  (o_set_focus opts = true -> (min_col r + total (map seg_width lft) < U16)%N) ->
  ev (fun n => SpecMask.window n d (asked_width opts (width_of r)) (o_focus_path opts) (o_focus_target opts) (Some st)
        (N.to_nat k) (N.to_nat (height_of r) - N.to_nat k - 1)) (Ok (ups, FocusedLine lft rgt, downs)) ->
  exists rows,
    shows_lines r (line_at ups (FocusedLine lft rgt) downs (N.to_nat k)) st rows /\
    displayed r (PDoc l) st
      ((if o_set_focus opts then [SetFocus (Pos (min_row r + k) (min_col r + total (map seg_width lft)))] else [])
       ++ concat rows).
Proof.
  intros Hg Hr Hw Hk Hkh H5 H6 Hf HW.
  apply (@C62_document_pane _ _ _ get_content WE sz Hwin l d opts st r k ups (FocusedLine lft rgt) downs); auto.
  unfold printed_part.
  assert (L1 : firstn (N.to_nat k) ups = ups).
  { apply firstn_all2. destruct H5 as [(u & all & _ & _ & ->)|(z & ind & u & _ & _ & E)]; [rewrite firstn_length|]; lia. }
  assert (L2 : firstn (N.to_nat (height_of r) - N.to_nat k - 1) downs = downs).
  { apply firstn_all2. destruct H6 as [(u & all & _ & _ & ->)|(z & ind & u & _ & _ & E)]; [rewrite firstn_length|]; lia. }
  rewrite L1, L2. exact HW.
Qed.

(** C62.  As C62_open_document, with the focus at the end of the node at [path]. *)
Theorem C62_open_document_at_end {ideq : IdEq pd} o d l opts st r k path ups lft rgt downs b c a :
  get_content l = Some (d, opts) -> rect_in sz r -> (0 < width_of r)%N ->
  o_focus_path opts = path -> o_focus_target opts = FEnd ->
  choose_focus_line_row (X := perr Er) opts (height_of r) = Ok k -> (k < height_of r)%N ->
  orep o d -> ovalid o -> ounique o ->
  leads (oid_at o) [] (open_layout (asked_width opts (width_of r)) o (Some st)) path b c a ->
  above (b ++ c) (N.to_nat k) ups lft -> below a (N.to_nat (height_of r) - N.to_nat k - 1) rgt downs ->
  (o_set_focus opts = true -> (min_col r + total (map seg_width lft) < U16)%N) ->
  exists rows,
    shows_lines r (line_at ups (FocusedLine lft rgt) downs (N.to_nat k)) st rows /\
    displayed r (PDoc l) st
      ((if o_set_focus opts then [SetFocus (Pos (min_row r + k) (min_col r + total (map seg_width lft)))] else [])
       ++ concat rows).
Proof.
  intros. eapply open_pane with (d := d) (ups := ups) (rgt := rgt) (downs := downs); eauto.
  subst path. match goal with E : o_focus_target _ = _ |- _ => rewrite E end. eapply C57_window_at_end; eauto.
Qed.

(** At its first focus mark: [mid] is what is laid out before it. *)
Theorem C62_open_document_at_mark {ideq : IdEq pd} o d l opts st r k path ups lft rgt downs b c a j mid rest :
  get_content l = Some (d, opts) -> rect_in sz r -> (0 < width_of r)%N ->
  o_focus_path opts = path -> o_focus_target opts = FMark ->
  choose_focus_line_row (X := perr Er) opts (height_of r) = Ok k -> (k < height_of r)%N ->
  orep o d -> ovalid o -> ounique o ->
  leads (oid_at o) [] (open_layout (asked_width opts (width_of r)) o (Some st)) path b c a ->
  oid_at o path = Some j -> c ++ a = map Ev mid ++ Ev (EMark j) :: rest -> ~ In (EMark j) mid ->
  above (b ++ map Ev mid ++ [Ev (EMark j)]) (N.to_nat k) ups lft -> below rest (N.to_nat (height_of r) - N.to_nat k - 1) rgt downs ->
  (o_set_focus opts = true -> (min_col r + total (map seg_width lft) < U16)%N) ->
  exists rows,
    shows_lines r (line_at ups (FocusedLine lft rgt) downs (N.to_nat k)) st rows /\
    displayed r (PDoc l) st
      ((if o_set_focus opts then [SetFocus (Pos (min_row r + k) (min_col r + total (map seg_width lft)))] else [])
       ++ concat rows).
Proof.
  intros. eapply open_pane with (d := d) (ups := ups) (rgt := rgt) (downs := downs); eauto.
  subst path. match goal with E : o_focus_target _ = _ |- _ => rewrite E end. eapply C57_window_at_mark; eauto.
Qed.

(** At a character of the first text. *)
Theorem C62_open_document_in_text {ideq : IdEq pd} o d l opts st r k path ups lft rgt downs b c a pos j t mid rest :
  get_content l = Some (d, opts) -> rect_in sz r -> (0 < width_of r)%N ->
  o_focus_path opts = path -> o_focus_target opts = FText pos ->
  choose_focus_line_row (X := perr Er) opts (height_of r) = Ok k -> (k < height_of r)%N ->
  orep o d -> ovalid o -> ounique o ->
  leads (oid_at o) [] (open_layout (asked_width opts (width_of r)) o (Some st)) path b c a ->
  c ++ a = map Ev mid ++ Ev (EText j t) :: rest ->
  (forall j' t', In (EText j' t') mid -> tx_from_text t' = false) -> tx_from_text t = true ->
  (str_width (firstn pos (tx_str t)) + str_width (skipn pos (tx_str t)) = tx_width t)%N ->
  above (b ++ map Ev mid ++ [Ev (EText j (fst (split_at t pos)))]) (N.to_nat k) ups lft -> below (Ev (EText j (snd (split_at t pos))) :: rest) (N.to_nat (height_of r) - N.to_nat k - 1) rgt downs ->
  (o_set_focus opts = true -> (min_col r + total (map seg_width lft) < U16)%N) ->
  exists rows,
    shows_lines r (line_at ups (FocusedLine lft rgt) downs (N.to_nat k)) st rows /\
    displayed r (PDoc l) st
      ((if o_set_focus opts then [SetFocus (Pos (min_row r + k) (min_col r + total (map seg_width lft)))] else [])
       ++ concat rows).
Proof.
  intros. eapply open_pane with (d := d) (ups := ups) (rgt := rgt) (downs := downs); eauto.
  subst path. match goal with E : o_focus_target _ = _ |- _ => rewrite E end. eapply C57_window_in_text; eauto.
Qed.

End Visible2.
