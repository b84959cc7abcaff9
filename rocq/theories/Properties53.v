(** C14, C15 and C19 for focuses in texts. *)
From Verif Require Export Properties52 Properties5.

Set Implicit Arguments.

Section TextFocus.
Context {pd : PrettyDoc} {env : Env} {ideq : IdEq pd}.
Variables (r : rdoc) (doc : D).
Hypothesis Hrep : rep r doc.
Hypothesis Hv : valid_doc r.
Hypothesis Hu : unique_ids (id_at r).
Hypothesis Hsplit : splittable r.

(** C14.  Between an EndOfLine and a text there is a newline. *)
Theorem C14_text_focus w path n st ups fl downs :
  printed doc w path (FText n) st ups fl downs ->
  exists es, layout w (doc_shape r st) = Some es /\ cut_lines n (lines_of es) ups fl downs /\
    forall a b j t c, es = a ++ EEol :: b ++ EText j t :: c -> exists ind, In (ENewline ind) b.
Proof.
  intros Hp. destruct (from_start Hrep Hv Hu Hsplit Hp) as (fl0 & downs0 & Hp0 & Hc).
  destruct (C14_no_text_after_end_of_line Hrep Hv (eq_refl : is_text_target FStart = false) Hp0) as (es & H1 & E & H2).
  rewrite E in Hc. exists es. auto.
Qed.

(** C15.  At every newline, the next line starts with the strings of exactly the
    Indents that the Newline is inside of. *)
Theorem C15_text_focus w path n st ups fl downs :
  printed doc w path (FText n) st ups fl downs ->
  exists es, layout w (doc_shape r st) = Some es /\ cut_lines n (lines_of es) ups fl downs /\
    forall a ind b, es = a ++ ENewline ind :: b ->
    exists fs x o l ls, reach r fs x o Newline /\ path_of fs = open_path a /\
      lines_of b = l :: ls /\
      cut_lines n (lines_of a ++ (indents_from (root_style r st) fs ++ l) :: ls) ups fl downs.
Proof.
  intros Hp. destruct (from_start Hrep Hv Hu Hsplit Hp) as (fl0 & downs0 & Hp0 & Hc).
  destruct (C15_indentation Hrep Hv (eq_refl : is_text_target FStart = false) Hp0) as (es & H1 & E & H2).
  exists es. split; [exact H1|]. split; [rewrite <- E; exact Hc|].
  intros a ind b Ee. destruct (H2 a ind b Ee) as (fs & x & o & l & ls & R1 & R2 & R3 & R4).
  exists fs, x, o, l, ls. rewrite <- R4. auto.
Qed.

(** C19.  Every child displayed is displayed by a [Child] with its index, from
    the front or from the back, or (inside a Fold) by a [Right] standing for it. *)
Theorem C19_text_focus w path n st ups fl downs :
  printed doc w path (FText n) st ups fl downs ->
  exists es, layout w (doc_shape r st) = Some es /\ cut_lines n (lines_of es) ups fl downs /\
    forall a j m b, es = a ++ EEnter j m :: b ->
    exists fs x o, path_of fs = open_path a /\
      ((exists i, reach r fs x o (Child i) /\ m < length (r_kids x) /\ (Z.of_nat m = i \/ Z.of_nat m = Z.of_nat (length (r_kids x)) + i)%Z) \/
       (exists f, o = Some f /\ reach r fs x o Right /\ m = f_index f)).
Proof.
  intros Hp. destruct (from_start Hrep Hv Hu Hsplit Hp) as (fl0 & downs0 & Hp0 & Hc).
  destruct (C19_displayed_children Hrep Hv (eq_refl : is_text_target FStart = false) Hp0) as (es & H1 & E & H2).
  rewrite E in Hc. exists es. auto.
Qed.
End TextFocus.

Print Assumptions C14_text_focus.
Print Assumptions C15_text_focus.
Print Assumptions C19_text_focus.
