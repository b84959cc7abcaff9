(** Concrete cases for C76: a header, a document and a border, in other styles,
    with other labels, and with a document of another type. *)
From Verif Require Export Properties44 Properties25Ex Properties10Ex.

From Coq Require Import String.
Local Notation length := List.length.

Set Implicit Arguments.

Definition pane44 : pane nat (list nat) :=
  PStyle [50] (Vert [(Fixed 1, PStyle [51] (PFill 45%N)); (Dynamic, PDoc 0); (Proportional 1, Horz [(Fixed 2, PFill 1001%N); (Proportional 2, PDoc 7)])]).
Definition bare44 : pane nat (list nat) :=
  PStyle [] (Vert [(Fixed 1, PStyle [1; 2; 3] (PFill 45%N)); (Dynamic, PDoc 0); (Proportional 1, Horz [(Fixed 2, PFill 1001%N); (Proportional 2, PDoc 7)])]).
Definition drawn44 (p : pane nat (list nat)) st := @drawn spd (wide_env true) nat contents3 unit size3 1000 p st.

(** A style becomes its length. *)
Example C76_case_styles :
  (forall s t : list nat, length (@style_combine spd s t) = length s + length t) /\
  @drawn (@with_styles spd nat Nat.add (@length nat)) (wide_env true) nat contents3 unit size3 1000 (restyle (@length nat) pane44) 1 =
    (map (recolour (@length nat)) (fst (drawn44 pane44 [9])), snd (drawn44 pane44 [9])) /\
  snd (drawn44 pane44 [9]) = Ok tt /\
  map (screen_row (fst (drawn44 pane44 [9]))) (range 0 5) =
    [codes "------------"; codes "            "; codes "            "; codes "first       "; [1001]%N].
Proof.
  split; [intros s t; apply app_length|]. split; [|vm_compute; split; reflexivity].
  apply (@C76_styles_are_opaque spd (wide_env true) nat contents3 nat Nat.add (@length nat) unit size3 (fun s t => app_length s t) 1000 pane44 [9]).
Qed.

(** The same shape in other styles: other calls, but the same characters. *)
Example C76_case_never_move :
  restyle (fun _ => tt) bare44 = restyle (fun _ => tt) pane44 /\
  fst (drawn44 bare44 []) <> fst (drawn44 pane44 [9]) /\
  map (recolour (fun _ => tt)) (fst (drawn44 bare44 [])) = map (recolour (fun _ => tt)) (fst (drawn44 pane44 [9])).
Proof.
  split; [reflexivity|]. split.
  - intros E. apply (f_equal (hd (SetFocus (Pos 0 0)))) in E. vm_compute in E. discriminate E.
  - apply (@C76_styles_never_move spd (wide_env true) nat contents3 unit size3 pane44 bare44 [9] [] eq_refl 1000).
Qed.

(** Numbers as labels become lists. *)
Definition contents_list44 (l : list nat) := contents3 (length l).
Example C76_case_labels :
  @display_pane spd (wide_env true) (recorder (list nat) unit size3) (list nat) contents_list44 1000
    (relabel (repeat 5) pane44) [9] [] = drawn44 pane44 [9].
Proof.
  apply (@C76_labels_are_opaque spd (wide_env true) nat contents3 (recorder (list nat) unit size3) (list nat) (repeat 5) contents_list44).
  intros l. unfold contents_list44. rewrite repeat_length. reflexivity.
Qed.

(** The tree and the table of C59, in panes that correspond. *)
Definition tree_contents44 (l : nat) : option (sdoc * printing_options) :=
  match l with 0 => Some (tree0, PrintingOptions [1] FStart f32_half WFull true) | _ => None end.
Definition table_contents44 (l : nat) : option (nat * printing_options) :=
  match l with 0 => Some (0, PrintingOptions [1] FStart f32_half WFull true) | _ => None end.
Definition tree_pane44 : pane nat (list nat) := Horz [(Fixed 2, PStyle [50] (PFill 45%N)); (Proportional 1, PStyle [51; 52] (PDoc 0))].
Definition table_pane44 : pane nat nat := Horz [(Fixed 2, PStyle 1 (PFill 45%N)); (Proportional 1, PStyle 2 (PDoc 0))].
Definition tree_drawn44 := @drawn spd (wide_env true) nat tree_contents44 unit size3 1000 tree_pane44 [9].
Definition table_drawn44 := @drawn table_pd (wide_env true) nat table_contents44 unit size3 1000 table_pane44 1.

Example C76_case :
  contents_like in_table eq tree_contents44 table_contents44 /\
  pane_like in_table eq tree_pane44 table_pane44 /\
  ran_alike in_table (recorders in_table unit size3) tree_drawn44 table_drawn44.
Proof.
  assert (H1 : contents_like in_table eq tree_contents44 table_contents44).
  { intros l' l ->. destruct l; simpl; auto. }
  assert (H2 : pane_like in_table eq tree_pane44 table_pane44).
  { apply (@like_horz spd table_pd in_table nat nat eq). constructor; [split; [reflexivity|]; apply (@like_style spd table_pd in_table nat nat eq); [reflexivity|apply (@like_fill spd table_pd in_table nat nat eq)]|].
    constructor; [split; [reflexivity|]; apply (@like_style spd table_pd in_table nat nat eq); [reflexivity|apply (@like_doc spd table_pd in_table nat nat eq); reflexivity]|constructor]. }
  split; [exact H1|]. split; [exact H2|].
  apply (@C76_same_calls spd table_pd (wide_env true) in_table nat nat eq tree_contents44 table_contents44 unit size3 C59_case_alike H1
    tree_pane44 table_pane44 [9] 1 H2 eq_refl 1000).
Qed.
Example C76_case_run : snd tree_drawn44 = Ok tt /\ snd table_drawn44 = Ok tt /\
  map (screen_row (fst tree_drawn44)) (range 0 8) = map (screen_row (fst table_drawn44)) (range 0 8) /\
  nth 0 (focus_calls (fst tree_drawn44)) (Pos 0 0) = nth 0 (focus_calls (fst table_drawn44)) (Pos 9 9) /\
  screen_row (fst table_drawn44) 4 = codes "--| below?  ".
Proof. vm_compute. repeat split. Qed.
