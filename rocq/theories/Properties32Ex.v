(** Concrete cases for C65. *)
From Verif Require Export Properties32 Properties11Ex.
From Coq Require Import String.

Set Implicit Arguments.

(** The same document twice: the whole of it, and from its second line on. *)
Definition top_focus (path : list nat) : printing_options := PrintingOptions path FStart f32_zero WFull true.
Definition contents65 (l : nat) : option (sdoc * printing_options) :=
  match l with 0 => Some (doc3, top_focus []) | 1 => Some (doc3, top_focus [0]) | 2 => Some (doc3, PrintingOptions [] FStart f32_one WFull false) | _ => None end.

Lemma run_whole K (doc : sdoc) w path ft st up fl down ups downs :
  (forall m, @pretty_print spd (wide_env true) (K + m) doc w path ft st = Ok (up, fl, down)) ->
  (forall m, collect (K + m) (@up_next spd (wide_env true) (K + m)) up = Ok ups) ->
  (forall m, collect (K + m) (@down_next spd (wide_env true) (K + m)) down = Ok downs) ->
  @printed spd (wide_env true) doc w path ft st ups fl downs.
Proof.
  intros H1 H2 H3. exists up, down.
  split; [|split]; exists K; intros n Hn; replace n with (K + (n - K)) by lia; auto.
Qed.
Lemma whole65 (w : N) (st : option (list nat)) : @printed spd (wide_env true) doc3 w [] FStart st []
  {| left_segments := []; right_segments := [seg (codes "first") 5 (match st with Some s => s ++ [107] | None => [107] end)] |}
  [[seg (codes "> ") 2 (match st with Some s => s ++ [107] | None => [107] end); seg ([97; 1000; 98]%N) 4 ((match st with Some s => s ++ [107] | None => [107] end) ++ [108])];
   [seg (codes "a longer line") 13 (match st with Some s => s ++ [107] | None => [107] end)]].
Proof.
  destruct st as [s|].
  - eapply (@run_whole 200); intros m.
    + vm_compute. reflexivity.
    + vm_compute. reflexivity.
    + vm_compute. reflexivity.
  - eapply (@run_whole 200); intros m.
    + vm_compute. reflexivity.
    + vm_compute. reflexivity.
    + vm_compute. reflexivity.
Qed.
Lemma tail65 w st : @printed_in spd (wide_env true) doc3 (top_focus [0]) w st
  [[seg (codes "first") 5 (st ++ [107])]]
  {| left_segments := [seg (codes "> ") 2 (st ++ [107])]; right_segments := [seg ([97; 1000; 98]%N) 4 ((st ++ [107]) ++ [108])] |}
  [[seg (codes "a longer line") 13 (st ++ [107])]].
Proof.
  eapply (@run_printed 200 doc3 (top_focus [0]) w st); intros m.
  - vm_compute. reflexivity.
  - vm_compute. reflexivity.
  - vm_compute. reflexivity.
Qed.

(** Wide enough: no line is cut off. *)
Example C65_case_string :
  ev (fun n => @pretty_print_to_string spd (wide_env true) n doc3 20)
     (Ok (codes "first" ++ nl ++ ([62; 32; 97; 1000; 98]%N) ++ nl ++ codes "a longer line")) /\
  ev (fun n => @text_of spd (@display_pane spd (wide_env true) (plain_text_window (list nat)) nat contents65 n (Vert [(Dynamic, PDoc 0)]) [9] (plain_text_unbounded 20)))
     (codes "first               " ++ nl ++ [62; 32; 97; 1000; 98]%N ++ codes "              " ++ nl ++ codes "a longer line       " ++ nl, [Pos 0 0], Ok tt).
Proof.
  pose proof (@C65_same_as_string spd (wide_env true) nat contents65 20 eq_refl eq_refl 0 doc3 (top_focus []) false [9] _ _ eq_refl eq_refl eq_refl eq_refl (whole65 20 None)) as H.
  cbv zeta in H. apply H.
  - repeat constructor.
  - reflexivity.
  - assert (X : forall l, (@text_columns (wide_env true) l <=? 20)%N && forallb (fun ch => negb (N.eqb ch 0)) l = true -> (@text_columns (wide_env true) l <= 20)%N /\ ~ In 0%N l).
    { intros l E. apply andb_prop in E as [E1 E2]. split; [apply N.leb_le; exact E1|]. intros Hin. apply (proj1 (forallb_forall _ _) E2) in Hin. discriminate. }
    repeat (constructor; [apply X; vm_compute; reflexivity|]). constructor.
Qed.

(** Two documents below each other, in a narrow window. *)
Definition stack65 : list (pane nat (list nat)) := [PDoc 0; PStyle [5] (PDoc 1)].
Lemma pages65 : exists gs, Forall2 (@has_page spd (wide_env true) nat contents65 8 []) stack65 gs /\
  @focuses spd 0 gs = [Pos 0 0; Pos 3 2] /\ List.length (flat_map (@page_lines spd) gs) = 5 /\
  Forall (fun l : @line spd => (SpecDivvy.total (map seg_width l) < U16)%N) (flat_map (@page_lines spd) gs).
Proof.
  exists [Page {| left_segments := []; right_segments := [seg (codes "first") 5 [107]] |}
            [[seg (codes "> ") 2 [107]; seg ([97; 1000; 98]%N) 4 [107; 108]]; [seg (codes "a longer line") 13 [107]]] true;
     Page {| left_segments := [seg (codes "> ") 2 [5; 107]]; right_segments := [seg ([97; 1000; 98]%N) 4 [5; 107; 108]] |}
            [[seg (codes "a longer line") 13 [5; 107]]] true].
  split; [constructor; [|constructor; [|constructor]]|].
  - exists 0, [], doc3, (top_focus []), []. split; [constructor|]. split; [reflexivity|]. split; [exists false; reflexivity|].
    split; [reflexivity|exact (whole65 8 (Some []))].
  - exists 1, [5], doc3, (top_focus [0]). eexists. split; [apply (@is_doc_style spd nat); exact (@is_doc_here spd nat 1 [5])|]. split; [reflexivity|]. split; [exists false; reflexivity|].
    split; [reflexivity|exact (tail65 8 [5])].
  - split; [reflexivity|]. split; [reflexivity|]. repeat constructor.
Qed.
Example C65_case_stack : exists rows,
  List.length rows = 5 /\
  ev (fun n => @text_of spd (@display_pane spd (wide_env true) (plain_text_window (list nat)) nat contents65 n (Vert (map (fun p => (Dynamic, p)) stack65)) [] (plain_text_unbounded 8)))
     (flat_map (fun row => row ++ [newline_char]) rows, [Pos 0 0; Pos 3 2], Ok tt).
Proof.
  destruct pages65 as (gs & G1 & G2 & G3 & G4).
  destruct (@C65_unbounded_height spd (wide_env true) nat contents65 8 eq_refl eq_refl stack65 gs [] eq_refl G1 G4) as (rows & R1 & R2).
  - rewrite G3. reflexivity.
  - exists rows. split; [rewrite <- G3; symmetry; eapply Forall2_length; exact R1|]. rewrite <- G2. exact R2.
Qed.
(** The same in a window with enough rows, by running it. *)
Example C65_run_stack :
  @text_of spd (@display_pane spd (wide_env true) (plain_text_window (list nat)) nat contents65 1000 (Vert (map (fun p => (Dynamic, p)) stack65)) [] (plain_text_new 8 7)) =
  (codes "first   " ++ nl ++ [62; 32; 97; 1000; 98; 32; 32]%N ++ nl ++ codes "a longer" ++ nl ++ [62; 32; 97; 1000; 98; 32; 32]%N ++ nl ++ codes "a longer" ++ nl,
   [Pos 0 0; Pos 3 2], Ok tt).
Proof. vm_compute. reflexivity. Qed.

(** The last row of a PlainText of unbounded height. *)
Example C65_case_last_row :
  ev (fun n => snd (@display_pane spd (wide_env true) (plain_text_window (list nat)) nat contents65 n (PDoc 2) [] (plain_text_unbounded 8))) (Panic POverflow).
Proof.
  eapply (@C65_last_row_refuted spd (wide_env true) nat contents65 8 eq_refl eq_refl 2 doc3 _ []); [reflexivity|reflexivity|reflexivity|exact (whole65 8 (Some []))|reflexivity].
Qed.
