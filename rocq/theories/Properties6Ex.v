(** Concrete cases for C08, and why texts of width zero are excluded. *)
From Verif Require Export Properties6 Properties5Ex.
From Coq Require Import String.

Set Implicit Arguments.

Definition len_width (s : str) : N := N.of_nat (List.length s).

Lemma len_adds : widths_add_up len_width.
Proof. intros a b. unfold len_width. rewrite app_length. lia. Qed.

(** The list document of Properties2Ex meets the hypotheses... *)
Example C08_case_texts : Forall (fun t => 0 < @str_width (Build_Env len_width (fun _ => false) false) t)%N (doc_texts ex_tree).
Proof. repeat (constructor; [vm_compute; reflexivity|]). constructor. Qed.

(** ... the oracle returns a string for it, and C08 applies. *)
Example C08_case_oracle : @oracular_pretty_print spd (Build_Env len_width (fun _ => false) true) 100 ex_doc 16 =
  Ok (join_lines (map codes ["["%string; "  apple,"%string; "  [kiwi, fig],"%string; "  pear,"%string; "  []"%string; "]"%string])).
Proof. vm_compute. reflexivity. Qed.

Example C08_case : ev (fun n => @pretty_print_to_string spd (Build_Env len_width (fun _ => false) false) n ex_doc 16)
  (Ok (join_lines (map codes ["["%string; "  apple,"%string; "  [kiwi, fig],"%string; "  pear,"%string; "  []"%string; "]"%string]))).
Proof.
  apply (@C08_oracle_agrees spd spd_ideq len_width (fun _ => false) ex_tree ex_doc ex_rep ex_valid len_adds (or_introl C08_case_texts) _ _ _ C08_case_oracle).
Qed.

(** The statement of C08 without the hypothesis on texts of width zero. *)
Definition C08_unrestricted : Prop :=
  forall (pd : PrettyDoc) (ideq : IdEq pd) (uw : str -> N) (cf : char -> bool) (r : rdoc) (doc : D) n w s,
    rep r doc -> valid_doc r -> widths_add_up uw ->
    @oracular_pretty_print pd (Build_Env uw cf true) n doc w = Ok s ->
    ev (fun n => @pretty_print_to_string pd (Build_Env uw cf false) n doc w) (Ok s).

(** [(EOL + child) | "b"], the child being [Newline | ""]: the oracle thinks the
    child's second option is not a text, because it has width 0. *)
Definition zero_doc : sdoc :=
  Node 0 (Choice (Concat EndOfLine (Child 0)) (lit "b")) [Node 1 (Choice Newline (lit "")) []].

Theorem C08_zero_width_refuted : ~ C08_unrestricted.
Proof.
  intros H. specialize (H spd spd_ideq len_width (fun _ => false) (s_tree zero_doc) zero_doc 100 20%N [10%N] (s_rep zero_doc)).
  destruct H as [N H].
  - apply s_valid_doc. vm_compute. reflexivity.
  - exact len_adds.
  - vm_compute. reflexivity.
  - assert (Hes : exists es, @layout spd (Build_Env len_width (fun _ => false) false) 20 (@doc_shape spd (Build_Env len_width (fun _ => false) false) (s_tree zero_doc) None) = Some es /\
      map segs_to_string (lines_of es) = [codes "b"]) by (eexists; vm_compute; split; reflexivity).
    destruct Hes as (es & Hes & El).
    assert (Hvz : valid_doc (s_tree zero_doc)) by (apply s_valid_doc; vm_compute; reflexivity).
    destruct (@C01_layout_is_printed spd (Build_Env len_width (fun _ => false) false) spd_ideq (s_tree zero_doc) zero_doc (s_rep zero_doc) Hvz 20%N None es Hes) as (fl & downs & Hp & E).
    pose proof (@C24_to_string_joins_lines spd (Build_Env len_width (fun _ => false) false) spd_ideq zero_doc 20%N [] FStart [] fl downs (rep_finite (s_rep zero_doc)) eq_refl Hp) as H2.
    rewrite <- E, El in H2. pose proof (ev_det (ex_intro _ N H) H2) as E2. discriminate E2.
Qed.

(** What both return here. *)
Example C08_zero_width_run :
  @oracular_pretty_print spd (Build_Env len_width (fun _ => false) true) 100 zero_doc 20 = Ok [10%N] /\
  @pretty_print_to_string spd (Build_Env len_width (fun _ => false) true) 100 zero_doc 20 = Ok (codes "b").
Proof. vm_compute. auto. Qed.

Notation env_release := (Build_Env len_width (fun _ => false) false).

Example C08_case_returns : exists fl downs,
  @printed spd env_release ex_doc 16 [] FStart None [] fl downs /\
  ev (fun n => @oracular_pretty_print spd (Build_Env len_width (fun _ => false) true) n ex_doc 16)
     (Ok (join_lines (map segs_to_string (all_lines [] fl downs)))).
Proof.
  destruct (@C01_layout_is_printed spd env_release spd_ideq ex_tree ex_doc ex_rep ex_valid 16%N None (ex_layout 16)) as (fl & downs & Hp & E).
  { vm_compute. reflexivity. }
  exists fl, downs. split; auto.
  apply (@C08_oracle_returns spd spd_ideq len_width (fun _ => false) ex_tree ex_doc ex_rep ex_valid len_adds (or_introl C08_case_texts) 20 100).
  - apply doc_matched_ok. vm_compute. reflexivity.
  - reflexivity.
  - reflexivity.
  - repeat (constructor; [vm_compute; discriminate|]). constructor.
  - exact Hp.
  - rewrite <- E. repeat (constructor; [vm_compute; discriminate|]). constructor.
Qed.
