(** Concrete cases for C67. *)
From Verif Require Export Properties34 Properties2Ex.
From Coq Require Import String.

Set Implicit Arguments.

#[local] Existing Instance debug_env.

(** Finding the place of a focus by running the printer. *)
Lemma run_spot K (d : sdoc) w path ft st p up fl down ups downs :
  (forall m, pretty_print (pd := spd) (K + m) d w path ft st = Ok (up, fl, down)) ->
  (forall m, collect (K + m) (up_next (pd := spd) (K + m)) up = Ok ups) ->
  (forall m, collect (K + m) (down_next (pd := spd) (K + m)) down = Ok downs) ->
  p = spot ups fl ->
  focus_at (pd := spd) d w st path ft p.
Proof.
  intros H1 H2 H3 ->. exists ups, fl, downs. split; [|reflexivity]. exists up, down.
  split; [|split]; exists K; intros n Hn; replace n with (K + (n - K)) by lia; auto.
Qed.

Ltac spot_run := eapply (@run_spot 300);
  [ intros k; vm_compute; reflexivity | intros k; vm_compute; reflexivity | intros k; vm_compute; reflexivity | vm_compute; reflexivity ].

(** The document is
<<
[
  apple,
  [kiwi, fig],
  pear,
  []
]
>>
    The places of its list "[kiwi, fig]" (path [1]), its focus mark, the word "fig"
    (path [1;1]), the position after its first character, and the word "pear". *)
Example list_start : focus_at (pd := spd) ex_doc 16 None [1] FStart (2, codes "  "). Proof. spot_run. Qed.
Example list_mark : focus_at (pd := spd) ex_doc 16 None [1] FMark (2, codes "  ["). Proof. spot_run. Qed.
Example list_end : focus_at (pd := spd) ex_doc 16 None [1] FEnd (2, codes "  [kiwi, fig]"). Proof. spot_run. Qed.
Example fig_start : focus_at (pd := spd) ex_doc 16 None [1; 1] FStart (2, codes "  [kiwi, "). Proof. spot_run. Qed.
Example fig_one : focus_at (pd := spd) ex_doc 16 None [1; 1] (FText 1) (2, codes "  [kiwi, f"). Proof. spot_run. Qed.
Example fig_nine : focus_at (pd := spd) ex_doc 16 None [1; 1] (FText 9) (2, codes "  [kiwi, fig"). Proof. spot_run. Qed.
Example fig_end : focus_at (pd := spd) ex_doc 16 None [1; 1] FEnd (2, codes "  [kiwi, fig"). Proof. spot_run. Qed.
Example pear_start : focus_at (pd := spd) ex_doc 16 None [2] FStart (3, codes "  "). Proof. spot_run. Qed.
Example pear_end : focus_at (pd := spd) ex_doc 16 None [2] FEnd (3, codes "  pear"). Proof. spot_run. Qed.
Example top_start : focus_at (pd := spd) ex_doc 16 None [] FStart (0, codes ""). Proof. spot_run. Qed.
Example top_end : focus_at (pd := spd) ex_doc 16 None [] FEnd (5, codes "]"). Proof. spot_run. Qed.

Definition Hes34 := ex_has_layout (or_introl (eq_refl 16%N)).
Definition Hlin34 := ex_linear (or_introl (eq_refl 16%N)).

Example C67_nested_case : not_after (2, codes "  ") (2, codes "  [kiwi, ") /\ not_after (2, codes "  [kiwi, fig") (2, codes "  [kiwi, fig]").
Proof.
  destruct (C67_nested ex_rep ex_valid ex_unique Hes34 Hlin34 [1] list_start list_end fig_start fig_end) as (H1 & _ & H2). auto.
Qed.
Example C67_apart_case : not_after (2, codes "  [kiwi, fig") (3, codes "  ") \/ not_after (3, codes "  pear") (2, codes "  [kiwi, ").
Proof.
  refine (C67_apart ex_rep ex_valid ex_unique Hes34 Hlin34 _ _ fig_start fig_end pear_start pear_end); intros x; discriminate.
Qed.
Example C67_mark_case : not_after (2, codes "  ") (2, codes "  [").
Proof. exact (proj1 (C67_mark ex_rep ex_valid ex_unique Hes34 Hlin34 list_start list_mark list_end)). Qed.
Example C67_mark_apart_case : not_after (2, codes "  [") (2, codes "  [kiwi, ") \/ not_after (2, codes "  [kiwi, fig") (2, codes "  [").
Proof. exact (C67_mark_apart ex_rep ex_valid ex_unique Hes34 Hlin34 1 list_mark fig_start fig_end). Qed.
Example fig_displayed : text_displayed (ex_layout 16) [1; 1].
Proof.
  destruct (find (fun n => match nth_error (ex_layout 16) n with
    | Some (EText _ t) => tx_from_text t && if list_eq_dec Nat.eq_dec (open_path (firstn n (ex_layout 16))) [1; 1] then true else false
    | _ => false end) (seq 0 100)) as [n|] eqn:E.
  - apply find_some in E as [_ E]. destruct (nth_error (ex_layout 16) n) as [[j t| | | | |]|] eqn:En; try discriminate.
    apply andb_true_iff in E as [E1 E2]. apply nth_error_split in En as (a & b & Ea & <-).
    exists a, j, t, b. split; auto. split; auto. rewrite Ea in E2.
    rewrite firstn_app, Nat.sub_diag, firstn_all, app_nil_r in E2. destruct (list_eq_dec _ _ _); [auto|discriminate].
  - exfalso. vm_compute in E. discriminate.
Qed.
Example C67_text_case : not_after (2, codes "  [kiwi, ") (2, codes "  [kiwi, f") /\ not_after (2, codes "  [kiwi, f") (2, codes "  [kiwi, fig").
Proof. exact (C67_text ex_rep ex_valid ex_unique Hes34 Hlin34 (path := [1; 1]) (i := s_info (word 4 "fig")) (t := codes "fig") ex_splittable eq_refl fig_displayed fig_start fig_one fig_end). Qed.
Example C67_text_order_case : not_after (2, codes "  [kiwi, f") (2, codes "  [kiwi, fig").
Proof. refine (C67_text_order ex_rep ex_valid ex_unique Hes34 Hlin34 ex_splittable ex_displayed _ fig_one fig_nine). lia. Qed.
