(** Concrete cases for C66. *)
From Verif Require Import Examples Properties10Ex Properties33 Properties23Ex Properties29Ex.
From Coq Require Import String.
Open Scope string_scope.
Open Scope list_scope.

Set Implicit Arguments.

(** The literals and indentations of a notation. *)
Fixpoint n_strings {L C} (n : notation L C) : list str :=
  match n with
  | Literal s => [s]
  | Indent s _ x => s :: n_strings x
  | Flat x | Style _ x => n_strings x
  | Concat x y | Choice x y | Check _ _ x y | Fold x y => n_strings x ++ n_strings y
  | Count x y z => n_strings x ++ n_strings y ++ n_strings z
  | _ => []
  end.
Lemma n_strings_ok {L C} (n : notation L C) s : inside (Literal s) n \/ (exists l y, inside (Indent s l y) n) -> In s (n_strings n).
Proof.
  intros [H|(l & y & H)].
  - remember (Literal s) as a. induction H; subst; cbn [n_strings]; auto; try (left; reflexivity); try (right; apply IHinside; reflexivity);
      rewrite ?in_app_iff; auto.
  - remember (Indent s l y) as a. induction H; subst; cbn [n_strings]; auto; try (left; reflexivity); try (right; apply IHinside; reflexivity);
      rewrite ?in_app_iff; auto.
Qed.

(** *** A document with broken nodes: the list of Properties23Ex *)
Fixpoint f_strings (d : fdoc) : list str :=
  match d with FBroken => [] | FLeaf _ n s => s :: n_strings n | FNode _ n ks => n_strings n ++ flat_map f_strings ks end.

Lemma f_reach d x : @reachable fpd d x -> forall s, In s (f_strings x) -> In s (f_strings d).
Proof.
  induction 1 as [|x i y H IH Hc]; intros s Hs; [exact Hs|]. apply IH. destruct x as [|j n t|j n ks].
  - exfalso. clear - Hc. remember (FBroken) as z. induction Hc; subst; auto; discriminate.
  - exfalso. clear - Hc. remember (FLeaf j n t) as z. induction Hc; subst; auto; discriminate.
  - apply f_handle in Hc. cbn [f_strings]. rewrite in_app_iff. right. apply in_flat_map. exists y. split; [eapply nth_error_In; eauto|exact Hs].
Qed.
Lemma f_chars (P : char -> Prop) d : Forall (Forall P) (f_strings d) -> @all_chars fpd d P.
Proof.
  intros H s Hs. rewrite Forall_forall in H. apply H. destruct Hs as [(x & n & H1 & H2 & H3)|(x & H1 & H2 & H3)].
  - eapply f_reach; [exact H1|]. apply n_strings_ok in H3. destruct x; cbn in H2; try discriminate; injection H2 as ->; cbn [f_strings]; [right; exact H3|apply in_or_app; auto].
  - eapply f_reach; [exact H1|]. destruct x; cbn in H2, H3; try discriminate. injection H3 as ->. left. reflexivity.
Qed.

Definition letter (ch : char) : Prop := (97 <= ch < 123)%N.
Lemma rows_letters : @all_chars fpd rows letter.
Proof.
  apply f_chars. unfold rows. cbn.
  repeat (constructor; [repeat (constructor; [split; reflexivity || discriminate|]); constructor|]). constructor.
Qed.

(** Printing it fails, in both directions, but not before some lines are printed: *)
Definition out33 := Eval vm_compute in @pretty_print fpd f_env 200 rows 8 [2] FStart None.
Definition dn33 : @printer fpd := Eval vm_compute in match out33 with Ok (_, _, d) => d | Fail _ => Printer 0 [] [] end.
Definition up33 : @printer fpd := Eval vm_compute in match out33 with Ok (u, _, _) => u | Fail _ => Printer 0 [] [] end.

Example C66_case_printed : exists fl,
  @pretty_print fpd f_env 200 rows 8 [2] FStart None = Ok (up33, fl, dn33) /\ focused_to_string fl = codes "two".
Proof. eexists. split; vm_compute; reflexivity. Qed.

Example C66_case_lines : exists q l, @asking fpd f_env dn33 [l] q /\ segs_to_string l = codes "three" /\
  Forall letter (segs_to_string l) /\ Forall (@from_document fpd f_env rows FStart None) l.
Proof.
  destruct C66_case_printed as (fl & H & _).
  assert (X : exists q l q', @asking fpd f_env dn33 [l] q /\ @segs_to_string fpd l = codes "three" /\
    @down_next_left fpd f_env 200 q = (q', Err (PrettyDocErr tt))).
  { do 3 eexists. split; [eapply (@asking_line fpd f_env dn33 [] dn33 200); [constructor|right; vm_compute; reflexivity]|]. split; vm_compute; reflexivity. }
  destruct X as (q & l & q' & X1 & X2 & X3). exists q', l.
  assert (A : @asking fpd f_env dn33 [l] q').
  { eapply asking_other; [exact X1| |right; exact X3]. discriminate. }
  split; [exact A|]. split; [exact X2|]. split.
  - pose proof (@C66_characters fpd f_env 200 rows 8 [2] FStart None _ _ _ letter rows_letters H) as [_ Y].
    specialize (Y dn33 [l] q' (or_intror eq_refl) A). inversion Y; assumption.
  - assert (Y : Forall (Forall (@from_document fpd f_env rows FStart None)) [l]) by (eapply C66_lines; [exact H|right; reflexivity|exact A]).
    inversion Y; assumption.
Qed.

(** A window that shows it, higher than what can be printed, between two fills: what
    is drawn before the error are spaces, letters and dashes. *)
Definition wide33 : pane nat (list nat) := Vert [(Fixed 1, PFill 45%N); (Fixed 3, PDoc 0); (Fixed 5, PStyle [7] (PDoc 0))].
Example C66_case_window n ch pos sty fw :
  In (Put ch pos sty fw) (fst (@drawn fpd f_env nat broken_contents unit (Size 8 9) n wide33 [])) ->
  letter ch \/ ch = 45%N \/ ch = 32%N.
Proof.
  apply (@C66_window_characters fpd f_env nat broken_contents unit (Size 8 9) n wide33 [] (fun ch => letter ch \/ ch = 45%N \/ ch = 32%N)).
  - auto.
  - intros ch' st' H. unfold wide33 in H. inversion H as [| | | |ps size p st x st2 Hin Hb]. clear - Hin Hb.
    destruct Hin as [E|[E|[E|[]]]]; injection E as <- <-; inversion Hb; auto.
    match goal with X : basic_pane _ _ _ _ |- _ => inversion X end.
  - intros l st' d o _ E s Hs. assert (d = rows) as -> by (destruct l; [injection E as <- _; reflexivity|discriminate]).
    eapply Forall_impl; [|exact (rows_letters Hs)]. auto.
Qed.
Example C66_case_window_drawn : exists calls,
  @drawn fpd f_env nat broken_contents unit (Size 8 9) 200 wide33 [] = (calls, Err (PrintingErr (PrettyDocErr tt))) /\
  In (Put 45%N (Pos 0 0) [] false) calls /\ In (Put 116%N (Pos 2 0) [100; 102] false) calls.
Proof.
  eexists. split; [vm_compute; reflexivity|]. split; cbn [In]; repeat (first [left; reflexivity|right]).
Qed.

(** *** An infinite document *)

(** Node [n] is a line "x" or "xx" above node [n+1]. *)
Definition tower : PrettyDoc := {|
  D := nat; Id := nat; Sty := unit; Lbl := unit; Cnd := unit; Er := unit;
  id_eqb := Nat.eqb;
  style_combine := fun _ _ => tt;
  m_id := fun d => MOk d;
  m_notation := fun d => MOk (Concat (Concat (Literal (if Nat.even d then codes "x" else codes "xx")) Newline) (Child 0));
  m_condition := fun _ _ => MOk false;
  m_lookup_style := fun _ _ => MOk tt;
  m_node_style := fun _ => MOk tt;
  m_num_children := fun _ => MOk (Some 1);
  m_unwrap_text := fun _ => MPanic;
  m_unwrap_child := fun d i => match i with 0 => MOk (S d) | _ => MPanic end;
  m_unwrap_last_child := fun d => MOk (S d);
  m_unwrap_prev_sibling := fun _ _ _ => MPanic
|}.
Lemma tower_chars : @all_chars tower 0 (fun ch => ch = 120%N).
Proof.
  intros s [(x & n & _ & H2 & H3)|(x & _ & H2 & _)]; [|discriminate]. injection H2 as <-. apply n_strings_ok in H3. cbn [n_strings app] in H3.
  destruct H3 as [<-|[]]. destruct (Nat.even x); repeat constructor.
Qed.
Example C66_case_infinite n up fl down ls q :
  @pretty_print tower f_env n 0 20 [] FStart None = Ok (up, fl, down) -> @asking tower f_env down ls q ->
  Forall (fun l => Forall (fun ch => ch = 120%N) (segs_to_string l)) ls.
Proof.
  intros H Ha. destruct (@C66_characters tower f_env n 0 20 [] FStart None up fl down _ tower_chars H) as [_ X]. apply (X down ls q); auto.
Qed.
Definition out33t := Eval vm_compute in @pretty_print tower f_env 50 0 20 [] FStart None.
Example C66_case_infinite_lines : match out33t with
  | Ok (_, fl, down) => focused_to_string fl = codes "x" /\ exists l1 l2 q, asking (env := f_env) down [l1; l2] q /\ segs_to_string l1 = codes "xx" /\ segs_to_string l2 = codes "x"
  | _ => False
  end.
Proof.
  cbn [out33t]. split; [reflexivity|]. do 3 eexists. split.
  - match goal with |- asking _ [?a; ?b] _ => change [a; b] with (([] ++ [a]) ++ [b]) end.
    eapply (@asking_line tower f_env _ _ _ 50); [eapply (@asking_line tower f_env _ _ _ 50); [constructor|right; vm_compute; reflexivity]|right; vm_compute; reflexivity].
  - split; vm_compute; reflexivity.
Qed.
