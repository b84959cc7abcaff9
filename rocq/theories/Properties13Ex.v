(** Concrete cases of the theorems of Properties13. *)
From Verif Require Import Properties13 Properties12Ex.
From Coq Require Import String.

Set Implicit Arguments.

Notation c_env := (Build_Env (fun s => N.of_nat (List.length s)) (fun _ => false)).

(** {"key": [1, "two"], // some words
    "other": null} *)
Definition case_json : json :=
  JObject [JPair (chars "key") (JArray [JNumber (chars "1"); JString (chars "two")]);
           JComment (chars "some  words"); JPair (chars "other") JNull].
Definition plain_json : json :=
  JArray [JObject []; JObject [JPair (chars "a b") (JArray [JNumber (chars "1"); JBool true; JArray []])]; JString (chars "xyz")].

Section Make.
Variable checks : bool.
Fixpoint make (j : json) (c : N) : res Empty_set (json_tree * N) :=
  let fix makes (l : list json) (c : N) : res Empty_set (list json_tree * N) :=
    match l with
    | [] => Ok ([], c)
    | x :: l' => '(t, c) <- make x c ;; '(ts, c) <- makes l' c ;; Ok (t :: ts, c)
    end in
  match j with
  | JNull => json_null checks c
  | JBool b => json_bool checks b c
  | JString s => json_string checks s c
  | JNumber s => json_number checks s c
  | JArray l => '(ts, c) <- makes l c ;; json_array checks ts c
  | JObject l => '(ts, c) <- makes l c ;; json_object checks ts c
  | JPair k x => '(t, c) <- make x c ;; json_object_pair checks k t c
  | JComment s => json_comment checks white s c
  | JRoots l => '(ts, c) <- makes l c ;; json_roots checks ts c
  end.

Fixpoint makes (l : list json) (c : N) : res Empty_set (list json_tree * N) :=
  match l with
  | [] => Ok ([], c)
  | x :: l' => '(t, c) <- make x c ;; '(ts, c) <- makes l' c ;; Ok (t :: ts, c)
  end.

(** Every JSON document can be made. *)
Lemma make_made j : forall c t c', make j c = Ok (t, c') -> made checks white j t.
Proof.
  assert (L : forall l, (forall x, In x l -> forall c t c', make x c = Ok (t, c') -> made checks white x t) ->
    forall c ts c', makes l c = Ok (ts, c') -> Forall2 (made checks white) l ts).
  { induction l as [|x l IH]; intros H c ts c'; cbn [makes].
    - intros [= <- _]. constructor.
    - destruct (make x c) as [[t c1]|] eqn:E; [|discriminate]. cbn [bind]. destruct (makes l c1) as [[ts1 c2]|] eqn:E2; [|discriminate].
      cbn [bind]. intros [= <- _]. constructor; [eapply H; [left; reflexivity|exact E]|]. eapply IH; [|exact E2]. intros y Hy. apply H. right. exact Hy. }
  induction j as [|b|s|s|l IH|l IH|key x IH|s|l IH] using json_ind'; intros c t c' H.
  - eapply made_null; exact H.
  - eapply made_bool; exact H.
  - eapply made_string; exact H.
  - eapply made_number; exact H.
  - change (make (JArray l) c) with ('(ts, c) <- makes l c ;; json_array checks ts c) in H.
    destruct (makes l c) as [[ts c1]|] eqn:E; [|discriminate]. eapply made_array; [eapply L; [exact IH|exact E]|exact H].
  - change (make (JObject l) c) with ('(ts, c) <- makes l c ;; json_object checks ts c) in H.
    destruct (makes l c) as [[ts c1]|] eqn:E; [|discriminate]. eapply made_object; [eapply L; [exact IH|exact E]|exact H].
  - change (make (JPair key x) c) with ('(t, c) <- make x c ;; json_object_pair checks key t c) in H.
    destruct (make x c) as [[t1 c1]|] eqn:E; [|discriminate]. eapply made_pair; [eapply IH; exact E|exact H].
  - eapply made_comment; exact H.
  - change (make (JRoots l) c) with ('(ts, c) <- makes l c ;; json_roots checks ts c) in H.
    destruct (makes l c) as [[ts c1]|] eqn:E; [|discriminate]. eapply made_roots; [eapply L; [exact IH|exact E]|exact H].
Qed.
End Make.

Definition tree_of (j : json) : json_tree := match make true j 0 with Ok (t, _) => t | _ => case_tree end.
Lemma tree_of_made j : (exists r, make true j 0 = Ok r) -> made true white j (tree_of j).
Proof. intros ([t c] & E). unfold tree_of. rewrite E. eapply make_made; exact E. Qed.

Ltac each H tac := cbn [In] in H; lazymatch type of H with
  | False => destruct H
  | _ => destruct H as [<-|H]; [tac|each H tac]
  end.
Ltac val :=
  first [apply v_null|apply v_bool|apply v_string|apply v_number
        |apply v_array; let x := fresh in let H := fresh in intros x H; each H ent
        |apply v_object; let x := fresh in let H := fresh in intros x H; each H mem]
with ent := first [apply e_comment|apply e_value; val]
with mem := first [apply m_comment|apply m_pair; val].
Ltac is_doc := first [apply d_entry; ent|apply d_roots; let x := fresh in let H := fresh in intros x H; each H ent].

Lemma case_made : made true white case_json (tree_of case_json).
Proof. apply tree_of_made. eexists. vm_compute. reflexivity. Qed.
Lemma plain_made : made true white plain_json (tree_of plain_json).
Proof. apply tree_of_made. eexists. vm_compute. reflexivity. Qed.
Lemma case_document : is_document case_json.
Proof. is_doc. Qed.
Lemma plain_document : is_document plain_json.
Proof. is_doc. Qed.

(** What the documents look like.  (The pictures are the meaning of [s ++ "\n"].) *)
Definition nl : string := String (Ascii.ascii_of_nat 10) EmptyString.
Definition q : string := String (Ascii.ascii_of_nat 34) EmptyString.
Example C40_layout_case :
  jtext (pretty_json white (fun s => N.of_nat (List.length s)) N.add 20 case_json) =
  chars ("{" ++ nl ++
         "    " ++ q ++ "key" ++ q ++ ": [" ++ nl ++
         "        1," ++ nl ++
         "        " ++ q ++ "two" ++ q ++ nl ++
         "    ]," ++ nl ++
         "    // some words" ++ nl ++
         "    " ++ q ++ "other" ++ q ++ ": null" ++ nl ++
         "}").
Proof. vm_compute. reflexivity. Qed.
Example C40_layout_wide_case :
  jtext (pretty_json white (fun s => N.of_nat (List.length s)) N.add 23 case_json) =
  chars ("{" ++ nl ++
         "    " ++ q ++ "key" ++ q ++ ": [1, " ++ q ++ "two" ++ q ++ "]," ++ nl ++
         "    // some words" ++ nl ++
         "    " ++ q ++ "other" ++ q ++ ": null" ++ nl ++
         "}").
Proof. vm_compute. reflexivity. Qed.
(** At width 10 the comment is broken too. *)
Example C40_layout_narrow_case :
  jtext (pretty_json white (fun s => N.of_nat (List.length s)) N.add 10 (JRoots [JComment (chars "some  words"); JNull])) =
  chars ("// some" ++ nl ++ "// words" ++ nl ++ "null").
Proof. vm_compute. reflexivity. Qed.

Lemma narrow_check {pd : PrettyDoc} (ls : list (list segment)) : forallb (fun l => exact_width l <? U16)%N ls = true -> narrow_lines ls.
Proof. intros H. apply Forall_forall. intros l Hl. rewrite forallb_forall in H. apply N.ltb_lt. apply H. exact Hl. Qed.

(** The theorems apply: *)
Example C40_layout_printed_case : forall b st, exists fl downs,
  @printed jpd (c_env b) (tree_of case_json) 20 [] FStart st [] fl downs /\ List.length (all_lines [] fl downs) = 8.
Proof.
  intros b st.
  destruct (@C40_layout (fun s => N.of_nat (List.length s)) (fun _ => false) true white case_json _ case_made case_document b 20 st) as (fl & downs & H1 & H2).
  - apply narrow_check. vm_compute. reflexivity.
  - exists fl, downs. split; [exact H1|]. rewrite H2. unfold painted. rewrite map_length. vm_compute. reflexivity.
Qed.

Example C40_content_case : has_comment plain_json = false /\
  tokens plain_json = [chars "["; chars "{"; chars "}"; chars ","; chars "{"; chars (q ++ "a b" ++ q); chars ":"; chars "[";
    chars "1"; chars ","; chars "true"; chars ","; chars "["; chars "]"; chars "]"; chars "}"; chars ","; chars (q ++ "xyz" ++ q); chars "]"].
Proof. split; vm_compute; reflexivity. Qed.

(** The whole document is 35 columns wide. *)
Example C40_one_line_case : forall w st fl downs,
  @printed jpd (c_env false) (tree_of plain_json) w [] FStart st [] fl downs ->
  (List.length (all_lines [] fl downs) = 1 <-> (35 <= w)%N).
Proof.
  intros w st fl downs Hp.
  pose proof (@C40_one_line (fun s => N.of_nat (List.length s)) (fun _ => false) true white plain_json _ plain_made plain_document w st fl downs _ (or_introl eq_refl) ltac:(discriminate) Hp) as H.
  assert (E : out_width (@str_width (c_env false)) (on_one_line plain_json) = 35%N) by (vm_compute; reflexivity). rewrite E in H.
  rewrite H. split; [intros [_ H1]; exact H1|intros H1; split; [reflexivity|exact H1]].
Qed.

(** C40: why a comment may not be the value of a pair: if a comma follows it, the
    document cannot be printed at any width. *)
Definition bad_json : json := JObject [JPair (chars "a") (JComment (chars "b")); JPair (chars "c") JNull].
Lemma bad_made : made true white bad_json (tree_of bad_json).
Proof. apply tree_of_made. eexists. vm_compute. reflexivity. Qed.
Theorem C40_misplaced_comment_refuted : made true white bad_json (tree_of bad_json) /\
  ev (fun n => @pretty_print_to_string jpd (c_env true) n (tree_of bad_json) 80) (Err TextAfterEndOfLine).
Proof.
  split; [exact bad_made|]. exists 300. intros n Hn. replace n with (300 + (n - 300)) by lia.
  vm_compute. reflexivity.
Qed.
