(** The layout of JSON documents. *)
From Verif Require Export SpecJson Properties12.
From Coq Require Import String.

Set Implicit Arguments.

(** ** Induction *)
Fixpoint json_ind' (P : json -> Prop) (H1 : P JNull) (H2 : forall b, P (JBool b)) (H3 : forall s, P (JString s)) (H4 : forall s, P (JNumber s))
  (H5 : forall l, (forall x, In x l -> P x) -> P (JArray l)) (H6 : forall l, (forall x, In x l -> P x) -> P (JObject l))
  (H7 : forall k x, P x -> P (JPair k x)) (H8 : forall s, P (JComment s)) (H9 : forall l, (forall x, In x l -> P x) -> P (JRoots l)) (j : json) : P j :=
  let go := fix go (l : list json) : forall x, In x l -> P x :=
    match l with
    | [] => fun x H => match H with end
    | y :: l' => fun x H => match H with
                            | or_introl E => eq_ind y P (json_ind' P H1 H2 H3 H4 H5 H6 H7 H8 H9 y) x E
                            | or_intror H' => go l' x H'
                            end
    end in
  match j with
  | JNull => H1 | JBool b => H2 b | JString s => H3 s | JNumber s => H4 s
  | JArray l => H5 l (go l) | JObject l => H6 l (go l)
  | JPair k x => H7 k x (json_ind' P H1 H2 H3 H4 H5 H6 H7 H8 H9 x)
  | JComment s => H8 s | JRoots l => H9 l (go l)
  end.

(** ** The structure of the trees *)
Definition plainf (n : tree_notation) (f : tree_fields (ts := basic_tree_style)) : Prop :=
  t_notation f = n /\ t_node_style f = bs_default /\ t_style_overrides f = [].
Definition flag (t : json_tree) : bool := t_needs_separator (t_fields t).
Fixpoint flags (l : list json) (ks : list json_tree) : Prop :=
  match l, ks with
  | x :: l', k :: ks' => flag k = needs_comma x l' /\ flags l' ks'
  | _, _ => True
  end.

Section Trees.
Variable is_white : char -> bool.
Definition is_word (s : str) (t : json_tree) : Prop := exists f, t = TreeText f s /\ plainf JSON_COMMENT_WORD f.

Inductive jtree : json -> json_tree -> Prop :=
| jt_null f : plainf JSON_NULL f -> jtree JNull (TreeKids f [])
| jt_bool b f : plainf (if b : bool then JSON_TRUE else JSON_FALSE) f -> jtree (JBool b) (TreeKids f [])
| jt_string s f : plainf JSON_STRING f -> jtree (JString s) (TreeText f s)
| jt_number s f : plainf JSON_NUMBER f -> jtree (JNumber s) (TreeText f s)
| jt_array l f ks : plainf JSON_ARRAY f -> Forall2 jtree l ks -> flags l ks -> jtree (JArray l) (TreeKids f ks)
| jt_object l f ks : plainf JSON_OBJECT f -> Forall2 jtree l ks -> flags l ks -> jtree (JObject l) (TreeKids f ks)
| jt_pair key x f kk k : plainf JSON_OBJECT_PAIR f -> jtree (JString key) kk -> jtree x k -> jtree (JPair key x) (TreeKids f [kk; k])
| jt_comment s f ks : plainf JSON_COMMENT f -> Forall2 is_word (split_whitespace is_white s) ks -> jtree (JComment s) (TreeKids f ks)
| jt_roots l f ks : plainf JSON_ROOTS f -> Forall2 jtree l ks -> jtree (JRoots l) (TreeKids f ks).

Lemma jtree_flag j t b : jtree j t -> jtree j (with_separator b t).
Proof. destruct 1 as [f H|? f H|? f H|? f H|? f ? H|? f ? H|? ? f ? ? H|? f ? H|? f ? H]; (constructor; [destruct f, H as (? & ? & ?); repeat split; assumption|..]; assumption). Qed.

Lemma word_flag s t b : is_word s t -> is_word s (with_separator b t).
Proof. intros (f & -> & H). destruct f, H as (? & ? & ?). eexists. split; [reflexivity|]. repeat split; assumption. Qed.

Variable checks : bool.

Lemma words_made l : forall c ks c', json_words checks l c = Ok (ks, c') -> Forall2 is_word l ks.
Proof.
  induction l as [|s l IH]; intros c ks c'; cbn [json_words].
  - intros H. injection H as <- _. constructor.
  - unfold tree_new_text, bind, next_id, bind. destruct (addM U32 checks c 1%N) as [d|]; [|discriminate].
    destruct (json_words checks l d) as [[ks2 c2]|] eqn:E; [|discriminate]. intros H. injection H as <- _.
    constructor; [|eapply IH; eauto]. eexists. split; [reflexivity|]. repeat split.
Qed.

Lemma separated_forall2 (P : json -> json_tree -> Prop) (HP : forall j t b, P j t -> P j (with_separator b t)) :
  forall l ks, Forall2 P l ks -> Forall2 P l (separated ks).
Proof.
  induction 1 as [|x k l ks H _ IH]; [constructor|]. cbn [separated]. constructor; [|exact IH].
  destruct (_ && _); [apply HP|]; exact H.
Qed.

Lemma separated_forall2' {A} (P : A -> json_tree -> Prop) (HP : forall j t b, P j t -> P j (with_separator b t)) :
  forall l ks, Forall2 P l ks -> Forall2 P l (separated ks).
Proof.
  induction 1 as [|x k l ks H _ IH]; [constructor|]. cbn [separated]. constructor; [|exact IH].
  destruct (_ && _); [apply HP|]; exact H.
Qed.

Lemma made_jtree j : forall t, made checks is_white j t -> jtree j t /\ flag t = false /\ t_is_comment (t_fields t) = is_jcomment j.
Proof.
  assert (HL : forall l ks, (forall x, In x l -> forall t, made checks is_white x t -> jtree x t /\ flag t = false /\ t_is_comment (t_fields t) = is_jcomment x) ->
    Forall2 (made checks is_white) l ks -> Forall2 jtree l (separated ks) /\ flags l (separated ks)).
  { intros l ks H F. split.
    - apply separated_forall2; [intros; apply jtree_flag; assumption|]. induction F as [|x k l ks Hx F IH]; constructor; [apply H; [left; reflexivity|exact Hx]|].
      apply IH. intros y Hy. apply H. right. exact Hy.
    - assert (G : Forall2 (fun x k => flag k = false /\ t_is_comment (t_fields k) = is_jcomment x) l ks).
      { induction F as [|x k l ks Hx F IH]; constructor; [apply (H x); [left; reflexivity|exact Hx]|]. apply IH. intros y Hy. apply H. right. exact Hy. }
      clear H F. induction G as [|x k l ks [G1 G2] G IH]; [exact I|]. cbn [separated flags]. split; [|exact IH].
      assert (E : @existsb (@tree basic_tree_style) (fun y => negb (t_is_comment (t_fields y))) ks = existsb (fun y => negb (is_jcomment y)) l).
      { clear - G. induction G as [|x k l ks [G1 G2] G IH]; [reflexivity|]. cbn [existsb]. rewrite G2, IH. reflexivity. }
      unfold needs_comma. rewrite G2, E. destruct (_ && _); [destruct k; reflexivity|exact G1]. }
  induction j as [|b|s|s|l IH|l IH|key x IH|s|l IH] using json_ind'; intros t H; inversion H; subst; clear H;
    repeat match goal with E : json_null _ _ = _ |- _ => revert E | E : json_bool _ _ _ = _ |- _ => revert E | E : json_string _ _ _ = _ |- _ => revert E
      | E : json_number _ _ _ = _ |- _ => revert E | E : json_array _ _ _ = _ |- _ => revert E | E : json_object _ _ _ = _ |- _ => revert E
      | E : json_object_pair _ _ _ _ = _ |- _ => revert E | E : json_comment _ _ _ _ = _ |- _ => revert E | E : json_roots _ _ _ = _ |- _ => revert E end;
    unfold json_null, json_bool, json_string, json_number, json_array, json_object, json_object_pair, json_comment, json_roots, json_string.
  - unfold tree_new_branch, bind, next_id, bind. destruct (addM U32 checks c 1%N) as [d|]; [|discriminate]. intros H. injection H as <- _.
    split; [|split; reflexivity]. constructor. repeat split.
  - unfold tree_new_branch, bind, next_id, bind. destruct b; (destruct (addM U32 checks c 1%N) as [d|]; [|discriminate]; intros H; injection H as <- _;
    split; [|split; reflexivity]; constructor; repeat split).
  - unfold tree_new_text, bind, next_id, bind. destruct (addM U32 checks c 1%N) as [d|]; [|discriminate]. intros H. injection H as <- _.
    split; [|split; reflexivity]. constructor. repeat split.
  - unfold tree_new_text, bind, next_id, bind. destruct (addM U32 checks c 1%N) as [d|]; [|discriminate]. intros H. injection H as <- _.
    split; [|split; reflexivity]. constructor. repeat split.
  - unfold tree_new_branch, bind, next_id, bind. destruct (addM U32 checks c 1%N) as [d|]; [|discriminate]. intros H. injection H as <- _.
    split; [|split; reflexivity]. rewrite mark_separated. destruct (HL l ks IH) as [A B]; [assumption|]. constructor; [repeat split| |]; assumption.
  - unfold tree_new_branch, bind, next_id, bind. destruct (addM U32 checks c 1%N) as [d|]; [|discriminate]. intros H. injection H as <- _.
    split; [|split; reflexivity]. rewrite mark_separated. destruct (HL l ks IH) as [A B]; [assumption|]. constructor; [repeat split| |]; assumption.
  - unfold tree_new_branch, tree_new_text, bind, next_id, bind. destruct (addM U32 checks c 1%N) as [d|]; [|discriminate].
    destruct (addM U32 checks d 1%N) as [d'|]; [|discriminate]. intros H. injection H as <- _.
    split; [|split; reflexivity]. rewrite mark_separated. cbn [separated].
    assert (K : forall b, jtree x (if b : bool then set_separator k else k)).
    { intros b. destruct (IH k) as [A _]; [assumption|]. destruct b; [apply (jtree_flag true)|]; exact A. }
    assert (K' : forall (b : bool) f, plainf JSON_STRING f -> jtree (JString key) (if b then set_separator (TreeText f key) else TreeText f key)).
    { intros b f Hf. destruct b; [apply (@jtree_flag (JString key) (TreeText f key) true)|]; constructor; exact Hf. }
    constructor; [repeat split|apply K'; repeat split|apply K].
  - unfold bind. destruct (json_words checks (split_whitespace is_white s) c) as [[ws c1]|] eqn:E; [|discriminate].
    unfold tree_new_branch, bind, next_id, bind. destruct (addM U32 checks c1 1%N) as [d|]; [|discriminate]. intros H. injection H as <- _.
    split; [|split; reflexivity]. rewrite mark_separated. constructor; [repeat split|]. cbn.
    apply separated_forall2'; [intros; apply word_flag; assumption|]. eapply words_made; eauto.
  - unfold tree_new_branch, bind, next_id, bind. destruct (addM U32 checks c 1%N) as [d|]; [|discriminate]. intros H. injection H as <- _.
    split; [|split; reflexivity]. rewrite mark_separated. destruct (HL l ks IH) as [A B]; [assumption|]. constructor; [repeat split|]; assumption.
Qed.
End Trees.
