(** JSON documents: exact columns, and the content of the output. *)
From Verif Require Export PJson5.
From Coq Require Import String.

Set Implicit Arguments.

(** ** Exact columns *)
Section Exact.
Variable is_white : char -> bool.
Variable width : str -> N.
Variable w : N.
Notation P := (pretty is_white width).
Notation pw := (prefix_width width).

Definition psum (p : list (color * str)) : N := pw N.add p.

Fixpoint nf (col : N) (o : list jpiece) : Prop :=
  match o with
  | [] => (col < U16)%N
  | Put _ s :: o' => nf (col + width s)%N o'
  | Break p :: o' => (col < U16)%N /\ nf (psum p) o'
  end.
Definition eafter (col : N) (o : list jpiece) : N :=
  fold_left (fun col x => match x with Put _ s => col + width s | Break p => psum p end)%N o col.

Lemma nf_col o : forall col, nf col o -> (col < U16)%N.
Proof. induction o as [|[c s|p] o IH]; intros col H; cbn [nf] in H; [exact H| |apply H]. apply IH in H. lia. Qed.

Lemma nf_app o1 : forall o2 col, nf col (o1 ++ o2) -> nf col o1 /\ nf (eafter col o1) o2.
Proof.
  induction o1 as [|[c s|p] o1 IH]; intros o2 col H; cbn [app nf] in H |- *.
  - split; [eapply nf_col; exact H|exact H].
  - apply IH. exact H.
  - destruct H as [H1 H]. apply IH in H as [H2 H3]. auto.
Qed.

Lemma wadd_exact a b : (a + b < U16)%N -> wadd a b = (a + b)%N.
Proof. intros H. unfold wadd. destruct (N.ltb_spec (a + b) U16); [reflexivity|lia]. Qed.

Lemma fold_exact l : forall a, (fold_left N.add l a < U16)%N -> fold_left wadd l a = fold_left N.add l a.
Proof.
  induction l as [|x l IH]; intros a H; cbn [fold_left] in *; [reflexivity|].
  assert (Ha : forall (l : list N) y, (y <= fold_left N.add l y)%N).
  { clear. induction l as [|z l IH]; intros y; cbn [fold_left]; [lia|]. specialize (IH (y + z)%N). lia. }
  rewrite wadd_exact by (specialize (Ha l (a + x)%N); lia). apply IH. exact H.
Qed.

Lemma prefix_exact p : (psum p < U16)%N -> pw wadd p = psum p.
Proof. apply fold_exact. Qed.

Lemma put_word_step p o col s : exists o' col', put_word width N.add w p (o, col) s = (o ++ o', col') /\
  (forall col0, col = eafter col0 o -> col' = eafter col0 (o ++ o')) /\
  (forall col0, col = eafter col0 o -> nf col0 (o ++ o') -> put_word width wadd w p (o, col) s = (o ++ o', col')).
Proof.
  unfold put_word. destruct (col + width [32%N] + width s <=? w)%N eqn:D.
  - exists [Put Yellow [32%N]; Put White s], (col + width [32%N] + width s)%N. split; [reflexivity|].
    assert (A : forall col0, col = eafter col0 o -> (col + width [32%N] + width s)%N = eafter col0 (o ++ [Put Yellow [32%N]; Put White s])).
    { intros col0 Hc. unfold eafter. rewrite fold_left_app. fold (eafter col0 o). rewrite <- Hc. reflexivity. }
    split; [exact A|]. intros col0 Hc Hn. apply nf_app in Hn as [_ Hn]. rewrite <- Hc in Hn. cbn [nf] in Hn.
    rewrite (wadd_exact col) by lia. rewrite wadd_exact by lia. reflexivity.
  - exists [Break p; Put White s], (psum p + width s)%N. split; [reflexivity|].
    assert (A : forall col0, col = eafter col0 o -> (psum p + width s)%N = eafter col0 (o ++ [Break p; Put White s])).
    { intros col0 Hc. unfold eafter. rewrite fold_left_app. reflexivity. }
    split; [exact A|]. intros col0 Hc Hn. apply nf_app in Hn as [_ Hn]. cbn [nf] in Hn. destruct Hn as [_ Hn].
    rewrite prefix_exact by lia. rewrite wadd_exact by lia. reflexivity.
Qed.

Lemma put_words_exact p l : forall o col, exists o' col',
  fold_left (put_word width N.add w p) l (o, col) = (o ++ o', col') /\
  (forall col0, col = eafter col0 o -> nf col0 (o ++ o') -> fold_left (put_word width wadd w p) l (o, col) = (o ++ o', col')).
Proof.
  induction l as [|s l IH]; intros o col; cbn [fold_left].
  - exists [], col. rewrite app_nil_r. auto.
  - destruct (put_word_step p o col s) as (o1 & c1 & A & B & C). rewrite A.
    destruct (IH (o ++ o1) c1) as (o2 & c2 & D & E). exists (o1 ++ o2), c2. rewrite D, <- app_assoc. split; [reflexivity|].
    intros col0 Hc Hn. rewrite <- app_assoc in E. rewrite (C col0 Hc), (E col0 (B col0 Hc) Hn); [reflexivity|].
    rewrite app_assoc in Hn. apply nf_app in Hn. apply Hn.
Qed.

Lemma in_rows_exact p put1 put2 : (psum p < U16)%N -> forall l,
  (forall x tail, In x l -> nf (psum p) (put2 tail x) -> put1 tail x = put2 tail x) ->
  nf (psum p) (in_rows width p put2 l) -> in_rows width p put1 l = in_rows width p put2 l.
Proof.
  intros Hp. induction l as [|x [|y l] IH]; intros H Hn; [reflexivity|apply H; [left; reflexivity|exact Hn]|].
  rewrite !in_rows_cons in *. apply nf_app in Hn as [Hn1 Hn2]. cbn [nf] in Hn2. destruct Hn2 as [_ Hn2].
  assert (E : in_rows width p put1 (y :: l) = in_rows width p put2 (y :: l)).
  { apply IH; [intros; apply H; [right|]; assumption|exact Hn2]. }
  rewrite E. f_equal. destruct (needs_comma x (y :: l)).
  - apply nf_app in Hn1 as [Hn1 _]. rewrite H by (auto; left; reflexivity). reflexivity.
  - apply H; [left; reflexivity|exact Hn1].
Qed.
Lemma in_roots_exact p put1 put2 : (psum p < U16)%N -> forall l,
  (forall x tail, In x l -> nf (psum p) (put2 tail x) -> put1 tail x = put2 tail x) ->
  nf (psum p) (in_root_rows p put2 l) -> in_root_rows p put1 l = in_root_rows p put2 l.
Proof.
  intros Hp. induction l as [|x [|y l] IH]; intros H Hn; [reflexivity|apply H; [left; reflexivity|exact Hn]|].
  rewrite !in_roots_cons in *. apply nf_app in Hn as [Hn1 Hn2]. cbn [nf] in Hn2. destruct Hn2 as [_ Hn2].
  assert (E : in_root_rows p put1 (y :: l) = in_root_rows p put2 (y :: l)).
  { apply IH; [intros; apply H; [right|]; assumption|exact Hn2]. }
  rewrite E. f_equal. apply H; [left; reflexivity|exact Hn1].
Qed.

Lemma pretty_exact j : is_entry j \/ is_member j -> forall p col tail,
  nf col (P N.add w p col tail j) -> P wadd w p col tail j = P N.add w p col tail j.
Proof.
  induction j as [|b|s|s|l IH|l IH|key x IH|s|l IH] using json_ind'; intros Hj p col tail Hn; try reflexivity.
  - assert (Hl : forall x, In x l -> is_entry x \/ is_member x).
    { destruct Hj as [Hj|Hj]; inversion Hj as [? Hv|]. inversion Hv. intros y Hy. left. auto. }
    cbn [pretty] in *. destruct l as [|x l]; [reflexivity|]. destruct (_ && _); [reflexivity|]. f_equal. f_equal.
    cbn [app nf punct] in Hn. destruct Hn as [_ Hn]. apply nf_app in Hn as [Hn _]. pose proof (nf_col _ _ Hn) as Hlt.
    rewrite prefix_exact by exact Hlt. apply in_rows_exact; auto.
  - assert (Hl : forall x, In x l -> is_entry x \/ is_member x).
    { destruct Hj as [Hj|Hj]; inversion Hj as [? Hv|]. inversion Hv. intros y Hy. right. auto. }
    cbn [pretty] in *. destruct l as [|x l]; [reflexivity|]. destruct (_ && _); [reflexivity|]. f_equal. f_equal.
    cbn [app nf punct] in Hn. destruct Hn as [_ Hn]. apply nf_app in Hn as [Hn _]. pose proof (nf_col _ _ Hn) as Hlt.
    rewrite prefix_exact by exact Hlt. apply in_rows_exact; auto.
  - assert (Hx : is_entry x \/ is_member x).
    { destruct Hj as [Hj|Hj]; inversion Hj as [? Hv|]; [inversion Hv|]. left. constructor. assumption. }
    cbn [pretty quoted app nf punct] in *. pose proof (nf_col _ _ Hn) as Hlt.
    rewrite (wadd_exact col) by lia. rewrite (wadd_exact (col + _)) by lia. rewrite (wadd_exact (col + _ + _)) by lia. rewrite wadd_exact by lia.
    do 4 f_equal. apply IH; [exact Hx|exact Hn].
  - cbn [pretty] in *. f_equal. cbn [nf] in Hn.
    destruct (split_whitespace is_white s) as [|x l]; [reflexivity|]. unfold put_words in *.
    destruct (put_words_exact (p ++ [slashes]) l [Put White x] (col + width (chars "// ") + width x)%N) as (o' & c' & A & B).
    rewrite A in Hn |- *. cbn [fst] in Hn |- *. pose proof Hn as Hn'. cbn [app nf] in Hn'. apply nf_col in Hn'.
    rewrite (wadd_exact col) by lia. rewrite wadd_exact by lia. rewrite (B (col + width (chars "// "))%N eq_refl Hn). reflexivity.
  - destruct Hj as [Hj|Hj]; inversion Hj as [? Hv|]. inversion Hv.
Qed.

Lemma document_exact j : is_document j -> nf 0 (P N.add w [] 0 0 j) -> P wadd w [] 0 0 j = P N.add w [] 0 0 j.
Proof.
  intros Hj Hn. inversion Hj as [? He|l He]; subst; [apply pretty_exact; auto|]. cbn [pretty] in *.
  assert (H0 : psum [] = 0%N) by reflexivity.
  apply in_roots_exact; rewrite ?H0; [reflexivity| |exact Hn]. intros x tail Hx. apply pretty_exact. left. apply He. exact Hx.
Qed.
End Exact.

(** ** The output is written in one of the allowed ways *)
Section Written.
Variable is_white : char -> bool.
Variables (width : str -> N) (add : N -> N -> N) (w : N).
Notation P := (pretty is_white width add w).
Notation W := (written is_white).

Lemma words_filled p s l : forall o col, exists o', 
  fst (fold_left (put_word width add w p) l (o ++ [Put White s], col)) = o ++ o' /\ filled p (s :: l) o'.
Proof.
  revert s. induction l as [|s2 l IH]; intros s o col; cbn [fold_left].
  - exists [Put White s]. split; [reflexivity|constructor].
  - unfold put_word at 2. destruct (_ <=? _)%N.
    + rewrite <- app_assoc.
      match goal with |- context [fold_left _ l (o ++ [?a] ++ [?b; ?c], ?d)] => change (o ++ [a] ++ [b; c]) with (o ++ [a; b] ++ [c]); rewrite (app_assoc o [a; b] [c]); destruct (IH s2 (o ++ [a; b]) d) as (o' & E & F) end.
      rewrite E, <- app_assoc. eexists. split; [reflexivity|]. cbn [app]. apply f_space; [discriminate|exact F].
    + rewrite <- app_assoc.
      match goal with |- context [fold_left _ l (o ++ [?a] ++ [?b; ?c], ?d)] => change (o ++ [a] ++ [b; c]) with (o ++ [a; b] ++ [c]); rewrite (app_assoc o [a; b] [c]); destruct (IH s2 (o ++ [a; b]) d) as (o' & E & F) end.
      rewrite E, <- app_assoc. eexists. split; [reflexivity|]. cbn [app]. apply f_break; [discriminate|exact F].
Qed.

Lemma in_rows_written p (put : N -> json -> list jpiece) l : l <> [] -> (forall x tail, In x l -> W p x (put tail x)) ->
  rows is_white p l (in_rows width p put l).
Proof.
  induction l as [|x [|y l] IH]; intros Hl H; [congruence|apply r_last; apply H; left; reflexivity|].
  rewrite in_rows_cons.
  assert (R : rows is_white p (y :: l) (in_rows width p put (y :: l))) by (apply IH; [discriminate|intros; apply H; right; assumption]).
  assert (D : y :: l <> []) by discriminate.
  destruct (needs_comma x (y :: l)) eqn:C.
  - rewrite <- app_assoc. pose proof (@r_more is_white p x (y :: l) _ _ D (H x (width (chars ",")) (or_introl eq_refl)) R) as Q. rewrite C in Q. exact Q.
  - pose proof (@r_more is_white p x (y :: l) _ _ D (H x 0%N (or_introl eq_refl)) R) as Q. rewrite C in Q. exact Q.
Qed.
Lemma in_roots_written p (put : N -> json -> list jpiece) l : l <> [] -> (forall x tail, In x l -> W p x (put tail x)) ->
  roots_rows is_white p l (in_root_rows p put l).
Proof.
  induction l as [|x [|y l] IH]; intros Hl H; [congruence|apply rr_last; apply H; left; reflexivity|].
  rewrite in_roots_cons. apply rr_more; [discriminate|apply H; left; reflexivity|]. apply IH; [discriminate|intros; apply H; right; assumption].
Qed.

Lemma pretty_written j : is_entry j \/ is_member j -> forall p col tail, W p j (P p col tail j).
Proof.
  induction j as [|b|s|s|l IH|l IH|key x IH|s|l IH] using json_ind'; intros Hj p col tail;
    try (apply w_line; [reflexivity|constructor]).
  - assert (Hv : is_value (JArray l)). { destruct Hj as [Hj|Hj]; inversion Hj; assumption. }
    assert (Hl : forall x, In x l -> is_entry x) by (inversion Hv; assumption).
    cbn [pretty]. destruct l as [|x l]; [apply w_line; [reflexivity|exact Hv]|].
    destruct (has_comment (JArray (x :: l))) eqn:C; cbn [negb andb].
    2: destruct (_ <=? _)%N; [apply w_line; [exact C|exact Hv]|].
    all: apply w_array; [discriminate|]; apply in_rows_written; [discriminate|]; intros y t Hy; apply IH; [exact Hy|left; apply Hl; exact Hy].
  - assert (Hv : is_value (JObject l)). { destruct Hj as [Hj|Hj]; inversion Hj; assumption. }
    assert (Hl : forall x, In x l -> is_member x) by (inversion Hv; assumption).
    cbn [pretty]. destruct l as [|x l]; [apply w_line; [reflexivity|exact Hv]|].
    destruct (has_comment (JObject (x :: l))) eqn:C; cbn [negb andb].
    2: destruct (_ <=? _)%N; [apply w_line; [exact C|exact Hv]|].
    all: apply w_object; [discriminate|]; apply in_rows_written; [discriminate|]; intros y t Hy; apply IH; [exact Hy|right; apply Hl; exact Hy].
  - assert (Hx : is_entry x \/ is_member x).
    { destruct Hj as [Hj|Hj]; inversion Hj as [? Hv|]; [inversion Hv|]. left. constructor. assumption. }
    cbn [pretty]. apply w_pair. apply IH. exact Hx.
  - cbn [pretty]. apply w_comment. unfold put_words. destruct (split_whitespace is_white s) as [|x l]; [constructor|].
    destruct (words_filled (p ++ [slashes]) x l [] (add (add col (width (chars "// "))) (width x))) as (o' & E & F).
    cbn [app] in E. rewrite E. exact F.
  - destruct Hj as [Hj|Hj]; inversion Hj as [? Hv|]. inversion Hv.
Qed.

Lemma document_written j : is_document j -> W [] j (P [] 0 0 j).
Proof.
  intros Hj. inversion Hj as [? He|l He]; subst; [apply pretty_written; auto|]. cbn [pretty].
  destruct l as [|x l]; [apply w_no_roots|]. apply w_roots. apply in_roots_written; [discriminate|].
  intros y tail Hy. apply pretty_written. left. apply He. exact Hy.
Qed.
End Written.
