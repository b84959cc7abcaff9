(** Overflow checks only turn runs into panics: every function of the model,
    run with overflow checks, returns what it returns without them, or panics
    with an overflow. *)
From Verif Require Export Pane Oracle TreeDoc PFuel.

Set Implicit Arguments.

(** [checked a b]: [a] is [b], or an overflow. *)
Definition checked {X A} (a b : res X A) : Prop := a = b \/ a = Panic POverflow.

Lemma checked_refl {X A} (a : res X A) : checked a a.
Proof. left. reflexivity. Qed.
Lemma checked_bind {X A B} (a b : res X A) (f g : A -> res X B) :
  checked a b -> (forall x, checked (f x) (g x)) -> checked (bind a f) (bind b g).
Proof. intros [->| ->] H; [|right; reflexivity]. destruct b; cbn [bind]; [apply H|left; reflexivity]. Qed.
Lemma checked_loop {X S R} (f g : S -> res X (step S R)) : (forall s, checked (f s) (g s)) ->
  forall n s, checked (loop n f s) (loop n g s).
Proof.
  intros H. induction n as [|n IH]; intros s; [left; reflexivity|]. cbn [loop].
  destruct (H s) as [->| ->]; [|right; reflexivity]. destruct (g s) as [[s'|r]|]; [apply IH|left; reflexivity|left; reflexivity].
Qed.
Lemma checked_mapM {X A B} (f g : A -> res X B) : (forall a, checked (f a) (g a)) -> forall l, checked (mapM f l) (mapM g l).
Proof.
  intros H. induction l as [|x l IH]; cbn [mapM]; [apply checked_refl|]. apply checked_bind; [apply H|]. intros y.
  apply checked_bind; [exact IH|]. intros ys. apply checked_refl.
Qed.
Lemma checked_add16 {X} a b : checked (X := X) (add16 true a b) (add16 false a b).
Proof. unfold add16. destruct (_ <? _)%N; [left|right]; reflexivity. Qed.
Lemma checked_addM {X} m a b : checked (X := X) (addM m true a b) (addM m false a b).
Proof. unfold addM. destruct (_ <? _)%N; [left|right]; reflexivity. Qed.
Lemma checked_subM {X} m a b : checked (X := X) (subM m true a b) (subM m false a b).
Proof. unfold subM. destruct (_ <=? _)%N; [left|right]; reflexivity. Qed.
Lemma checked_mulM {X} m a b : checked (X := X) (mulM m true a b) (mulM m false a b).
Proof. unfold mulM. destruct (_ <? _)%N; [left|right]; reflexivity. Qed.

Create HintDb chk.
#[export] Hint Resolve checked_add16 checked_addM checked_subM checked_mulM checked_refl : chk.

Ltac chk := cbn beta iota zeta;
    lazymatch goal with
    | |- checked (bind _ _) (bind _ _) => apply checked_bind; [|intros]; chk
    | |- checked (loop _ _ _) (loop _ _ _) => apply checked_loop; intros; chk
    | |- checked (mapM _ _) (mapM _ _) => apply checked_mapM; intros; chk
    | |- checked (match ?x with _ => _ end) (match ?y with _ => _ end) => constr_eq x y; destruct x; chk
    | |- checked (Ok _) (Ok _) => apply checked_refl
    | |- checked (Fail _) (Fail _) => apply checked_refl
    | |- _ => solve [auto with chk]
    end.

Lemma checked_sum16_from {X} l : forall acc, checked (X := X) (sum16_from true acc l) (sum16_from false acc l).
Proof. induction l as [|x l IH]; intros acc; cbn [sum16_from]; chk. Qed.
Lemma checked_sum16 {X} l : checked (X := X) (sum16 true l) (sum16 false l).
Proof. apply checked_sum16_from. Qed.
Lemma checked_sumM_from {X} m l : forall acc, checked (X := X) (sumM_from m true acc l) (sumM_from m false acc l).
Proof. induction l as [|x l IH]; intros acc; cbn [sumM_from]; chk. Qed.
Lemma checked_sumM {X} m l : checked (X := X) (sumM m true l) (sumM m false l).
Proof. apply checked_sumM_from. Qed.
#[export] Hint Resolve checked_sum16 checked_sumM : chk.

Section Print.
Context {pd : PrettyDoc}.
Variables (uw : str -> N) (cf : char -> bool).
Local Notation T := (Build_Env uw cf true).
Local Notation F := (Build_Env uw cf false).

Lemma checked_eval d : checked (@eval pd T d) (@eval pd F d).
Proof. apply checked_refl. Qed.
Lemma checked_style doc st : checked (@with_optional_style pd doc st) (@with_optional_style pd doc st).
Proof. apply checked_refl. Qed.
Hint Resolve checked_eval checked_style : chk.
Lemma checked_chunk_new d : checked (@chunk_new pd T d) (@chunk_new pd F d).
Proof. apply checked_refl. Qed.
Lemma checked_block_new i cs : checked (@block_new pd T i cs) (@block_new pd F i cs).
Proof. unfold block_new. cbn [ovf]. chk. Qed.
Lemma checked_push_text b t : checked (@push_text pd T b t) (@push_text pd F b t).
Proof. unfold push_text. cbn [ovf]. chk. Qed.
Hint Resolve checked_chunk_new checked_block_new checked_push_text : chk.
Lemma checked_fits n w e c cs : checked (@fits pd T n w e c cs) (@fits pd F n w e c cs).
Proof. apply checked_refl. Qed.
Hint Resolve checked_fits : chk.
Lemma checked_choose n p b a c : checked (@choose pd T n p b a c) (@choose pd F n p b a c).
Proof. unfold choose. chk. Qed.
Lemma checked_expand_first n p b c : checked (@expand_first pd T n p b c) (@expand_first pd F n p b c).
Proof. unfold expand_first. apply checked_loop. intros [[stack p'] b']. unfold expand_first_body. chk. Qed.
Lemma checked_expand_last n p b c : checked (@expand_last pd T n p b c) (@expand_last pd F n p b c).
Proof.
  unfold expand_last. apply checked_bind; [|intros [[chunks p'] b']; apply checked_refl].
  apply checked_loop. intros [[[chunks stack] p'] b']. unfold expand_last_body. chk.
Qed.
Hint Resolve checked_choose checked_expand_first checked_expand_last : chk.

Lemma checked_print_next n p : checked (@print_next_line pd T n p) (@print_next_line pd F n p).
Proof. unfold print_next_line, print_next_body. chk. Qed.
Lemma checked_print_prev n p : checked (@print_prev_line pd T n p) (@print_prev_line pd F n p).
Proof. unfold print_prev_line, print_prev_body. chk. Qed.
Lemma checked_down n p : checked (@down_next pd T n p) (@down_next pd F n p).
Proof. apply checked_print_next. Qed.
Lemma checked_up n p : checked (@up_next pd T n p) (@up_next pd F n p).
Proof. apply checked_print_prev. Qed.
Hint Resolve checked_print_next checked_print_prev checked_down checked_up : chk.
Lemma checked_seek_end n p c : checked (@seek_end pd T n p c) (@seek_end pd F n p c).
Proof. unfold seek_end, seek_end_body. chk. Qed.
Lemma checked_seek_start n p c : checked (@seek_start pd T n p c) (@seek_start pd F n p c).
Proof. unfold seek_start. chk. Qed.
Lemma checked_seek_mark n p c : checked (@seek_mark pd T n p c) (@seek_mark pd F n p c).
Proof. unfold seek_mark, seek_mark_outer, seek_mark_body. chk. Qed.
Lemma checked_seek_text n p c i : checked (@seek_text pd T n p c i) (@seek_text pd F n p c i).
Proof. unfold seek_text, seek_text_outer, seek_text_body. change (@split_at pd T) with (@split_at pd F). chk. Qed.
Lemma checked_seek_child n p c i : checked (@seek_child pd T n p c i) (@seek_child pd F n p c i).
Proof. unfold seek_child, seek_child_outer, seek_child_body. chk. Qed.
Hint Resolve checked_seek_end checked_seek_start checked_seek_mark checked_seek_text checked_seek_child : chk.
Lemma checked_seek_path n path : forall p c, checked (@seek_path pd T n p c path) (@seek_path pd F n p c path).
Proof. induction path as [|i path IH]; intros p c; cbn [seek_path]; chk. Qed.
Hint Resolve checked_seek_path : chk.
Lemma checked_seek n p doc path ft st : checked (@seek pd T n p doc path ft st) (@seek pd F n p doc path ft st).
Proof. unfold seek. chk. Qed.
Hint Resolve checked_seek : chk.
Lemma checked_pretty_print n doc w path ft st : checked (@pretty_print pd T n doc w path ft st) (@pretty_print pd F n doc w path ft st).
Proof. unfold pretty_print. unfold printer_new. chk. Qed.
Hint Resolve checked_pretty_print : chk.
Lemma checked_collect n (f g : printer -> pres (printer * option line)) p : (forall p, checked (f p) (g p)) ->
  checked (collect n f p) (collect n g p).
Proof. intros H. unfold collect, collect_body. chk. Qed.
Lemma checked_to_string n doc w : checked (@pretty_print_to_string pd T n doc w) (@pretty_print_to_string pd F n doc w).
Proof. unfold pretty_print_to_string, to_string_body. chk. Qed.
Lemma checked_line_width l : checked (@line_width pd T l) (@line_width pd F l).
Proof. unfold line_width. cbn [ovf]. chk. Qed.
Lemma checked_left_width l : checked (@left_width pd T l) (@left_width pd F l).
Proof. unfold left_width. cbn [ovf]. chk. Qed.
Hint Resolve checked_line_width checked_left_width : chk.

(** The oracle. *)
Lemma checked_first_line_len n : forall c s, checked (@first_line_len pd T n c s) (@first_line_len pd F n c s).
Proof. induction n as [|n IH]; intros c s; [apply checked_refl|]. cbn [first_line_len]. cbn [ovf]. chk. Qed.
Hint Resolve checked_first_line_len : chk.
Lemma checked_opp n : forall p c s w, checked (@opp pd T n p c s w) (@opp pd F n p c s w).
Proof.
  induction n as [|n IH]; intros p c s w; [apply checked_refl|]. cbn [opp]. cbn [ovf].
  change (@last_line_len T p) with (@last_line_len F p). chk.
Qed.
Lemma checked_unwrapped {A} (a b : pres A) : checked a b -> checked (unwrapped a) (unwrapped b).
Proof. intros [->| ->]; [left|right]; reflexivity. Qed.
Lemma checked_oracle n doc w : checked (@oracular_pretty_print pd T n doc w) (@oracular_pretty_print pd F n doc w).
Proof.
  unfold oracular_pretty_print. apply checked_bind; [apply checked_refl|]. intros d. apply checked_bind; [apply checked_refl|]. intros c.
  apply checked_bind; [|intros; apply checked_refl]. apply checked_unwrapped. apply checked_opp.
Qed.
End Print.
