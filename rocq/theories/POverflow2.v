(** Overflow checks only turn runs into panics: panes and trees. *)
From Verif Require Export POverflow Json PPane.

Set Implicit Arguments.

Lemma checked_increment {X} i : forall v, checked (@increment X true i v) (@increment X false i v).
Proof. induction i as [|i IH]; intros [|a v]; cbn [increment]; chk. Qed.
#[export] Hint Resolve checked_increment : chk.
Lemma checked_increment_all {X} is : forall v, checked (@increment_all X true is v) (@increment_all X false is v).
Proof. induction is as [|i is IH]; intros v; cbn [increment_all]; chk. Qed.
Lemma checked_give {X} sizes : forall al c g, checked (@give_proportional X true sizes al c g) (@give_proportional X false sizes al c g).
Proof. induction sizes as [|s sizes IH]; intros al c g; cbn [give_proportional]; chk. Qed.
#[export] Hint Resolve checked_increment_all checked_give : chk.
Lemma checked_dynamic {X} d l : checked (@allocate_dynamic X true d l) (@allocate_dynamic X false d l).
Proof. unfold allocate_dynamic. chk. Qed.
Lemma checked_proportional {X} d : checked (@allocate_proportional X true d) (@allocate_proportional X false d).
Proof. unfold allocate_proportional. chk. Qed.
#[export] Hint Resolve checked_dynamic checked_proportional : chk.
Lemma checked_finish {X} d l : checked (@finish X true d l) (@finish X false d l).
Proof. unfold finish. chk. Qed.

Section Panes.
Context {pd : PrettyDoc} {pw : PrettyWindow Sty}.
Variables (uw : str -> N) (cf : char -> bool).
Local Notation T := (Build_Env uw cf true).
Local Notation F := (Build_Env uw cf false).

Definition checkedM {A} (a b : M A) : Prop := forall w, a w = b w \/ snd (a w) = Panic POverflow.

Lemma checkedM_refl {A} (a : M A) : checkedM a a.
Proof. left. reflexivity. Qed.
Lemma checkedM_bind {A B} (a b : M A) (f g : A -> M B) :
  checkedM a b -> (forall x, checkedM (f x) (g x)) -> checkedM (mbind a f) (mbind b g).
Proof.
  intros H H2 w. unfold mbind. destruct (H w) as [->|E].
  - destruct (b w) as [w' [x|e]]; [apply H2|left; reflexivity].
  - destruct (a w) as [w' r]. cbn [snd] in E. subst r. right. reflexivity.
Qed.
Lemma checkedM_pure {A} (a b : res (pane_err WErr Er) A) : checked a b -> checkedM (pure a) (pure b).
Proof. intros [->| ->] w; [left|right]; reflexivity. Qed.
Lemma checkedM_from {A} (a b : pres A) : checked a b -> checkedM (from_printing a) (from_printing b).
Proof. intros [->| ->] w; [left|right]; reflexivity. Qed.
Lemma checkedM_forM {A} (f g : A -> M unit) : (forall x, checkedM (f x) (g x)) -> forall l, checkedM (forM l f) (forM l g).
Proof. intros H. induction l as [|x l IH]; cbn [forM]; [apply checkedM_refl|]. apply checkedM_bind; [apply H|]. intros _. exact IH. Qed.
Lemma checkedM_mloop {S R} (f g : S -> M (step S R)) : (forall x, checkedM (f x) (g x)) -> forall n s, checkedM (mloop n f s) (mloop n g s).
Proof.
  intros H. induction n as [|n IH]; intros s; cbn [mloop]; [apply checkedM_refl|]. apply checkedM_bind; [apply H|].
  intros [s'|r]; [apply IH|apply checkedM_refl].
Qed.

Hint Resolve checkedM_refl checkedM_pure checkedM_from : chk.
Hint Resolve checked_pretty_print checked_down checked_up checked_left_width checked_line_width checked_finish : chk.
Ltac chm := cbn beta iota zeta;
    lazymatch goal with
    | |- checkedM (ret _) (ret _) => apply checkedM_refl
    | |- checkedM (pure ?a) (pure ?b) => apply checkedM_pure; chk
    | |- checkedM (from_printing ?a) (from_printing ?b) => apply checkedM_from; chk
    | |- checkedM (mbind _ _) (mbind _ _) => apply checkedM_bind; [|intros]; chm
    | |- checkedM (forM _ _) (forM _ _) => apply checkedM_forM; intros; chm
    | |- checkedM (mloop _ _ _) (mloop _ _ _) => apply checkedM_mloop; intros; chm
    | |- checkedM (match ?x with _ => _ end) _ => destruct x; chm
    | |- _ => solve [auto with chk]
    end.

Lemma checked_add32 {X} a b : checked (@add32 T X a b) (@add32 F X a b).
Proof. apply checked_addM. Qed.
Lemma checked_sub32 {X} a b : checked (@sub32 T X a b) (@sub32 F X a b).
Proof. apply checked_subM. Qed.
Lemma checked_sub16 {X} a b : checked (@sub16 T X a b) (@sub16 F X a b).
Proof. apply checked_subM. Qed.
Hint Resolve checked_add32 checked_sub32 checked_sub16 : chk.
Lemma checked_rect_width {X} r : checked (@rect_width T X r) (@rect_width F X r).
Proof. apply checked_sub16. Qed.
Lemma checked_rect_height {X} r : checked (@rect_height T X r) (@rect_height F X r).
Proof. apply checked_sub32. Qed.
Hint Resolve checked_rect_width checked_rect_height : chk.
Lemma checked_rect_size {X} r : checked (@rect_size T X r) (@rect_size F X r).
Proof. unfold rect_size. chk. Qed.
Lemma checked_focus_row {X} o h : checked (@choose_focus_line_row T X o h) (@choose_focus_line_row F X o h).
Proof. unfold choose_focus_line_row. chk. Qed.
Hint Resolve checked_rect_size checked_focus_row : chk.

Lemma checked_fill n ch st r : checkedM (@display_fill pd T pw n ch st r) (@display_fill pd F pw n ch st r).
Proof. unfold display_fill, fill_row, fill_body. cbn [ovf]. change (@char_full_width T) with (@char_full_width F). chm. Qed.
Lemma checked_blank i r st : checkedM (@display_blank_line pd T pw i r st) (@display_blank_line pd F pw i r st).
Proof. unfold display_blank_line. chm. Qed.
Lemma checked_chars r row st l : forall col, checkedM (@display_chars pd T pw r row st l col) (@display_chars pd F pw r row st l col).
Proof. induction l as [|c l IH]; intros col; cbn [display_chars]; [chm|]. cbn [ovf]. change (@char_full_width T) with (@char_full_width F). chm. Qed.
Hint Resolve checked_chars checked_blank checked_fill : chk.
Lemma checked_segments r row l : forall col, checkedM (@display_segments pd T pw r row l col) (@display_segments pd F pw r row l col).
Proof. induction l as [|c l IH]; intros col; cbn [display_segments]; chm. Qed.
Hint Resolve checked_segments : chk.
Lemma checked_display_line n l i r st : checkedM (@display_line pd T pw n l i r st) (@display_line pd F pw n l i r st).
Proof. unfold display_line, pad_body. cbn [ovf]. chm. Qed.
Hint Resolve checked_display_line : chk.

Lemma checked_take (f g : printer -> pres (printer * option line)) : (forall p, checked (f p) (g p)) ->
  forall k p, checked (take_lines f k p) (take_lines g k p).
Proof. intros H. induction k as [|k IH]; intros p; cbn [take_lines]; chk. Qed.
Lemma checked_take_up n k p : checked (take_lines (@up_next pd T n) k p) (take_lines (@up_next pd F n) k p).
Proof. apply checked_take. intros q. auto with chk. Qed.
Lemma checked_take_down n k p : checked (take_lines (@down_next pd T n) k p) (take_lines (@down_next pd F n) k p).
Proof. apply checked_take. intros q. auto with chk. Qed.
Hint Resolve checked_take_up checked_take_down : chk.
Lemma checked_doc_new n doc o s st : checked (@printed_doc_new pd T n doc o s st) (@printed_doc_new pd F n doc o s st).
Proof. unfold printed_doc_new. chk. Qed.
Lemma checked_doc_width p : checked (@printed_doc_width pd T p) (@printed_doc_width pd F p).
Proof. unfold printed_doc_width. chk. Qed.
Hint Resolve checked_doc_new checked_doc_width : chk.
Lemma checked_display_doc n p r : checkedM (@display_doc pd T pw n p r) (@display_doc pd F pw n p r).
Proof. unfold display_doc, display_row. cbn [ovf]. chm. Qed.
Hint Resolve checked_display_doc : chk.

Section Content.
Context {L : Type}.
Variable get : L -> option (D * printing_options).
Lemma checked_horz n st l : forall s, checkedM (@horz_dynamic pd T pw L get n st l s) (@horz_dynamic pd F pw L get n st l s).
Proof. induction l as [|[z c] l IH]; intros s; cbn [horz_dynamic]; unfold dynamic_doc; chm. Qed.
Lemma checked_vert n st l : forall s, checkedM (@vert_dynamic pd T pw L get n st l s) (@vert_dynamic pd F pw L get n st l s).
Proof. induction l as [|[z c] l IH]; intros s; cbn [vert_dynamic]; unfold dynamic_doc; chm. Qed.
Hint Resolve checked_horz checked_vert : chk.

Lemma checked_rec n p : forall st r, checkedM (@display_pane_rec pd T pw L get n p st r) (@display_pane_rec pd F pw L get n p st r).
Proof.
  induction p as [ps IH|ps IH|l|ch|s p IH] using pane_ind'; intros st r; cbn [display_pane_rec]; cbn [ovf]; [| |chm|chm|apply IH].
  - apply checkedM_bind; [chm|]. intros w. apply checkedM_bind; [chm|]. intros h. apply checkedM_bind; [chm|]. intros x.
    apply checkedM_bind; [chm|]. intros widths. generalize (snd x). generalize (min_col r). revert widths. clear x w h.
    induction ps as [|[z c] ps IHps]; intros widths col docs; [destruct widths; chm|]. destruct widths as [|width widths]; [chm|].
    assert (H : forall st' r', checkedM (@display_pane_rec pd T pw L get n c st' r') (@display_pane_rec pd F pw L get n c st' r'))
      by (intros st' r'; apply (IH z c); left; reflexivity).
    assert (IHps' := IHps (fun k p Hin => IH k p (or_intror Hin))). clear IHps.
    apply checkedM_bind; [chm|]. intros next. destruct z; try (apply checkedM_bind; [apply H|intros; apply IHps']).
    destruct docs as [|d docs]; [chm|]. apply checkedM_bind; [chm|]. intros. apply IHps'.
  - apply checkedM_bind; [chm|]. intros h. apply checkedM_bind; [chm|]. intros w. apply checkedM_bind; [chm|]. intros x.
    apply checkedM_bind; [chm|]. intros heights. generalize (snd x). generalize (min_row r). revert heights. clear x w h.
    induction ps as [|[z c] ps IHps]; intros heights row docs; [destruct heights; chm|]. destruct heights as [|height heights]; [chm|].
    assert (H : forall st' r', checkedM (@display_pane_rec pd T pw L get n c st' r') (@display_pane_rec pd F pw L get n c st' r'))
      by (intros st' r'; apply (IH z c); left; reflexivity).
    assert (IHps' := IHps (fun k p Hin => IH k p (or_intror Hin))). clear IHps.
    apply checkedM_bind; [chm|]. intros next. destruct z; try (apply checkedM_bind; [apply H|intros; apply IHps']).
    destruct docs as [|d docs]; [chm|]. apply checkedM_bind; [chm|]. intros. apply IHps'.
Qed.
Lemma checked_display_pane n p st : checkedM (@display_pane pd T pw L get n p st) (@display_pane pd F pw L get n p st).
Proof. intros w. unfold display_pane. destruct (w_size w) as [s|e|]; [apply checked_rec|left; reflexivity|left; reflexivity]. Qed.

End Content.
End Panes.
