(** Displaying a pane in two windows in lockstep (C76). *)
From Verif Require Export SpecSimPane PSim PPane.

Set Implicit Arguments.

(** ** Arithmetic does not look at the type of errors *)
Definition agree {X Y A} (a : res X A) (b : res Y A) : Prop :=
  (exists x, a = Ok x /\ b = Ok x) \/ (exists p, a = Panic p /\ b = Panic p).

Lemma agree_ok {X Y A} (x : A) : @agree X Y A (Ok x) (Ok x).
Proof. left. eauto. Qed.
Lemma agree_panic {X Y A} p : @agree X Y A (Panic p) (Panic p).
Proof. right. eauto. Qed.
Lemma agree_bind {X Y A B} (a : res X A) (b : res Y A) (f : A -> res X B) (g : A -> res Y B) :
  agree a b -> (forall x, agree (f x) (g x)) -> agree (bind a f) (bind b g).
Proof. intros [(x & -> & ->)|(p & -> & ->)] H; [apply H|apply agree_panic]. Qed.
#[export] Hint Resolve agree_ok agree_panic : agr.
Ltac agr := cbn beta iota zeta;
  lazymatch goal with
  | |- agree (bind _ _) (bind _ _) => apply agree_bind; [|intros]; agr
  | |- agree (match ?x with _ => _ end) _ => destruct x; agr
  | |- _ => first [solve [auto with agr] | idtac "stuckagr"; match goal with |- ?g => idtac g end; fail 1]
  end.

Section Pure.
Context {X Y : Type} (o : bool).
Lemma agree_add m a b : agree (@addM X m o a b) (@addM Y m o a b).
Proof. unfold addM. agr. Qed.
Lemma agree_sub m a b : agree (@subM X m o a b) (@subM Y m o a b).
Proof. unfold subM. agr. Qed.
Lemma agree_mul m a b : agree (@mulM X m o a b) (@mulM Y m o a b).
Proof. unfold mulM. agr. Qed.
Lemma agree_div a b : agree (@divM X a b) (@divM Y a b).
Proof. unfold divM. agr. Qed.
Lemma agree_mod a b : agree (@modM X a b) (@modM Y a b).
Proof. unfold modM. agr. Qed.
Hint Resolve agree_add agree_sub agree_mul agree_div agree_mod : agr.
Lemma agree_add16 a b : agree (@add16 X o a b) (@add16 Y o a b).
Proof. unfold add16. agr. Qed.
Lemma agree_sum_from m l : forall acc, agree (@sumM_from X m o acc l) (@sumM_from Y m o acc l).
Proof. induction l as [|x l IH]; intros acc; cbn [sumM_from]; agr. Qed.
Lemma agree_sum m l : agree (@sumM X m o l) (@sumM Y m o l).
Proof. apply agree_sum_from. Qed.
Lemma agree_map {A B} (f : A -> res X B) (g : A -> res Y B) : (forall x, agree (f x) (g x)) -> forall l, agree (mapM f l) (mapM g l).
Proof. intros H. induction l as [|x l IH]; cbn [mapM]; agr. Qed.
Lemma agree_increment i : forall v, agree (@increment X o i v) (@increment Y o i v).
Proof. induction i as [|i IH]; intros [|a v]; cbn [increment]; agr. Qed.
Hint Resolve agree_add16 agree_sum agree_increment : agr.
Lemma agree_increment_all is : forall v, agree (@increment_all X o is v) (@increment_all Y o is v).
Proof. induction is as [|i is IH]; intros v; cbn [increment_all]; agr. Qed.
Lemma agree_give sizes : forall al c g, agree (@give_proportional X o sizes al c g) (@give_proportional Y o sizes al c g).
Proof. induction sizes as [|s sizes IH]; intros al c g; cbn [give_proportional]; agr. Qed.
Lemma agree_give_dyn sizes : forall al g, agree (@give_dynamic X sizes al g) (@give_dynamic Y sizes al g).
Proof. induction sizes as [|s sizes IH]; intros al g; cbn [give_dynamic]; agr. Qed.
Hint Resolve agree_increment_all agree_give agree_give_dyn : agr.
Lemma agree_finish d l : agree (@finish X o d l) (@finish Y o d l).
Proof.
  unfold finish. apply agree_bind; [unfold allocate_dynamic; agr|]. intros x. apply agree_bind; [|agr].
  unfold allocate_proportional. apply agree_bind; [agr|]. intros t.
  apply agree_bind; [apply agree_map; intros; agr|]. intros base. apply agree_bind; [agr|]. intros al. apply agree_bind; [agr|]. intros lo.
  apply agree_bind; [apply agree_map; intros; agr|]. intros rems. agr.
Qed.
End Pure.
#[export] Hint Resolve agree_add agree_sub agree_add16 agree_finish : agr.

Section SimPane.
Context {pd1 pd2 : PrettyDoc} {env : Env}.
Variable T : likeness pd1 pd2.
Variable shut : @D pd1 -> Prop.
Hypothesis HR : lockstep T shut.
Context {pw1 : PrettyWindow (@Sty pd1)} {pw2 : PrettyWindow (@Sty pd2)}.
Variable W : @window_likeness pd1 pd2 pw1 pw2.
Hypothesis HW : windows_alike T W.

Notation RS := (lk_sty T).
Notation E1 := (pane_err (@WErr _ pw1) (@Er pd1)).
Notation E2 := (pane_err (@WErr _ pw2) (@Er pd2)).

(** Results that correspond. *)
Definition rres_like {A B} (Q : A -> B -> Prop) (x' : res E1 A) (x : res E2 B) : Prop :=
  match x', x with
  | Ok a', Ok a => Q a' a
  | Fail (FErr e'), Fail (FErr e) => pane_err_like T W e' e
  | Fail (FPanic p'), Fail (FPanic p) => p' = p
  | Fail FFuel, Fail FFuel => True
  | _, _ => False
  end.
Definition mm {A B} (Q : A -> B -> Prop) (m' : @M pd1 pw1 A) (m : @M pd2 pw2 B) : Prop :=
  forall w' w, wl_win W w' w ->
    (exists e, snd (m' w') = Err (PrintingErr (PrettyDocErr e)) /\ lk_off T e) \/
    (wl_win W (fst (m' w')) (fst (m w)) /\ rres_like Q (snd (m' w')) (snd (m w))).

Lemma mm_ret {A B} (Q : A -> B -> Prop) a' a : Q a' a -> mm Q (ret a') (ret a).
Proof. intros H w' w Hw. right. split; [exact Hw|exact H]. Qed.
Lemma mm_bind {A B C G} (Q : A -> B -> Prop) (Q2 : C -> G -> Prop) m' m k' k :
  mm Q m' m -> (forall a' a, Q a' a -> mm Q2 (k' a') (k a)) -> mm Q2 (mbind m' k') (mbind m k).
Proof.
  intros H Hk w' w Hw. unfold mbind. destruct (H w' w Hw) as [(e & E & He)|[Hw2 Hr]].
  - left. destruct (m' w') as [v' r']. cbn [snd] in E. subst r'. exists e. auto.
  - destruct (m' w') as [v' r'], (m w) as [v r]. cbn [fst snd] in Hw2, Hr.
    destruct r' as [a'|f'], r as [a|f]; cbn in Hr; try contradiction.
    + apply Hk; auto.
    + destruct f'; contradiction.
    + right. split; [exact Hw2|exact Hr].
Qed.
Lemma mm_mono {A B} (Q Q2 : A -> B -> Prop) m' m : (forall a b, Q a b -> Q2 a b) -> mm Q m' m -> mm Q2 m' m.
Proof.
  intros HQ H w' w Hw. destruct (H w' w Hw) as [H1|[H1 H2]]; [left; exact H1|]. right. split; [exact H1|].
  revert H2. unfold rres_like. destruct (snd (m' w')) as [a'|[| |]], (snd (m w)) as [a|[| |]]; auto.
Qed.
Lemma mm_pure {A} (a : res E1 A) (b : res E2 A) : agree a b -> mm eq (pure a) (pure b).
Proof. intros [(x & -> & ->)|(p & -> & ->)] w' w Hw; right; (split; [exact Hw|reflexivity]). Qed.
Lemma mm_from {A B} (Q : A -> B -> Prop) x' x : rr T Q x' x -> mm Q (from_printing x') (from_printing x).
Proof.
  intros H w' w Hw. unfold from_printing, rr in *. cbn [fst snd]. destruct x' as [a'|f'].
  - destruct H as (a & -> & H). right. split; [exact Hw|exact H].
  - destruct H as [(e & -> & H)|(f & -> & H)].
    + left. eauto.
    + right. split; [exact Hw|]. destruct f', f; cbn in *; auto; contradiction.
Qed.
Lemma mm_panic {A B} (Q : A -> B -> Prop) p : mm Q (fail (FPanic p)) (fail (FPanic p)).
Proof. intros w' w Hw. right. split; [exact Hw|reflexivity]. Qed.
Lemma mm_put ch p s' s full : RS s' s -> mm eq (put ch p s' full) (put ch p s full).
Proof.
  intros Hs w' w Hw. right. unfold put. destruct (wa_char HW _ _ ch p _ _ full Hw Hs) as [H1 H2].
  destruct (w_display_char w' ch p s' full) as [v' r'], (w_display_char w ch p s full) as [v r]. cbn [fst snd] in *.
  split; [exact H1|]. unfold from_window. destruct r', r; cbn in *; auto; contradiction.
Qed.
Lemma mm_focus p : mm eq (focus (pd := pd1) p) (focus (pd := pd2) p).
Proof.
  intros w' w Hw. right. unfold focus. destruct (wa_focus HW _ _ p Hw) as [H1 H2].
  destruct (w_set_focus w' p) as [v' r'], (w_set_focus w p) as [v r]. cbn [fst snd] in *.
  split; [exact H1|]. unfold from_window. destruct r', r; cbn in *; auto; contradiction.
Qed.
Lemma mm_forM {A B} (R : A -> B -> Prop) f' f : (forall x' x, R x' x -> mm eq (f' x') (f x)) ->
  forall l' l, Forall2 R l' l -> mm eq (forM l' f') (forM l f).
Proof.
  intros H l' l Hl. induction Hl as [|x' x l' l Hx Hl IH]; cbn [forM]; [apply mm_ret; reflexivity|].
  eapply mm_bind; [apply H; exact Hx|]. intros _ _ _. exact IH.
Qed.
Lemma mm_for {A} (f' : A -> @M pd1 pw1 unit) (f : A -> @M pd2 pw2 unit) : (forall x : A, mm eq (f' x) (f x)) -> forall l, mm eq (forM l f') (forM l f).
Proof. intros H l. eapply (mm_forM (R := eq)); [intros ? x ->; apply H|]. induction l; auto. Qed.
Definition msteps {S U} (a b : step S U) : Prop := a = b.
Lemma mm_loop {S U} (f' : S -> @M pd1 pw1 (step S U)) (f : S -> @M pd2 pw2 (step S U)) : (forall s, mm eq (f' s) (f s)) -> forall n s, mm eq (mloop n f' s) (mloop n f s).
Proof.
  intros H. induction n as [|n IH]; intros s; cbn [mloop]; [intros w' w Hw; right; split; [exact Hw|exact I]|].
  eapply mm_bind; [apply H|]. intros ? x ->. destruct x; [apply IH|apply mm_ret; reflexivity].
Qed.

Hint Resolve mm_put mm_focus : mm.
Ltac mmt := cbn beta iota zeta;
    lazymatch goal with
    | |- mm eq (ret _) (ret _) => apply mm_ret; reflexivity
    | |- mm eq (pure _) (pure _) => apply mm_pure; solve [unfold rect_size; agr]
    | |- mm eq (mbind _ _) (mbind _ _) => eapply (@mm_bind _ _ _ _ eq); [mmt|let x := fresh "x" in intros ? x ->; mmt]
    | |- mm eq (forM _ _) (forM _ _) => apply mm_for; intros; mmt
    | |- mm eq (mloop _ _ _) (mloop _ _ _) => apply mm_loop; intros; mmt
    | |- mm eq (match ?x with _ => _ end) _ => destruct x; mmt
    | |- mm eq (fail (FPanic _)) (fail (FPanic _)) => apply mm_panic
    | |- _ => first [solve [eauto with mm] | idtac "stuck"; match goal with |- ?g => idtac g end; fail 1]
    end.

Lemma agree_add32 {X Y} a b : agree (@add32 env X a b) (@add32 env Y a b).
Proof. apply agree_add. Qed.
Lemma agree_sub32 {X Y} a b : agree (@sub32 env X a b) (@sub32 env Y a b).
Proof. apply agree_sub. Qed.
Lemma agree_sub16 {X Y} a b : agree (@sub16 env X a b) (@sub16 env Y a b).
Proof. apply agree_sub. Qed.
Hint Resolve agree_add32 agree_sub32 agree_sub16 : agr.
Lemma agree_width {X Y} r : agree (@rect_width env X r) (@rect_width env Y r).
Proof. apply agree_sub16. Qed.
Lemma agree_height {X Y} r : agree (@rect_height env X r) (@rect_height env Y r).
Proof. apply agree_sub32. Qed.
Hint Resolve agree_width agree_height : agr.
Lemma agree_size {X Y} r : agree (@rect_size env X r) (@rect_size env Y r).
Proof. unfold rect_size. agr. Qed.
Lemma agree_focus_row {X Y} o h : agree (@choose_focus_line_row env X o h) (@choose_focus_line_row env Y o h).
Proof. unfold choose_focus_line_row. agr. Qed.
Hint Resolve agree_size agree_focus_row : agr.

Lemma fill_sim n ch s' s r : RS s' s -> mm eq (@display_fill pd1 env pw1 n ch s' r) (@display_fill pd2 env pw2 n ch s r).
Proof. intros H. unfold display_fill, fill_row, fill_body. mmt. Qed.
Lemma blank_sim i r s' s : RS s' s -> mm eq (@display_blank_line pd1 env pw1 i r s') (@display_blank_line pd2 env pw2 i r s).
Proof. intros H. unfold display_blank_line. mmt. Qed.
Lemma chars_sim r row s' s l : RS s' s -> forall col, mm eq (@display_chars pd1 env pw1 r row s' l col) (@display_chars pd2 env pw2 r row s l col).
Proof. intros H. induction l as [|c l IH]; intros col; cbn [display_chars]; mmt. Qed.
Hint Resolve chars_sim blank_sim fill_sim : mm.
Lemma segments_sim r row l' l : line_like T l' l -> forall col, mm eq (@display_segments pd1 env pw1 r row l' col) (@display_segments pd2 env pw2 r row l col).
Proof.
  intros H. induction H as [|s' s l' l (H1 & H2 & H3) Hl IH]; intros col; cbn [display_segments]; [mmt|]. rewrite H1. mmt.
Qed.
Hint Resolve segments_sim : mm.
Lemma line_sim n l' l i r s' s : line_like T l' l -> RS s' s -> mm eq (@display_line pd1 env pw1 n l' i r s') (@display_line pd2 env pw2 n l i r s).
Proof. intros H Hs. unfold display_line, pad_body. mmt. Qed.
Hint Resolve line_sim : mm.

Record rpd (p' : @printed_doc pd1) (p : @printed_doc pd2) : Prop := {
  rpd_lines : Forall2 (line_like T) (pd_lines p') (pd_lines p);
  rpd_index : pd_focus_line_index p' = pd_focus_line_index p;
  rpd_row : pd_focus_line_row p' = pd_focus_line_row p;
  rpd_point : pd_focus_point p' = pd_focus_point p;
  rpd_blank : RS (pd_blank_style p') (pd_blank_style p) }.

Lemma rr_agree {A} (a : @pres pd1 A) (b : @pres pd2 A) : agree a b -> rr T eq a b.
Proof. intros [(x & -> & ->)|(p & -> & ->)]; [apply rr_ok; reflexivity|apply rr_fail; reflexivity]. Qed.

Lemma take_sim k n (next' : nat -> @printer pd1 -> _) (next : nat -> @printer pd2 -> _) (RP : @printer pd1 -> @printer pd2 -> Prop) :
  (forall p' p, RP p' p -> rr T (fun a' a => RP (fst a') (fst a) /\ rol T (snd a') (snd a)) (next' n p') (next n p)) ->
  forall p' p, RP p' p -> rr T (fun a' a => RP (fst a') (fst a) /\ Forall2 (line_like T) (snd a') (snd a))
     (Pane.take_lines (next' n) k p') (Pane.take_lines (next n) k p).
Proof.
  intros H. induction k as [|k IH]; intros p' p Hp; cbn [Pane.take_lines]; [apply rr_ok; split; [exact Hp|constructor]|].
  eapply rr_bind; [apply H; exact Hp|]. intros [q' ol'] [q ol] [Hq Hol]. cbn [fst snd] in Hq, Hol.
  eapply rr_bind; [apply IH; exact Hq|]. intros [v' ls'] [v ls] [Hv Hls]. cbn [fst snd] in Hv, Hls. apply rr_ok. split; [exact Hv|].
  cbn [fst snd]. destruct ol', ol; cbn in Hol; try contradiction; auto.
Qed.

Lemma combine_style s' s : RS s' s -> root_style_like T (Some s') (Some s).
Proof. intros H t' t Ht. cbn. apply (ls_combine HR); auto. Qed.

Lemma left_width_sim fl' fl : focused_like T fl' fl -> rr T eq (left_width fl') (left_width fl).
Proof. intros [H _]. unfold left_width. apply sum16_sim. apply (widths_like H). Qed.
Lemma line_width_sim l' l : line_like T l' l -> rr T eq (line_width l') (line_width l).
Proof. intros H. unfold line_width. apply sum16_sim. apply (widths_like H). Qed.

Lemma doc_new_sim n d' d o s st' st : lk_doc T d' d -> RS st' st ->
  rr T rpd (printed_doc_new n d' o s st') (printed_doc_new n d o s st).
Proof.
  intros Hd Hs. unfold printed_doc_new. destruct (_ || _)%bool; [apply rr_ok; split; auto; constructor|].
  eapply rr_bind; [apply rr_agree, agree_focus_row|]. intros ? row ->.
  eapply rr_bind; [apply (pretty_print_sim HR); [exact Hd|apply combine_style; exact Hs]|].
  intros [[up' fl'] down'] [[up fl] down] (H1 & H2 & H3). cbn [fst snd] in H1, H2, H3.
  eapply rr_bind with (Q := eq).
  { destruct (o_set_focus o); [|apply rr_ok; reflexivity]. eapply rr_bind; [apply left_width_sim; exact H2|]. intros ? col ->. apply rr_ok. reflexivity. }
  intros ? fp ->.
  eapply rr_bind; [eapply (@take_sim _ n up_next up_next); [intros; apply (print_prev_line_sim HR); eauto|exact H1]|].
  intros [a' above'] [a above] [_ Hab]. cbn [fst snd] in Hab.
  eapply rr_bind; [apply rr_agree, agree_add32|]. intros ? next ->.
  eapply rr_bind; [eapply (@take_sim _ n down_next down_next); [intros; apply (print_next_line_sim HR); eauto|exact H3]|].
  intros [b' below'] [b below] [_ Hbe]. cbn [fst snd] in Hbe. apply rr_ok. split; cbn; auto.
  - apply Forall2_app; [apply Forall2_rev; exact Hab|]. constructor; [|exact Hbe]. destruct H2. unfold focused_to_line. apply Forall2_app; auto.
  - apply (Forall2_length Hab).
Qed.

Lemma doc_width_sim p' p : rpd p' p -> rr T eq (printed_doc_width p') (printed_doc_width p).
Proof.
  intros H. unfold printed_doc_width. eapply rr_bind with (Q := eq); [|intros ? ws ->; apply rr_ok; reflexivity].
  induction (rpd_lines H) as [|l' l ls' ls Hl Hls IH]; cbn [mapM]; [apply rr_ok; reflexivity|].
  eapply rr_bind; [apply line_width_sim; exact Hl|]. intros ? x ->. eapply rr_bind; [exact IH|]. intros ? xs ->. apply rr_ok. reflexivity.
Qed.

Lemma nth_like {A B} (P : A -> B -> Prop) l' l : Forall2 P l' l -> forall i,
  match nth_error l' i, nth_error l i with Some x', Some x => P x' x | None, None => True | _, _ => False end.
Proof. intros H. induction H; intros [|i]; cbn; auto. apply IHForall2. Qed.

Lemma display_doc_sim n p' p r : rpd p' p -> mm eq (@display_doc pd1 env pw1 n p' r) (@display_doc pd2 env pw2 n p r).
Proof.
  intros H. unfold display_doc. rewrite (rpd_index H), (rpd_row H), (rpd_point H), (Forall2_length (rpd_lines H)).
  eapply mm_bind with (Q := eq); [mmt|]. intros _ _ _.
  eapply mm_bind with (Q := eq); [mmt|]. intros ? first ->. eapply mm_bind with (Q := eq); [mmt|]. intros ? last ->.
  eapply mm_bind with (Q := eq); [mmt|]. intros ? s ->. apply mm_for. intros row. unfold display_row.
  pose proof (rpd_blank H) as Hb. destruct (_ && _)%bool; [|apply blank_sim; exact Hb].
  pose proof (nth_like (rpd_lines H) (N.to_nat (row - first))) as Hn.
  destruct (nth_error (pd_lines p') _), (nth_error (pd_lines p) _); try contradiction; [|apply mm_panic]. apply line_sim; auto.
Qed.

Section Content.
Context {L1 L2 : Type}.
Variable RL : L1 -> L2 -> Prop.
Variable get' : L1 -> option (@D pd1 * printing_options).
Variable get : L2 -> option (@D pd2 * printing_options).
Hypothesis HL : contents_like T RL get' get.
Notation pl := (pane_like T RL).

Lemma empty_sim s' s : RS s' s -> rpd (printed_doc_empty s') (printed_doc_empty s).
Proof. intros H. split; cbn; auto. Qed.

Lemma dynamic_sim n l' l s st' st : RL l' l -> RS st' st ->
  mm rpd (@dynamic_doc pd1 env pw1 L1 get' n l' s st') (@dynamic_doc pd2 env pw2 L2 get n l s st).
Proof.
  intros Hl Hs. unfold dynamic_doc. pose proof (HL Hl) as H. destruct (get' l') as [[d' o']|], (get l) as [[d o]|]; try contradiction.
  - destruct H as [Hd ->]. apply mm_from, doc_new_sim; auto.
  - apply mm_ret, empty_sim, Hs.
Qed.

Lemma extract_sim p' : forall p st' st, pl p' p -> RS st' st ->
  mm (fun x' x => RL (fst x') (fst x) /\ RS (snd x') (snd x))
     (pure (@extract_doc pd1 pw1 L1 p' st')) (pure (@extract_doc pd2 pw2 L2 p st)).
Proof.
  induction p' as [ps IH|ps IH|l|ch|s p' IH] using pane_ind'; intros p st' st H Hs; inversion H; subst; cbn [extract_doc];
    try (intros w' w Hw; right; split; [exact Hw|exact I]).
  - intros w' w Hw. right. split; [exact Hw|]. split; auto.
  - apply IH; auto. apply (ls_combine HR); auto.
Qed.

Definition rdyn (x' : list N * list (@printed_doc pd1)) (x : list N * list (@printed_doc pd2)) : Prop :=
  fst x' = fst x /\ Forall2 rpd (snd x') (snd x).

Lemma horz_sim n st' st ps' ps : RS st' st -> Forall2 (fun x' x => fst x' = fst x /\ pl (snd x') (snd x)) ps' ps -> forall s,
  mm rdyn (@horz_dynamic pd1 env pw1 L1 get' n st' ps' s) (@horz_dynamic pd2 env pw2 L2 get n st ps s).
Proof.
  intros Hs H. induction H as [|[z' c'] [z c] ps' ps [Hz Hc] H IH]; intros s; cbn [horz_dynamic]; [apply mm_ret; split; auto; constructor|].
  cbn [fst snd] in Hz, Hc. subst z'. destruct z; try apply IH.
  eapply mm_bind; [apply extract_sim; [exact Hc|exact Hs]|]. intros x' x [Hx1 Hx2].
  eapply mm_bind; [apply dynamic_sim; eauto|]. intros p' p Hp.
  eapply mm_bind; [apply mm_from, doc_width_sim; exact Hp|]. intros ? w ->.
  eapply mm_bind; [apply mm_pure, agree_sub16|]. intros ? rest ->.
  eapply mm_bind; [apply IH|]. intros y' y [Hy1 Hy2]. apply mm_ret. split; cbn; [f_equal; exact Hy1|]. auto.
Qed.
Lemma vert_sim n st' st ps' ps : RS st' st -> Forall2 (fun x' x => fst x' = fst x /\ pl (snd x') (snd x)) ps' ps -> forall s,
  mm rdyn (@vert_dynamic pd1 env pw1 L1 get' n st' ps' s) (@vert_dynamic pd2 env pw2 L2 get n st ps s).
Proof.
  intros Hs H. induction H as [|[z' c'] [z c] ps' ps [Hz Hc] H IH]; intros s; cbn [vert_dynamic]; [apply mm_ret; split; auto; constructor|].
  cbn [fst snd] in Hz, Hc. subst z'. destruct z; try apply IH.
  eapply mm_bind; [apply extract_sim; [exact Hc|exact Hs]|]. intros x' x [Hx1 Hx2].
  eapply mm_bind; [apply dynamic_sim; eauto|]. intros p' p Hp. cbn zeta.
  assert (Eh : printed_doc_height p' = printed_doc_height p) by (unfold printed_doc_height; rewrite (Forall2_length (rpd_lines Hp)); reflexivity).
  rewrite Eh. eapply mm_bind; [apply mm_pure, agree_sub32|]. intros ? rest ->.
  eapply mm_bind; [apply IH|]. intros y' y [Hy1 Hy2]. apply mm_ret. split; cbn; [f_equal; exact Hy1|]. auto.
Qed.

Lemma fst_sizes (ps' : list (pane_size * pane L1 (@Sty pd1))) (ps : list (pane_size * pane L2 (@Sty pd2))) : Forall2 (fun x' x => fst x' = fst x /\ pl (snd x') (snd x)) ps' ps -> map fst ps' = map fst ps.
Proof. intros H. induction H as [|x' x ps' ps [H1 _] H IH]; cbn; congruence. Qed.

Lemma rec_sim n p' : forall p st' st r, pl p' p -> RS st' st ->
  mm eq (@display_pane_rec pd1 env pw1 L1 get' n p' st' r) (@display_pane_rec pd2 env pw2 L2 get n p st r).
Proof.
  induction p' as [ps' IH|ps' IH|l'|ch|s' p' IH] using pane_ind'; intros p st' st r H Hs; inversion H as [? ps Hps E|? ps Hps E|? l Hl E|? E|? s ? q Hss Hpl E]; subst; cbn [display_pane_rec].
  - rewrite (fst_sizes Hps).
    eapply mm_bind; [apply mm_pure; agr|]. intros ? w ->. cbn zeta. eapply mm_bind; [apply mm_pure; agr|]. intros ? h ->.
    eapply mm_bind; [apply horz_sim; [exact Hs|exact Hps]|]. intros x' x [Hx1 Hx2]. rewrite Hx1.
    eapply mm_bind; [apply mm_pure; agr|]. intros ? widths ->.
    revert Hx2. generalize (snd x') (snd x). generalize (min_col r). revert widths. clear x' x w h Hx1. clear H.
    induction Hps as [|[z' c'] [z c] ps' ps [Hz Hc] Hps IHps]; intros widths col docs' docs Hd; [destruct widths; mmt|].
    cbn [fst snd] in Hz, Hc. subst z'.
    destruct widths as [|width widths]; [mmt|].
    assert (H : forall r', mm eq (@display_pane_rec pd1 env pw1 L1 get' n c' st' r') (@display_pane_rec pd2 env pw2 L2 get n c st r'))
      by (intros r'; apply (IH z c' (or_introl eq_refl)); auto).
    assert (IHps' := IHps (fun k p Hin => IH k p (or_intror Hin))). clear IHps.
    eapply mm_bind; [apply mm_pure; agr|]. intros ? next ->. destruct z; try (eapply mm_bind; [apply H|intros _ _ _; apply IHps'; exact Hd]).
    inversion Hd as [|d' d ds' ds Hdd Hds E1' E2']; subst; [apply mm_panic|]. eapply mm_bind; [apply display_doc_sim; exact Hdd|]. intros _ _ _. apply IHps'. exact Hds.
  - rewrite (fst_sizes Hps).
    eapply mm_bind; [apply mm_pure; agr|]. intros ? h ->. cbn zeta. eapply mm_bind; [apply mm_pure; agr|]. intros ? w ->.
    eapply mm_bind; [apply vert_sim; [exact Hs|exact Hps]|]. intros x' x [Hx1 Hx2]. rewrite Hx1.
    eapply mm_bind; [apply mm_pure; agr|]. intros ? heights ->.
    revert Hx2. generalize (snd x') (snd x). generalize (min_row r). revert heights. clear x' x w h Hx1. clear H.
    induction Hps as [|[z' c'] [z c] ps' ps [Hz Hc] Hps IHps]; intros heights row docs' docs Hd; [destruct heights; mmt|].
    cbn [fst snd] in Hz, Hc. subst z'.
    destruct heights as [|height heights]; [mmt|].
    assert (H : forall r', mm eq (@display_pane_rec pd1 env pw1 L1 get' n c' st' r') (@display_pane_rec pd2 env pw2 L2 get n c st r'))
      by (intros r'; apply (IH z c' (or_introl eq_refl)); auto).
    assert (IHps' := IHps (fun k p Hin => IH k p (or_intror Hin))). clear IHps.
    eapply mm_bind; [apply mm_pure; agr|]. intros ? next ->. destruct z; try (eapply mm_bind; [apply H|intros _ _ _; apply IHps'; exact Hd]).
    inversion Hd as [|d' d ds' ds Hdd Hds E1' E2']; subst; [apply mm_panic|]. eapply mm_bind; [apply display_doc_sim; exact Hdd|]. intros _ _ _. apply IHps'. exact Hds.
  - pose proof (HL Hl) as Hg. destruct (get' l') as [[d' o']|], (get l) as [[d o]|]; try contradiction; [|mmt].
    destruct Hg as [Hd ->]. eapply mm_bind; [apply mm_pure; agr|]. intros ? s ->.
    eapply mm_bind; [apply mm_from, doc_new_sim; eauto|]. intros x' x Hx. apply display_doc_sim. exact Hx.
  - apply fill_sim. exact Hs.
  - apply IH; auto. apply (ls_combine HR); auto.
Qed.

Lemma mm_ran m' m w' w : mm eq m' m -> wl_win W w' w -> ran_alike (A := unit) T W (m' w') (m w).
Proof. intros H Hw. destruct (H w' w Hw) as [H1|[H1 H2]]; [left; exact H1|right; split; [exact H1|exact H2]]. Qed.

Lemma display_sim n p' p st' st w' w : pl p' p -> RS st' st -> wl_win W w' w ->
  ran_alike T W (@display_pane pd1 env pw1 L1 get' n p' st' w') (@display_pane pd2 env pw2 L2 get n p st w).
Proof.
  intros Hp Hs Hw. unfold display_pane. pose proof (wa_size HW _ _ Hw) as H. unfold reply_like in H.
  destruct (w_size w') as [s'|e'|], (w_size w) as [s|e|]; try contradiction.
  - subst s'. apply mm_ran; [apply rec_sim; auto|exact Hw].
  - right. split; [exact Hw|]. exact H.
  - right. split; [exact Hw|]. reflexivity.
Qed.
End Content.
End SimPane.
