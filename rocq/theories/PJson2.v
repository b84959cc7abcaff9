(** The layout of JSON documents: straight trees, and the flat layout. *)
From Verif Require Export PJson PElab PRewrite.
From Coq Require Import String.

Set Implicit Arguments.

#[local] Existing Instance tree_doc.

Definition wadd (a b : N) : N := if (a + b <? U16)%N then (a + b)%N else ((a + b) mod U16)%N.

Section Straight.
Context {env : Env}.
Notation jpd := (@tree_doc basic_tree_style).
Notation shape := (@shape jpd).
Notation EEnter := (@EEnter jpd).
Notation EExit := (@EExit jpd).
Notation EMark := (@EMark jpd).
Notation textual := (@textual (@tree_doc basic_tree_style)).

(** No choices, newlines or failures. *)
Fixpoint straight (s : shape) : Prop :=
  match s with
  | SFail _ | SNewline _ | SChoice _ _ => False
  | SConcat a b => straight a /\ straight b
  | SChild _ i s' => (exists j, i = Ok j) /\ straight s'
  | _ => True
  end.
Fixpoint steps (s : shape) : list (option textual) :=
  match s with
  | SEol => [None]
  | SText t => [Some t]
  | SConcat a b => steps a ++ steps b
  | SChild _ _ s' => steps s'
  | _ => []
  end.
Fixpoint runf (l : list (option textual)) (k : look) (rem : N) (eol : bool) : option bool :=
  match l with
  | [] => k rem eol
  | None :: l' => runf l' k rem true
  | Some t :: l' => if eol then Some false else if (tx_width t <=? rem)%N then runf l' k (rem - tx_width t)%N eol else Some false
  end.

Lemma straight_head s : straight s -> head_fails s = false.
Proof. destruct s; simpl; tauto. Qed.

Lemma runf_app a : forall b k rem eol, runf (a ++ b) k rem eol = runf a (runf b k) rem eol.
Proof. induction a as [|[t|] a IH]; intros; cbn [app runf]; auto. destruct eol; auto. destruct (_ <=? _)%N; auto. Qed.

Lemma runf_keq l k k' : keq k k' -> keq (runf l k) (runf l k').
Proof. intros H. induction l as [|[t|] l IH]; intros rem eol; cbn [runf]; auto. destruct eol; auto. destruct (_ <=? _)%N; auto. Qed.

Lemma fits_steps s : straight s -> forall k rem eol, fits_s s k rem eol = runf (steps s) k rem eol.
Proof.
  induction s as [f| | |ind|t|a IHa b IHb|a IHa b IHb|n i s IH|]; intros Hs k rem eol; cbn [straight] in Hs; cbn [fits_s steps runf]; try tauto; auto.
  - destruct Hs as [Ha Hb]. rewrite (straight_head _ Hb), runf_app, IHa by auto. apply runf_keq. intros r e. apply IHb. exact Hb.
  - apply IH. apply Hs.
Qed.

Definition sumt (l : list textual) : N := fold_right N.add 0%N (map tx_width l).

Lemma runf_texts l : forall k rem, runf (map Some l) k rem false = if (sumt l <=? rem)%N then k (rem - sumt l)%N false else Some false.
Proof.
  induction l as [|t l IH]; intros k rem; cbn [map runf].
  - change (sumt []) with 0%N. rewrite N.sub_0_r. destruct (N.leb_spec 0 rem); [reflexivity|lia].
  - change (sumt (t :: l)) with (tx_width t + sumt l)%N. rewrite IH.
    destruct (N.leb_spec (tx_width t) rem).
    + destruct (N.leb_spec (sumt l) (rem - tx_width t)), (N.leb_spec (tx_width t + sumt l) rem); try lia; [|reflexivity].
      f_equal. lia.
    + destruct (N.leb_spec (tx_width t + sumt l) rem); [lia|reflexivity].
Qed.

Lemma runf_end t l : forall rem, runf (l ++ [Some t]) (fun _ _ => None) rem true = Some false.
Proof. induction l as [|[x|] l IH]; intros rem; cbn [app runf]; auto. Qed.

Lemma runf_true t l : forall k rem, runf (l ++ [Some t]) k rem true = Some false.
Proof. induction l as [|[x|] l IH]; intros k rem; cbn [app runf]; auto. Qed.

Lemma runf_commented t l : In None l -> forall k rem, runf (l ++ [Some t]) k rem false = Some false.
Proof.
  induction l as [|[x|] l IH]; intros H k rem; cbn [app runf].
  - destruct H.
  - destruct H as [H|H]; [discriminate|]. destruct (_ <=? _)%N; auto.
  - apply runf_true.
Qed.

(** ** Styled output *)
Inductive spiece : Type := SPut (s : @segment (@tree_doc basic_tree_style)) | SBrk (l : list (@segment (@tree_doc basic_tree_style))).
Definition strip1 (e : event) : list spiece :=
  match e with EText _ t => [SPut (text_seg t)] | ENewline ind => [SBrk (rev ind)] | _ => [] end.
Definition strip (es : list event) : list spiece := flat_map strip1 es.
Definition jseg (b : bool) (x : color * str) : @segment (@tree_doc basic_tree_style) :=
  @Segment (@tree_doc basic_tree_style) (snd x) (str_width (snd x)) (BasicStyle (fst x) b).
Definition paint (b : bool) (x : jpiece) : spiece :=
  match x with Put c s => SPut (jseg b (c, s)) | Break p => SBrk (map (jseg b) p) end.

Lemma strip_app a b : strip (a ++ b) = strip a ++ strip b.
Proof. apply flat_map_app. Qed.

(** ** Straight trees that are only texts *)
Definition texts (b : bool) (s : shape) (o : list jpiece) : Prop :=
  straight s /\ exists ts, steps s = map Some ts /\ map (fun t => SPut (text_seg t)) ts = map (paint b) o.
Definition commented (s : shape) : Prop := straight s /\ In None (steps s).

Lemma texts_concat b s1 s2 o1 o2 : texts b s1 o1 -> texts b s2 o2 -> texts b (SConcat s1 s2) (o1 ++ o2).
Proof.
  intros (A1 & t1 & B1 & C1) (A2 & t2 & B2 & C2). split; [split; assumption|]. exists (t1 ++ t2). cbn [steps]. rewrite !map_app, B1, B2, C1, C2. auto.
Qed.
Lemma texts_child b n j s o : texts b s o -> texts b (SChild n (Ok j) s) o.
Proof. intros (A & B). split; [split; eauto|exact B]. Qed.
Lemma texts_text b t c s : text_seg t = jseg b (c, s) -> texts b (SText t) [Put c s].
Proof. intros H. split; [exact I|]. exists [t]. cbn. rewrite H. auto. Qed.
Lemma texts_mark b : texts b SMark [].
Proof. split; [exact I|]. exists []. auto. Qed.
Lemma texts_empty b : texts b SEmpty [].
Proof. split; [exact I|]. exists []. auto. Qed.

Lemma commented_left s1 s2 : commented s1 -> straight s2 -> commented (SConcat s1 s2).
Proof. intros [A B] H. split; [split; assumption|]. cbn [steps]. apply in_app_iff. auto. Qed.
Lemma commented_right s1 s2 : straight s1 -> commented s2 -> commented (SConcat s1 s2).
Proof. intros H [A B]. split; [split; assumption|]. cbn [steps]. apply in_app_iff. auto. Qed.
Lemma commented_child n j s : commented s -> commented (SChild n (Ok j) s).
Proof. intros (A & B). split; [split; eauto|exact B]. Qed.

Definition no_break (o : list jpiece) : Prop := forall p, ~ In (Break p) o.

Lemma texts_width b ts : forall o, map (fun t => SPut (text_seg t)) ts = map (paint b) o -> sumt ts = out_width str_width o.
Proof.
  induction ts as [|t ts IH]; intros [|x o] H; try discriminate; [reflexivity|]. cbn [map] in H.
  pose proof (f_equal (@tl _) H) as H2. pose proof (f_equal (fun l => match l with SPut s :: _ => seg_width s | _ => 0%N end) H) as H1. cbn in H1, H2.
  destruct x as [c s|p]; [|discriminate]. cbn [out_width]. rewrite <- (IH _ H2). change (sumt (t :: ts)) with (tx_width t + sumt ts)%N.
  f_equal. exact H1.
Qed.

Lemma texts_fits b s o : texts b s o -> forall k rem,
  fits_s s k rem false = if (out_width str_width o <=? rem)%N then k (rem - out_width str_width o)%N false else Some false.
Proof.
  intros (A & ts & B & C) k rem. rewrite fits_steps, B, runf_texts by exact A. rewrite (texts_width b ts o C). reflexivity.
Qed.

Hypothesis Hrel : ovf = false.

Lemma oadd_wadd x y : oadd16 x y = Some (wadd x y).
Proof. unfold oadd16, add16, wadd. rewrite Hrel. destruct (_ <? _)%N; reflexivity. Qed.

Lemma osum_wadd l : osum16 l = Some (fold_left wadd l 0%N).
Proof.
  unfold osum16, sum16. generalize 0%N. rewrite Hrel. induction l as [|x l IH]; intros a; [reflexivity|]. cbn [sum16_from fold_left].
  assert (E : @add16 unit false a x = Ok (wadd a x)) by (unfold add16, wadd; destruct (_ <? _)%N; reflexivity).
  rewrite E. cbn [bind]. apply IH.
Qed.

(** ** Results *)
Definition renders (b : bool) (w : N) (s : shape) (j : N) (k : look) (col : N) (o : list jpiece) (col' : N) (e : bool) : Prop :=
  exists es, @rend (@tree_doc basic_tree_style) env w s j k (col, false) = Some (es, (col', e)) /\ strip es = map (paint b) o.

Definition after (col : N) (o : list jpiece) : N :=
  fold_left (fun col x => match x with Put _ s => wadd col (str_width s) | Break p => prefix_width str_width wadd p end) o col.

Lemma after_app col o1 o2 : after col (o1 ++ o2) = after (after col o1) o2.
Proof. apply fold_left_app. Qed.

Lemma strip_width w s : forall j k p es p', @rend (@tree_doc basic_tree_style) env w s j k p = Some (es, p') ->
  fst p' = fold_left (fun col x => match x with SPut s => wadd col (seg_width s) | SBrk l => fold_left wadd (map seg_width l) 0%N end) (strip es) (fst p).
Proof.
  induction s as [f| | |ind|t|s1 IH1 s2 IH2|s1 IH1 s2 IH2|n i s IH|]; intros j k p es p' H; cbn [rend] in H.
  - discriminate.
  - injection H as <- <-. reflexivity.
  - injection H as <- <-. reflexivity.
  - unfold indent_pos in H. rewrite osum_wadd in H. cbn [obind] in H. injection H as <- <-. reflexivity.
  - unfold text_pos in H. destruct p as [len eol]. destruct eol; [discriminate|]. rewrite oadd_wadd in H. cbn [obind] in H. injection H as <- <-. reflexivity.
  - destruct (rend w s1 j _ p) as [[e1 p1]|] eqn:E1; [|discriminate]. cbn [obind] in H.
    destruct (rend w s2 j k p1) as [[e2 p2]|] eqn:E2; [|discriminate]. cbn [obind] in H. injection H as <- <-.
    rewrite strip_app, fold_left_app, <- (IH1 _ _ _ _ _ E1). apply (IH2 _ _ _ _ _ E2).
  - destruct (head_fails s1); [discriminate|]. destruct (picks_first w s1 k p) as [[]|]; [| |discriminate]; cbn [obind] in H; eauto.
  - destruct i as [j'|]; [|discriminate]. destruct (rend w s j' k p) as [[e1 p1]|] eqn:E1; [|discriminate]. cbn [obind] in H. injection H as <- <-.
    change (EEnter j n :: e1 ++ [EExit j n]) with ([EEnter j n] ++ e1 ++ [EExit j n]). rewrite !strip_app. cbn [strip flat_map strip1 app]. rewrite app_nil_r.
    apply (IH _ _ _ _ _ E1).
  - injection H as <- <-. reflexivity.
Qed.

Lemma fold_paint b : forall o col,
  fold_left (fun col x => match x with SPut s => wadd col (seg_width s) | SBrk l => fold_left wadd (map seg_width l) 0%N end) (map (paint b) o) col = after col o.
Proof.
  induction o as [|x o IH]; intros col; [reflexivity|]. cbn [map fold_left after]. rewrite IH. f_equal.
  destruct x as [c s|p]; [reflexivity|]. cbn [paint]. rewrite map_map. reflexivity.
Qed.

(** The column after the output is determined by the output. *)
Lemma renders_col b w s j k col o col' e : renders b w s j k col o col' e -> col' = after col o.
Proof.
  intros (es & H & E). apply strip_width in H. cbn [fst] in H. rewrite E, fold_paint in H. exact H.
Qed.

Lemma renders_concat b w s1 s2 j k col o1 o2 c1 c2 e :
  renders b w s1 j (fits_s s2 k) col o1 c1 false -> renders b w s2 j k c1 o2 c2 e ->
  renders b w (SConcat s1 s2) j k col (o1 ++ o2) c2 e.
Proof.
  intros (es1 & H1 & E1) (es2 & H2 & E2). exists (es1 ++ es2). cbn [rend]. rewrite H1. cbn [obind]. rewrite H2. cbn [obind].
  split; [reflexivity|]. rewrite strip_app, map_app, E1, E2. reflexivity.
Qed.

Lemma renders_child b w n j' s j k col o c e : renders b w s j' k col o c e -> renders b w (SChild n (Ok j') s) j k col o c e.
Proof.
  intros (es & H & E). exists (EEnter j n :: es ++ [EExit j n]). cbn [rend]. rewrite H. split; [reflexivity|].
  change (EEnter j n :: es ++ [EExit j n]) with ([EEnter j n] ++ es ++ [EExit j n]). rewrite !strip_app. cbn [strip flat_map strip1 app]. rewrite app_nil_r. exact E.
Qed.

Lemma texts_renders b w s : forall j k col o, texts b s o -> renders b w s j k col o (after col o) false.
Proof.
  intros j k col o (A & ts & B & C).
  assert (H : exists es, @rend (@tree_doc basic_tree_style) env w s j k (col, false) = Some (es, (fold_left (fun c t => wadd c (tx_width t)) ts col, false)) /\ strip es = map (fun t => SPut (text_seg t)) ts).
  { clear o C. revert j k col ts A B. induction s as [f| | |ind|t|s1 IH1 s2 IH2|s1 IH1 s2 IH2|n i s IH|]; intros j k col ts A B; cbn [rend]; cbn [straight] in A; try tauto; cbn [steps] in B.
    - destruct ts; [|discriminate]. exists []. auto.
    - destruct ts; discriminate.
    - destruct ts as [|x [|]]; try discriminate. cbn in B. injection B as <-. unfold text_pos. rewrite oadd_wadd. cbn [obind]. eexists. split; reflexivity.
    - symmetry in B. apply map_eq_app in B as (t1 & t2 & -> & B1 & B2). destruct A as [A1 A2].
      destruct (IH1 j (fits_s s2 k) col t1 A1 (eq_sym B1)) as (e1 & H1 & G1).
      rewrite H1. cbn [obind]. destruct (IH2 j k (fold_left (fun c t => wadd c (tx_width t)) t1 col) t2 A2 (eq_sym B2)) as (e2 & H2 & G2).
      rewrite H2. cbn [obind]. eexists. split; [rewrite fold_left_app; reflexivity|]. rewrite strip_app, map_app, G1, G2. reflexivity.
    - destruct A as [(j' & ->) A]. destruct (IH j' k col ts A B) as (es & H & G). rewrite H. cbn [obind]. eexists. split; [reflexivity|].
      change (EEnter j n :: es ++ [EExit j n]) with ([EEnter j n] ++ es ++ [EExit j n]). rewrite !strip_app. cbn [strip flat_map strip1 app]. rewrite app_nil_r. exact G.
    - destruct ts; [|discriminate]. exists [EMark j]. auto. }
  destruct H as (es & H & G). rewrite C in G.
  assert (R : renders b w s j k col o (fold_left (fun c t => wadd c (tx_width t)) ts col) false) by (exists es; auto).
  rewrite <- (renders_col R). exact R.
Qed.

Lemma renders_newline b w j k col e ind p : rev ind = map (jseg b) p ->
  exists es, @rend (@tree_doc basic_tree_style) env w (SNewline ind) j k (col, e) = Some (es, (prefix_width str_width wadd p, false)) /\ strip es = map (paint b) [Break p].
Proof.
  intros H. cbn [rend]. unfold indent_pos. rewrite osum_wadd. cbn [obind]. eexists. split.
  - rewrite H, map_map. reflexivity.
  - cbn. rewrite H. reflexivity.
Qed.

(** A newline after something that may have ended the line. *)
Lemma renders_break b w s j k col o c e ind p : rev ind = map (jseg b) p ->
  renders b w s j (fun _ _ => Some true) col o c e ->
  renders b w (SConcat s (SNewline ind)) j k col (o ++ [Break p]) (prefix_width str_width wadd p) false.
Proof.
  intros Hp (es & H & E). destruct (@renders_newline b w j k c e ind p Hp) as (es2 & H2 & E2).
  exists (es ++ es2). cbn [rend]. rewrite (@rend_keq jpd env w s j (fits_s (SNewline ind) k) (fun _ _ => Some true)) by (intros ? ?; reflexivity).
  rewrite H. cbn [obind]. cbn [rend] in H2. rewrite H2. cbn [obind]. split; [reflexivity|]. rewrite strip_app, map_app, E, E2. reflexivity.
Qed.

End Straight.
