(** JSON documents (C40, C41).  Vocabulary: SpecJson. *)
From Verif Require Export Properties1 Properties2 PJson7.
From Coq Require Import String.

Set Implicit Arguments.

Section Json.
Variables (uw : str -> N) (cf : char -> bool).
Notation release := (Build_Env uw cf false).
Notation debug := (Build_Env uw cf true).
Variables (checks : bool) (is_white : char -> bool).
Variables (j : json) (t : json_tree).
Hypothesis Hmade : made checks is_white j t.
Hypothesis Hdoc : is_document j.
Notation width := (@str_width release).

Lemma json_layout w st : exists es,
  @layout jpd release w (@doc_shape jpd release (tree_rdoc t) st) = Some es /\
  lines_of es = @painted release st (pretty is_white width wadd w [] 0 0 j).
Proof.
  destruct (made_jtree Hmade) as [Hj _].
  set (c := @root_ctx jpd (tree_rdoc t) st).
  assert (Hs : i_style (r_info (tree_rdoc t)) = bs_default).
  { destruct Hj as [f H|? f H|? f H|? f H|? f ? H|? f ? H|? ? f ? ? H|? f ? H|? f ? H]; apply H. }
  assert (Hw : wx (bold_of st) c).
  { unfold wx, c, root_ctx. cbn [x_sty]. rewrite Hs. destruct st as [[col b]|]; [|reflexivity]. cbn. unfold bs_combine. cbn. rewrite orb_false_r. reflexivity. }
  destruct (@doc_renders release eq_refl is_white j t Hdoc Hj (bold_of st) c w (i_id (r_info (tree_rdoc t))) eq_refl Hw eq_refl) as (col' & e & es & H1 & H2).
  exists es. split.
  - unfold layout, doc_shape. fold c. change pos0 with (0%N, false). rewrite H1. reflexivity.
  - apply (strip_lines (bold_of st) es _ [] H2).
Qed.

(** C40.  Every JSON document is printed, at every width, and is written in one
    of the ways that [written] allows.  (In a build without overflow checks; see
    C40_layout for a build with them.) *)
Theorem C40_prints w st : exists fl downs o,
  @printed jpd release t w [] FStart st [] fl downs /\
  written is_white [] j o /\ all_lines [] fl downs = @painted release st o.
Proof.
  destruct (json_layout w st) as (es & H1 & H2). destruct (made_jtree Hmade) as [Hj _].
  destruct (@C01_layout_is_printed jpd release _ _ _ (C46_tree_is_well_behaved t) (@jtree_valid release is_white j t Hj) w st es H1) as (fl & downs & Hp & Hl).
  exists fl, downs, (pretty is_white width wadd w [] 0 0 j). split; [exact Hp|]. split; [apply document_written; exact Hdoc|]. congruence.
Qed.

(** C40.  If no line of [pretty_json] is wider than 65535 columns, then that is
    what is printed, also in a build with overflow checks: an array or object is
    written on one line iff it contains no comment and fits, with what follows
    it, in the width. *)
Theorem C40_layout overflow_checks w st :
  narrow_lines (@painted release st (pretty_json is_white width N.add w j)) ->
  exists fl downs, @printed jpd (Build_Env uw cf overflow_checks) t w [] FStart st [] fl downs /\
    all_lines [] fl downs = @painted release st (pretty_json is_white width N.add w j).
Proof.
  intros Hn. destruct (json_layout w st) as (es & H1 & H2). destruct (made_jtree Hmade) as [Hj _].
  unfold pretty_json in *. pose proof (@nf_lines release (bold_of st) _ [] 0%N eq_refl Hn) as Hnf.
  rewrite (@document_exact is_white width w j Hdoc Hnf) in H2. rewrite <- H2 in Hn |- *.
  destruct overflow_checks.
  - pose proof (@layout_debug jpd uw cf w _ es H1 Hn) as H3.
    destruct (@C01_layout_is_printed jpd debug _ _ _ (C46_tree_is_well_behaved t) (@jtree_valid debug is_white j t Hj) w st es) as (fl & downs & Hp & Hl).
    + exact H3.
    + exists fl, downs. auto.
  - destruct (@C01_layout_is_printed jpd release _ _ _ (C46_tree_is_well_behaved t) (@jtree_valid release is_white j t Hj) w st es H1) as (fl & downs & Hp & Hl).
    exists fl, downs. auto.
Qed.

(** C40.  As a string: *)
Theorem C40_string w : exists o,
  written is_white [] j o /\
  ev (fun n => @pretty_print_to_string jpd release n t w) (Ok (jtext o)).
Proof.
  destruct (C40_prints w None) as (fl & downs & o & H1 & H2 & H3). exists o. split; [exact H2|].
  pose proof (@C24_to_string_joins_lines jpd release _ t w [] FStart [] fl downs (rep_finite (C46_tree_is_well_behaved t)) eq_refl H1) as H.
  rewrite H3 in H. unfold painted in H. change (map (map _) (jlines o)) with (map (map (@jseg release false)) (jlines_from [] o)) in H.
  rewrite (@join_jlines release false o []) in H. exact H.
Qed.

(** C40.  The layout does not change the content: at every width, a document
    without comments is printed as its tokens, in order, with nothing but spaces
    and line breaks between them. *)
Theorem C40_content w s : has_comment j = false ->
  ev (fun n => @pretty_print_to_string jpd release n t w) (Ok s) -> spaced (tokens j) s.
Proof.
  intros Hc Hs. destruct (C40_string w) as (o & H1 & H2). pose proof (ev_det Hs H2) as E. injection E as ->.
  assert (B : blank []) by (intros ? ? []).
  pose proof (proj1 (adds_written is_white []) j o H1 B Hc [] [] sp_end) as H. rewrite !app_nil_r in H. exact H.
Qed.

(** C40.  So without spaces and line breaks (even those in strings), the text
    is the same at every width. *)
Definition solid (s : str) : str := filter (fun c => negb ((c =? 32) || (c =? 10))%N) s.
Lemma spaced_solid toks s : spaced toks s -> solid s = List.concat (map solid toks).
Proof.
  induction 1 as [|toks s _ IH|toks s _ IH|tok toks s _ IH]; [reflexivity|exact IH|exact IH|].
  cbn [map List.concat]. rewrite <- IH. apply filter_app.
Qed.
Theorem C40_same_content w1 w2 s1 s2 : has_comment j = false ->
  ev (fun n => @pretty_print_to_string jpd release n t w1) (Ok s1) ->
  ev (fun n => @pretty_print_to_string jpd release n t w2) (Ok s2) -> solid s1 = solid s2.
Proof. intros Hc H1 H2. rewrite (spaced_solid (C40_content w1 Hc H1)), (spaced_solid (C40_content w2 Hc H2)). reflexivity. Qed.

Lemma jlines_no_break o : forall cur, (forall p, ~ In (Break p) o) -> List.length (jlines_from cur o) = 1.
Proof.
  induction o as [|[c s|p] o IH]; intros cur H; cbn [jlines_from]; [reflexivity| |].
  - apply IH. intros p Hp. apply (H p). right. exact Hp.
  - destruct (H p). left. reflexivity.
Qed.
Lemma jlines_break o : forall cur p, In (Break p) o -> 1 < List.length (jlines_from cur o).
Proof.
  assert (P : forall o cur, 0 < List.length (jlines_from cur o)).
  { clear. induction o as [|[c s|p] o IH]; intros cur; cbn [jlines_from List.length]; [lia|apply IH|lia]. }
  induction o as [|[c s|p'] o IH]; intros cur p H; cbn [jlines_from]; [destruct H| |].
  - destruct H as [H|H]; [discriminate|]. eapply IH; exact H.
  - cbn [List.length]. specialize (P o p'). lia.
Qed.
Lemma commas_break (f : json -> list jpiece) p l : In (Break p) (commas (map f l)) -> exists x, In x l /\ In (Break p) (f x).
Proof.
  induction l as [|x [|y l] IH]; intros H; [destruct H|exists x; split; [left; reflexivity|exact H]|].
  change (commas (map f (x :: y :: l))) with (f x ++ punct ", " :: commas (map f (y :: l))) in H.
  apply in_app_iff in H as [H|[H|H]]; [exists x; split; [left; reflexivity|exact H]|discriminate|].
  destruct (IH H) as (z & H1 & H2). exists z. split; [right; exact H1|exact H2].
Qed.
Lemma one_line_no_break x p : ~ In (Break p) (on_one_line x).
Proof.
  induction x as [|b|s|s|l IH|l IH|key x IH|s|l IH] using json_ind'; cbn [on_one_line].
  - intros [H|[]]; discriminate.
  - destruct b; intros [H|[]]; discriminate.
  - intros [H|[H|[H|[]]]]; discriminate.
  - intros [H|[]]; discriminate.
  - intros [H|H]; [discriminate|]. apply in_app_iff in H as [H|[H|[]]]; [|discriminate]. apply commas_break in H as (x & H1 & H2). exact (IH x H1 H2).
  - intros [H|H]; [discriminate|]. apply in_app_iff in H as [H|[H|[]]]; [|discriminate]. apply commas_break in H as (x & H1 & H2). exact (IH x H1 H2).
  - intros H. apply in_app_iff in H as [[H|[H|[H|[]]]]|[H|H]]; try discriminate. exact (IH H).
  - intros [].
  - intros [].
Qed.

(** C40.  An array or object (that is not empty) is printed on one line iff it
    has no comments, and that line fits in the width. *)
Theorem C40_one_line w st fl downs l : j = JArray l \/ j = JObject l -> l <> [] ->
  @printed jpd release t w [] FStart st [] fl downs ->
  (List.length (all_lines [] fl downs) = 1 <-> has_comment j = false /\ (out_width width (on_one_line j) <= w)%N).
Proof.
  intros Hj Hl Hp. destruct (json_layout w st) as (es & H1 & H2). destruct (made_jtree Hmade) as [Hjt _].
  destruct (@C01_layout_is_printed jpd release _ _ _ (C46_tree_is_well_behaved t) (@jtree_valid release is_white j t Hjt) w st es H1) as (fl' & downs' & Hp' & Hls).
  destruct (printed_det Hp Hp') as (_ & <- & <-). rewrite <- Hls, H2. unfold painted. rewrite map_length.
  assert (E : pretty is_white width wadd w [] 0 0 j =
    (if negb (has_comment j) && (out_width width (on_one_line j) <=? w)%N then on_one_line j else pretty is_white width wadd w [] 0 0 j) /\
    (negb (has_comment j) && (out_width width (on_one_line j) <=? w)%N = false -> exists p, In (Break p) (pretty is_white width wadd w [] 0 0 j))).
  { destruct l as [|x l]; [congruence|].
    assert (Z : forall n, (0 + n + 0 <=? w)%N = (n <=? w)%N) by (intros n; f_equal; lia).
    destruct Hj as [-> | ->]; cbn [pretty]; rewrite Z; (destruct (_ && _); split; [reflexivity|discriminate|reflexivity|]);
      intros _; eexists; right; left; reflexivity. }
  destruct E as [E1 E2].
  destruct (has_comment j); cbn [negb andb] in E1, E2.
  - split; [|intros [H _]; discriminate]. intros H. destruct (E2 eq_refl) as (p & Hb). pose proof (jlines_break _ [] p Hb). unfold jlines in H. lia.
  - destruct (N.leb_spec (out_width width (on_one_line j)) w) as [D|D].
    + split; [auto|]. intros _. rewrite E1. apply jlines_no_break. intros p. apply one_line_no_break.
    + split; [|intros [_ H]; lia]. intros H. destruct (E2 eq_refl) as (p & Hb). pose proof (jlines_break _ [] p Hb). unfold jlines in H. lia.
Qed.
End Json.

(** ** C40: the words of a comment *)

(** [words_of is_white s l]: the words of [s] are [l]: the maximal runs of
    characters that are not white. *)
Inductive words_of (is_white : char -> bool) : str -> list str -> Prop :=
| wo_end : words_of is_white [] []
| wo_white c s l : is_white c = true -> words_of is_white s l -> words_of is_white (c :: s) l
| wo_word x s l : x <> [] -> (forall c, In c x -> is_white c = false) ->
    (s = [] \/ exists c s', s = c :: s' /\ is_white c = true) -> words_of is_white s l -> words_of is_white (x ++ s) (x :: l).

Theorem C40_words is_white s : words_of is_white s (split_whitespace is_white s).
Proof.
  unfold split_whitespace.
  assert (H : forall s word, (forall c, In c word -> is_white c = false) -> words_of is_white (word ++ s) (split_from is_white word s));
    [|apply (H s []); intros c []].
  clear s. induction s as [|ch s IH]; intros word Hw; cbn [split_from].
  - destruct word as [|c word]; [constructor|]. apply wo_word; [discriminate|exact Hw|left; reflexivity|constructor].
  - destruct (is_white ch) eqn:E.
    + assert (H : words_of is_white (ch :: s) (split_from is_white [] s)) by (apply wo_white; [exact E|]; apply (IH []); intros c []).
      destruct word as [|c word]; [exact H|]. apply wo_word; [discriminate|exact Hw|right; eauto|exact H].
    + change (ch :: s) with ([ch] ++ s). rewrite app_assoc. apply IH. intros c Hc. apply in_app_iff in Hc as [Hc|[<-|[]]]; auto.
Qed.

(** ** C41: the labels of the JSON notations *)

(** C41.  Strings are magenta, numbers blue and comments yellow. *)
Theorem C41_json_labels :
  bs_from STRING_STYLE = BasicStyle Magenta false /\ bs_from NUMBER_STYLE = BasicStyle Blue false /\
  bs_from COMMENT_STYLE = BasicStyle Yellow false.
Proof. repeat split; vm_compute; reflexivity. Qed.

(** C41.  But [null], [true] and [false] are neither green nor bold: their label
    "green_bold" is not one that [BasicStyle] knows (that is "bold_green"). *)
Theorem C41_constant_style_refuted :
  bs_from CONSTANT_STYLE = BasicStyle White false /\ bs_from CONSTANT_STYLE = bs_from (chars "no such label") /\
  bs_from (chars "bold_green") = BasicStyle Green true.
Proof. repeat split; vm_compute; reflexivity. Qed.

(** C41.  And the words of a comment are not yellow, though the style of the
    comment's notation is: the style of a node is combined last, and its color
    wins, even if it is the default style. *)
Theorem C41_comment_words_refuted uw cf checks is_white s t w st x l fl downs :
  made checks is_white (JComment s) t -> split_whitespace is_white s = x :: l ->
  @printed jpd (Build_Env uw cf false) t w [] FStart st [] fl downs ->
  exists slashes_seg word_seg line lines, all_lines [] fl downs = (slashes_seg :: word_seg :: line) :: lines /\
    seg_str slashes_seg = chars "// " /\ bs_color (seg_style slashes_seg) = Yellow /\
    seg_str word_seg = x /\ bs_color (seg_style word_seg) = White.
Proof.
  intros Hm Hx Hp. assert (Hd : is_document (JComment s)) by (repeat constructor).
  destruct (C40_prints uw cf Hm Hd w st) as (fl' & downs' & o & Hp' & Hw & Hl).
  destruct (printed_det Hp Hp') as (_ & <- & <-). rewrite Hl. clear Hl Hp Hp'.
  inversion Hw as [? ? Hv| | | |? o' Hf| |]; subst; [inversion Hv|]. rewrite Hx in Hf.
  assert (Ho : exists o2, o' = Put White x :: o2) by (inversion Hf; eauto). destruct Ho as (o2 & ->).
  unfold painted, jlines. cbn [jlines_from app].
  assert (G : forall o cur, exists line lines, jlines_from cur o = (cur ++ line) :: lines).
  { clear. induction o as [|[c s|p] o IH]; intros cur; cbn [jlines_from].
    - exists [], []. rewrite app_nil_r. reflexivity.
    - destruct (IH (cur ++ [(c, s)])) as (line & lines & E). rewrite E, <- app_assoc. eauto.
    - exists [], (jlines_from p o). rewrite app_nil_r. reflexivity. }
  destruct (G o2 [(Yellow, chars "// "); (White, x)]) as (line & lines & E). rewrite E. cbn [map app].
  do 4 eexists. split; [reflexivity|]. repeat split.
Qed.
