(** The layout of JSON documents: every kind of node. *)
From Verif Require Export PJson3.
From Coq Require Import String.

Set Implicit Arguments.

Section Json.
Context {env : Env}.
Hypothesis Hrel : ovf = false.
Variable is_white : char -> bool.
Notation shape := (@shape jpd).
Notation ctx := (@ctx jpd).
Notation rdoc := (@rdoc jpd).
Notation info := (@info jpd).
Notation kid := (@kid jpd).
Notation elab := (@elab jpd env).
Notation elab_note := (@elab_note jpd env).
Notation foldenv := (@foldenv jpd).
Notation look := SpecLayout.look.
Notation pretty := (pretty is_white str_width wadd).
Notation good := (@good env is_white).

Lemma node_elab n f ks c : plainf n f ->
  elab (tree_rdoc (TreeKids f ks)) c = elab_note (RBranch (tree_info (TreeKids f ks)) (map tree_rdoc ks)) (map jkid ks) n None c.
Proof. intros (H & _). cbn [tree_rdoc SpecElab.elab]. cbn [tree_info i_note t_fields]. rewrite H, map_map. reflexivity. Qed.
Lemma leaf_elab n f s c : plainf n f ->
  elab (tree_rdoc (TreeText f s)) c = elab_note (RText (tree_info (TreeText f s)) s) [] n None c.
Proof. intros (H & _). cbn [tree_rdoc SpecElab.elab]. cbn [tree_info i_note t_fields]. rewrite H. reflexivity. Qed.
Lemma plain_lookup n (t : json_tree) : plainf n (t_fields t) -> forall l, i_lookup (tree_info t) l = bs_from l.
Proof. intros (_ & _ & H) l. cbn. unfold tree_lookup_style. rewrite H. reflexivity. Qed.

Lemma good_texts j t : styled t -> has_comment j = false -> is_jcomment j = false ->
  (forall w p col tail, pretty w p col tail j = on_one_line j) ->
  (forall b c, wx b c -> texts b (elab (tree_rdoc t) c) (on_one_line j)) -> good j t.
Proof.
  intros Hs H1 H2 H3 H4. split; [exact Hs|]. split.
  - intros b c _ Hc. rewrite H1. apply H4. exact Hc.
  - intros b p c w k col tail j0 _ Hc _ _. rewrite H2, H3. eexists. apply (texts_renders Hrel). apply H4. exact Hc.
Qed.

Lemma good_constant j s f : styled (TreeKids f []) -> plainf (Style CONSTANT_STYLE (jlit s)) f -> on_one_line j = [punct s] ->
  has_comment j = false -> is_jcomment j = false -> (forall w p col tail, pretty w p col tail j = on_one_line j) -> good j (TreeKids f []).
Proof.
  intros Hs Hf Hj H1 H2 H3. apply good_texts; auto. intros b c Hc. rewrite (node_elab _ _ Hf), Hj.
  exact (@texts_styled env _ _ [] (plain_lookup (n := Style CONSTANT_STYLE (jlit s)) (TreeKids f []) Hf) CONSTANT_STYLE (chars s) None b c White Hc eq_refl).
Qed.

Lemma plain_styled n (t : json_tree) : plainf n (t_fields t) -> styled t.
Proof. intros (_ & H & _). exact H. Qed.

Lemma string_texts s f b c : plainf JSON_STRING f -> wx b c -> texts b (elab (tree_rdoc (TreeText f s)) c) (quoted s).
Proof.
  intros Hf Hc. rewrite (leaf_elab _ _ Hf). unfold JSON_STRING, n_add, quote. cbn [SpecElab.elab_note].
  change (quoted s) with (([Put Magenta [34%N]] ++ [Put Magenta s]) ++ [Put Magenta [34%N]]).
  assert (Hx : forall fl i, x_sty (in_style (pd := jpd) (i_lookup (r_info (RText (tree_info (TreeText f s)) s)) STRING_STYLE) (Ctx fl i (x_sty c))) = BasicStyle Magenta b).
  { intros fl i. cbn [r_info]. rewrite (plain_lookup (n := JSON_STRING) (TreeText f s) Hf). cbn [in_style x_sty]. unfold wx in Hc. rewrite Hc.
    change (bs_from STRING_STYLE) with (BasicStyle Magenta false). exact (f_equal (BasicStyle Magenta) (orb_false_r b)). }
  destruct c as [fl i sty]. specialize (Hx fl i). cbn [x_sty] in Hx.
  apply texts_concat; [apply texts_concat|]; apply texts_text; unfold text_seg, jseg; cbn [tx_str tx_width tx_style fst snd]; rewrite Hx; reflexivity.
Qed.

Lemma number_texts s f b c : plainf JSON_NUMBER f -> wx b c -> texts b (elab (tree_rdoc (TreeText f s)) c) [Put Blue s].
Proof.
  intros Hf Hc. rewrite (leaf_elab _ _ Hf). unfold JSON_NUMBER. cbn [SpecElab.elab_note].
  apply texts_text. unfold text_seg, jseg. cbn [tx_str tx_width tx_style fst snd r_info]. rewrite (plain_lookup (n := JSON_NUMBER) (TreeText f s) Hf).
  cbn [in_style x_sty]. unfold wx in Hc. rewrite Hc. change (bs_from NUMBER_STYLE) with (BasicStyle Blue false). unfold style_combine. cbn. unfold bs_combine. cbn. rewrite orb_false_r. reflexivity.
Qed.

(** ** Pairs *)
Lemma good_pair key x f kk k : plainf JSON_OBJECT_PAIR f -> jtree is_white (JString key) kk -> good x k -> is_jcomment x = false ->
  good (JPair key x) (TreeKids f [kk; k]).
Proof.
  intros Hf Hkk (Gs & Gf & Gr) Hx. inversion Hkk as [| |? fk Hfk| | | | | |]; subst.
  assert (Hsk : styled (TreeText fk key)) by exact (plain_styled (n := JSON_STRING) (TreeText fk key) Hfk).
  set (i := tree_info (TreeKids f [TreeText fk key; k])).
  set (E := elab_note (RBranch i (map tree_rdoc [TreeText fk key; k])) (map jkid [TreeText fk key; k])).
  assert (El : forall c, elab (tree_rdoc (TreeKids f [TreeText fk key; k])) c =
     SConcat (SConcat (child 0 (jkid (TreeText fk key)) c) (E (jlit ": ") None c)) (child 1 (jkid k) c)).
  { intros c. rewrite (node_elab _ _ Hf). reflexivity. }
  assert (K : forall b c, wx b c -> texts b (SConcat (child 0 (jkid (TreeText fk key)) c) (E (jlit ": ") None c)) (quoted key ++ [punct ": "])).
  { intros b c Hc. apply texts_concat.
    - rewrite child_eq by exact Hsk. apply texts_child. apply string_texts; [exact Hfk|]. apply wx_style. exact Hc.
    - exact (@texts_lit env i _ _ (chars ": ") None b c White Hc). }
  split; [exact (plain_styled (n := JSON_OBJECT_PAIR) (TreeKids f _) Hf)|]. split.
  - intros b c Hc Hw. rewrite El. cbn [has_comment on_one_line]. change (has_comment x) with (false || has_comment x).
    change (quoted key ++ punct ": " :: on_one_line x) with (quoted key ++ [punct ": "] ++ on_one_line x). rewrite app_assoc.
    apply fl_concat; [apply K; exact Hw|]. apply flat_child; auto.
  - intros b p c w k0 col tail j0 Hc Hw Hi Hk. rewrite El. cbn [SpecJson.pretty is_jcomment].
    change (quoted key ++ punct ": " :: ?z) with (quoted key ++ [punct ": "] ++ z).
    assert (Hk' : kspec k0 tail x) by (unfold kspec in *; rewrite Hx; exact Hk).
    destruct (@free_child env is_white x k 1 b p c w k0 (after col (quoted key ++ [punct ": "])) tail j0 Gs Gr Hc Hw Hi Hk') as (col' & R).
    rewrite Hx in R. exists col'.
    match goal with |- renders _ _ _ _ _ _ ?o _ _ => replace o with ((quoted key ++ [punct ": "]) ++ pretty w p (after col (quoted key ++ [punct ": "])) tail x) by reflexivity end.
    eapply renders_concat; [apply (texts_renders Hrel); apply K; exact Hw|exact R].
Qed.

(** ** Comments *)
Lemma word_texts s t m b (c : ctx) x : is_word s t -> x_sty c = BasicStyle x b -> texts b (child m (jkid t) c) [Put White s].
Proof.
  intros (f & -> & Hf) Hc. rewrite child_eq by exact (plain_styled (n := JSON_COMMENT_WORD) (TreeText f s) Hf).
  apply texts_child. rewrite (leaf_elab _ _ Hf). unfold JSON_COMMENT_WORD. cbn [SpecElab.elab_note].
  apply texts_text. unfold text_seg, jseg. cbn [tx_str tx_width tx_style fst snd in_style x_sty]. rewrite Hc.
  unfold style_combine. cbn. unfold bs_combine. cbn. rewrite orb_false_r. reflexivity.
Qed.

Section Comment.
Variables (i : info) (rks : list rdoc) (ks : list json_tree).
Hypothesis Hl : forall l, i_lookup i l = bs_from l.
Notation E := (elab_note (RBranch i rks) (map jkid ks)).
Definition join3 : tree_notation := n_add (n_add Left (n_or (jlit " ") Newline)) Right.

Lemma words_flat b (c : ctx) : x_flat c = true -> x_sty c = BasicStyle Yellow b -> forall l ts, Forall2 is_word l ts ->
  forall m prev acc, straight (acc c) -> straight (fold_kids (fun e c => E join3 (Some e) c) m prev (map jkid ts) acc c).
Proof.
  intros Hf Hc. induction 1 as [|s t l ts Hs _ IH]; intros m prev acc Ha; cbn [map fold_kids]; [exact Ha|].
  apply IH. unfold join3, n_add, n_or. cbn [SpecElab.elab_note fe_left fe_index fe_right]. rewrite Hf.
  split; [split; [exact Ha|exact I]|]. exact (proj1 (@word_texts s t (S m) b c Yellow Hs Hc)).
Qed.

Lemma words_free b p (c : ctx) w j0 col0 : x_flat c = false -> x_sty c = BasicStyle Yellow b -> ix b p c ->
  forall l ts, Forall2 is_word l ts -> forall m prev acc st,
  (forall k, (forall rem, k rem false = Some true) -> renders b w (acc c) j0 k col0 (fst st) (snd st) false) ->
  forall k, (forall rem, k rem false = Some true) ->
  renders b w (fold_kids (fun e c => E join3 (Some e) c) m prev (map jkid ts) acc c) j0 k col0
    (fst (fold_left (put_word str_width wadd w p) l st)) (snd (fold_left (put_word str_width wadd w p) l st)) false.
Proof.
  intros Hf Hc Hx. induction 1 as [|s t l ts Hs _ IH]; intros m prev acc st Ha k Hk; cbn [map fold_kids fold_left]; [apply Ha; exact Hk|].
  apply IH; [|exact Hk]. clear k Hk IH. intros k Hk. destruct st as [o col]. cbn [fst snd] in Ha.
  unfold join3, n_add, n_or. cbn [SpecElab.elab_note fe_left fe_index fe_right]. rewrite Hf.
  match goal with |- renders _ _ (SConcat (SConcat _ (SChoice ?x _)) _) _ _ _ _ _ _ => set (sp := x) end. set (word := child (S m) (jkid t) c).
  assert (Hsp : texts b sp [Put Yellow [32%N]]).
  { apply texts_text. unfold text_seg, jseg. cbn. rewrite Hc. reflexivity. }
  pose proof (@word_texts s t (S m) b c Yellow Hs Hc) as Hw. fold word in Hw.
  assert (P : picks_first w sp (fits_s word k) (col, false) = Some (col + str_width [32%N] + str_width s <=? w)%N).
  { unfold picks_first. destruct (N.leb_spec col w) as [Hcol|Hcol].
    - rewrite (texts_fits Hsp). cbn [out_width]. rewrite N.add_0_r. destruct (N.leb_spec (str_width [32%N]) (w - col)).
      + rewrite (texts_fits Hw). cbn [out_width]. rewrite N.add_0_r, Hk.
        destruct (N.leb_spec (str_width s) (w - col - str_width [32%N])), (N.leb_spec (col + str_width [32%N] + str_width s) w); auto; lia.
      + destruct (N.leb_spec (col + str_width [32%N] + str_width s) w); auto; lia.
    - destruct (N.leb_spec (col + str_width [32%N] + str_width s) w); auto; lia. }
  unfold put_word at 1 2. destruct (col + str_width [32%N] + str_width s <=? w)%N; cbn [fst snd].
  - replace (o ++ [Put Yellow [32%N]; Put White s]) with ((o ++ [Put Yellow [32%N]]) ++ [Put White s]) by (rewrite <- app_assoc; reflexivity).
    eapply renders_concat; [eapply renders_concat; [apply Ha; reflexivity|]|].
    + destruct (@texts_renders env Hrel b w _ j0 (fits_s word k) col _ Hsp) as (es & R1 & R2). exists es. split; [|exact R2].
      cbn [rend]. rewrite (straight_head _ (proj1 Hsp)), P. cbn [obind]. exact R1.
    + exact (@texts_renders env Hrel b w _ j0 k _ _ Hw).
  - replace (o ++ [Break p; Put White s]) with ((o ++ [Break p]) ++ [Put White s]) by (rewrite <- app_assoc; reflexivity).
    eapply renders_concat; [eapply renders_concat; [apply Ha; reflexivity|]|].
    + destruct (@renders_newline env Hrel b w j0 (fits_s word k) col false (x_ind c) p Hx) as (es & R1 & R2). exists es. split; [|exact R2].
      cbn [rend]. rewrite (straight_head _ (proj1 Hsp)), P. cbn [obind]. exact R1.
    + exact (@texts_renders env Hrel b w _ j0 k _ _ Hw).
Qed.

Lemma body_eq (c : ctx) l0 : ks = l0 -> E comment_body None c =
  match l0 with
  | [] => SMark
  | [t] => child 0 (jkid t) c
  | t :: ts => fold_kids (fun e c => E join3 (Some e) c) 0 (jkid t) (map jkid ts) (fun c => child 0 (jkid t) c) c
  end.
Proof.
  intros Hks. unfold comment_body. cbn [SpecElab.elab_note]. remember (map jkid ks) as kk eqn:Ek. rewrite Hks in Ek.
  destruct l0 as [|t [|t2 ts]]; cbn [map] in Ek; rewrite Ek; reflexivity.
Qed.

Lemma body_kids l : Forall2 is_word l ks -> (l = [] /\ ks = []) \/ exists t ts s l', ks = t :: ts /\ l = s :: l' /\ is_word s t /\ Forall2 is_word l' ts.
Proof. intros H. inversion H; [auto|right; eauto 10]. Qed.

Lemma body_flat b (c : ctx) l : x_flat c = true -> x_sty c = BasicStyle Yellow b -> Forall2 is_word l ks -> straight (E comment_body None c).
Proof.
  intros Hf Hc H. destruct (body_kids H) as [[_ Hks]|(t & ts & s & l' & Hks & _ & Hs & Hts)]; rewrite (body_eq c Hks); [exact I|].
  pose proof (proj1 (@word_texts s t 0 b c Yellow Hs Hc)) as W. destruct ts as [|t2 ts]; [exact W|].
  apply (@words_flat b c Hf Hc l' (t2 :: ts) Hts). exact W.
Qed.

Lemma body_free b p (c : ctx) l w j0 k col : x_flat c = false -> x_sty c = BasicStyle Yellow b -> ix b p c -> Forall2 is_word l ks ->
  (forall rem, k rem false = Some true) ->
  exists col', renders b w (E comment_body None c) j0 k col (put_words str_width wadd w p col l) col' false.
Proof.
  intros Hf Hc Hx H Hk. destruct (body_kids H) as [[-> Hks]|(t & ts & s & l' & Hks & -> & Hs & Hts)]; rewrite (body_eq c Hks).
  - exists col. apply (@texts_renders env Hrel b w _ j0 k col []). apply texts_mark.
  - pose proof (@word_texts s t 0 b c Yellow Hs Hc) as W.
    pose proof (fun k (_ : forall rem, k rem false = Some true) => @texts_renders env Hrel b w _ j0 k col _ W) as R.
    unfold put_words. destruct ts as [|t2 ts].
    + inversion Hts. eexists. apply R. exact Hk.
    + eexists. apply (@words_free b p c w j0 col Hf Hc Hx l' (t2 :: ts) Hts 0 (jkid t) (fun c => child 0 (jkid t) c) ([Put White s], wadd col (str_width s)) R k Hk).
Qed.
End Comment.

Lemma good_comment s f ks : plainf JSON_COMMENT f -> Forall2 is_word (split_whitespace is_white s) ks -> good (JComment s) (TreeKids f ks).
Proof.
  intros Hf Hw. split; [exact (plain_styled (n := JSON_COMMENT) (TreeKids f _) Hf)|].
  set (i := tree_info (TreeKids f ks)). pose proof (plain_lookup (n := JSON_COMMENT) (TreeKids f ks) Hf) as Hl. fold i in Hl.
  set (E := elab_note (RBranch i (map tree_rdoc ks)) (map jkid ks)).
  assert (El : forall c, elab (tree_rdoc (TreeKids f ks)) c =
     let c1 := in_style (pd := jpd) (i_lookup i COMMENT_STYLE) c in
     SConcat (SConcat (E (jlit "// ") None c1) (E comment_body None (in_indent (chars "// ") None c1))) SEol).
  { intros c. rewrite (node_elab _ _ Hf). reflexivity. }
  cbv zeta in El.
  assert (Hs : forall b c, wx b c -> x_sty (in_style (pd := jpd) (i_lookup i COMMENT_STYLE) c) = BasicStyle Yellow b).
  { intros b c Hc. rewrite Hl. cbn [in_style x_sty]. unfold wx in Hc. rewrite Hc. exact (f_equal (BasicStyle Yellow) (orb_false_r b)). }
  split.
  - intros b c Hc Hb. rewrite El. cbn [has_comment fl_ok]. specialize (Hs b c Hb). set (c1 := in_style _ c) in *.
    apply commented_right; [|split; [exact I|left; reflexivity]]. split; [exact I|].
    apply (@body_flat i (map tree_rdoc ks) ks b (in_indent (chars "// ") None c1) _ Hc Hs Hw).
  - intros b p c w k col tail j0 Hc Hb Hi Hk. cbn [is_jcomment SpecJson.pretty]. specialize (Hs b c Hb). rewrite El. set (c1 := in_style _ c) in *.
    unfold kspec in Hk. cbn [is_jcomment] in Hk.
    assert (Hx : ix b (p ++ [slashes]) (in_indent (chars "// ") None c1)).
    { unfold ix, in_indent. cbn [x_ind rev]. unfold ix in Hi. cbn [x_ind c1 in_style]. rewrite Hi, map_app. cbn [map]. f_equal. f_equal. rewrite Hs. reflexivity. }
    assert (T : texts b (E (jlit "// ") None c1) [Put Yellow (chars "// ")]) by exact (@texts_lit env i _ _ (chars "// ") None b c1 Yellow Hs).
    destruct (@body_free i (map tree_rdoc ks) ks b (p ++ [slashes]) (in_indent (chars "// ") None c1) _ w j0 (@fits_s jpd (@SEol jpd) k) (wadd col (str_width (chars "// "))) Hc Hs Hx Hw)
      as (col' & R).
    { intros rem. cbn [fits_s]. apply Hk. }
    exists col'.
    match goal with |- renders _ _ _ _ _ _ (?a :: ?o) _ _ => change (a :: o) with ([a] ++ o) end.
    pose proof (@renders_concat env b w _ _ j0 _ col _ _ _ col' false (@texts_renders env Hrel b w _ j0 (fits_s (E comment_body None (in_indent (chars "// ") None c1)) (@fits_s jpd (@SEol jpd) k)) col _ T) R) as (es & R1 & R2).
    exists (es ++ [EEol]). split; [|rewrite strip_app; cbn [strip flat_map strip1 app]; rewrite app_nil_r; exact R2].
    cbn [rend] in R1 |- *. rewrite R1. reflexivity.
Qed.

(** ** Everything *)
Lemma blockA : JSON_ARRAY = n_block "[" "]". Proof. reflexivity. Qed.
Lemma blockO : JSON_OBJECT = n_block "{" "}". Proof. reflexivity. Qed.

Lemma good_block j op cl l f ks : plainf (n_block op cl) f -> Forall2 good l ks -> flags l ks ->
  is_jcomment j = false -> has_comment j = existsb has_comment l -> on_one_line j = block_line op cl l ->
  (forall w p col tail, pretty w p col tail j = block_out is_white op cl w p col tail l) ->
  good j (TreeKids f ks).
Proof.
  intros Hf G Hfl H1 H2 H3 H4. split; [exact (plain_styled (n := n_block op cl) (TreeKids f _) Hf)|].
  pose proof (plain_lookup (n := n_block op cl) (TreeKids f ks) Hf) as Hl. split.
  - intros b c Hc Hb. rewrite (node_elab _ _ Hf), H2, H3. apply block_flat; auto. apply (good_flat G).
  - intros b p c w k col tail j0 Hc Hb Hi Hk. rewrite (node_elab _ _ Hf), H1, H4. unfold kspec in Hk. rewrite H1 in Hk.
    apply block_free; auto.
Qed.

Lemma wf_kids l : (forall x, In x l -> is_entry x \/ is_member x) -> forall ks, Forall2 (jtree is_white) l ks ->
  (forall x, In x l -> (is_entry x \/ is_member x) -> forall t, jtree is_white x t -> good x t) -> Forall2 good l ks.
Proof.
  intros H ks F IH. induction F as [|x t l ks Hx _ IHF]; constructor.
  - apply IH; [left; reflexivity|apply H; left; reflexivity|exact Hx].
  - apply IHF; intros; [apply H|eapply IH; eauto]; right; assumption.
Qed.

Theorem all_good j : is_entry j \/ is_member j -> forall t, jtree is_white j t -> good j t.
Proof.
  induction j as [|b|s|s|l IH|l IH|key x IH|s|l IH] using json_ind'; intros Hj t H.
  - inversion H as [f Hf| | | | | | | |]; subst. apply (@good_constant JNull "null" f); auto. apply (plain_styled (n := JSON_NULL) (TreeKids f []) Hf).
  - inversion H as [|? f Hf| | | | | | |]; subst. destruct b; [apply (@good_constant (JBool true) "true" f)|apply (@good_constant (JBool false) "false" f)]; auto;
      [apply (plain_styled (n := JSON_TRUE) (TreeKids f []) Hf)|apply (plain_styled (n := JSON_FALSE) (TreeKids f []) Hf)].
  - inversion H as [| |? f Hf| | | | | |]; subst. apply good_texts; auto; [apply (plain_styled (n := JSON_STRING) (TreeText f s) Hf)|].
    intros b c Hc. apply string_texts; assumption.
  - inversion H as [| | |? f Hf| | | | |]; subst. apply good_texts; auto; [apply (plain_styled (n := JSON_NUMBER) (TreeText f s) Hf)|].
    intros b c Hc. apply number_texts; assumption.
  - inversion H as [| | | |? f ks Hf F Hfl| | | |]; subst. rewrite blockA in Hf. apply (@good_block _ "[" "]" l); auto.
    + apply wf_kids; auto. intros x Hx. left. destruct Hj as [Hj|Hj]; inversion Hj as [? Hv|]; inversion Hv; auto.
  - inversion H as [| | | | |? f ks Hf F Hfl| | |]; subst. rewrite blockO in Hf. apply (@good_block _ "{" "}" l); auto.
    + apply wf_kids; auto. intros x Hx. right. destruct Hj as [Hj|Hj]; inversion Hj as [? Hv|]; inversion Hv; auto.
  - inversion H as [| | | | | |? ? f kk k Hf Hkk Hk| |]; subst.
    assert (Hv : is_value x) by (destruct Hj as [Hj|Hj]; inversion Hj as [? Hv|]; auto; inversion Hv). 
    apply good_pair; [exact Hf|exact Hkk|apply IH; [left; constructor; exact Hv|exact Hk]|inversion Hv; reflexivity].
  - inversion H as [| | | | | | |? f ks Hf Hw|]; subst. apply good_comment; auto.
  - destruct Hj as [Hj|Hj]; inversion Hj as [? Hv|]; inversion Hv.
Qed.

End Json.
