(** The layout of JSON documents: the trees of the notations. *)
From Verif Require Export PJson2.
From Coq Require Import String.

Set Implicit Arguments.

Notation jpd := (@tree_doc basic_tree_style).

Section Json.
Context {env : Env}.
Hypothesis Hrel : ovf = false.
Variable is_white : char -> bool.
Notation shape := (@shape jpd).
Notation ctx := (@ctx jpd).
Notation rdoc := (@rdoc jpd).
Notation info := (@info jpd).
Notation kid := (@kid jpd).
Notation elab := (@elab jpd env).
Notation elab_note := (@elab_note jpd env).
Notation foldenv := (@foldenv jpd).
Notation look := SpecLayout.look.

Definition jkid (k : json_tree) : kid := @Kid jpd (tree_rdoc k) (elab (tree_rdoc k)).

Definition wx (b : bool) (c : ctx) : Prop := x_sty c = BasicStyle White b.
Definition ix (b : bool) (p : list (color * str)) (c : ctx) : Prop := rev (x_ind c) = map (jseg b) p.

Definition fl_ok (b : bool) (s : shape) (cm : bool) (o : list jpiece) : Prop := if cm then commented s else texts b s o.

Lemma fl_straight b s cm o : fl_ok b s cm o -> straight s.
Proof. destruct cm; intros [H _]; exact H. Qed.

Lemma fl_concat b s1 s2 cm1 cm2 o1 o2 : fl_ok b s1 cm1 o1 -> fl_ok b s2 cm2 o2 -> fl_ok b (SConcat s1 s2) (cm1 || cm2) (o1 ++ o2).
Proof.
  intros H1 H2. destruct cm1; [apply commented_left; [exact H1|eapply fl_straight; exact H2]|].
  destruct cm2; [apply commented_right; [apply H1|exact H2]|]. apply texts_concat; assumption.
Qed.

Lemma fl_child b n j s cm o : fl_ok b s cm o -> fl_ok b (SChild n (Ok j) s) cm o.
Proof. destruct cm; [apply commented_child|apply texts_child]. Qed.

Definition kspec (k : look) (tail : N) (j : json) : Prop :=
  if is_jcomment j then forall rem, k rem true = Some true else forall rem, k rem false = Some (tail <=? rem)%N.

Notation pretty := (pretty is_white str_width wadd).

Definition flat_ok (j : json) (t : json_tree) : Prop := forall b c, x_flat c = true -> wx b c ->
  fl_ok b (elab (tree_rdoc t) c) (has_comment j) (on_one_line j).
Definition free_ok (j : json) (t : json_tree) : Prop := forall b p c w k col tail j0,
  x_flat c = false -> wx b c -> ix b p c -> kspec k tail j ->
  exists col', renders b w (elab (tree_rdoc t) c) j0 k col (pretty w p col tail j) col' (is_jcomment j).
Definition styled (t : json_tree) : Prop := t_node_style (t_fields t) = bs_default.
Definition good (j : json) (t : json_tree) : Prop := styled t /\ flat_ok j t /\ free_ok j t.

Lemma wx_style b c : wx b c -> wx b (in_style (pd := jpd) bs_default c).
Proof. unfold wx, in_style. cbn. intros ->. unfold bs_combine. cbn. rewrite orb_false_r. reflexivity. Qed.

(** ** The parts of a node *)
Section Node.
Variables (i : info) (rks : list rdoc) (ks : list json_tree).
Hypothesis Hl : forall l, i_lookup i l = bs_from l.
Notation E := (elab_note (RBranch i rks) (map jkid ks)).

Lemma texts_styled l s fe b (c : ctx) x : x_sty c = BasicStyle x b -> bs_bold (bs_from l) = false ->
  texts b (E (Style l (Literal s)) fe c) [Put (bs_color (bs_from l)) s].
Proof.
  intros Hc Hb. cbn [SpecElab.elab_note]. apply texts_text. cbn. unfold jseg, text_seg. cbn. rewrite Hl, Hc. unfold bs_combine. cbn. rewrite Hb, orb_false_r. reflexivity.
Qed.
Lemma texts_lit s fe b (c : ctx) x : x_sty c = BasicStyle x b -> texts b (E (Literal s) fe c) [Put x s].
Proof. intros Hc. apply texts_text. cbn. unfold jseg, text_seg. cbn. rewrite Hc. reflexivity. Qed.

Lemma child_eq m t c : styled t ->
  child m (jkid t) c = SChild m (Ok (t_id (t_fields t) : @Id jpd)) (elab (tree_rdoc t) (in_style (pd := jpd) bs_default c)).
Proof. intros H. unfold child. unfold styled in H. rewrite <- H. destruct t; reflexivity. Qed.

(** A child, in a flat context. *)
Lemma flat_child j t m b c : styled t -> flat_ok j t -> x_flat c = true -> wx b c ->
  fl_ok b (child m (jkid t) c) (has_comment j) (on_one_line j).
Proof.
  intros Hs Hf Hc Hb. rewrite child_eq by exact Hs. apply fl_child. apply Hf; [exact Hc|apply wx_style; exact Hb].
Qed.

(** A child, in a free context. *)
Lemma free_child j t m b p c w k col tail j0 : styled t -> free_ok j t ->
  x_flat c = false -> wx b c -> ix b p c -> kspec k tail j ->
  exists col', renders b w (child m (jkid t) c) j0 k col (pretty w p col tail j) col' (is_jcomment j).
Proof.
  intros Hs Hf Hc Hb Hi Hk. destruct (Hf b p (in_style (pd := jpd) bs_default c) w k col tail (t_id (t_fields t)) Hc (wx_style Hb) Hi Hk) as (col' & H).
  exists col'. rewrite child_eq by exact Hs. apply renders_child. exact H.
Qed.

(** ** On one line *)
Definition join1 : tree_notation := n_add (n_add Left (jlit ", ")) (Flat Right).

Lemma flat_fold b (c : ctx) : x_sty c = BasicStyle White b -> forall l ts, Forall2 (fun j t => styled t /\ flat_ok j t) l ts ->
  forall m prev acc cm o, fl_ok b (acc c) cm o ->
  fl_ok b (fold_kids (fun e c => E join1 (Some e) c) m prev (map jkid ts) acc c) (cm || existsb has_comment l)
    (o ++ flat_map (fun x => punct ", " :: on_one_line x) l).
Proof.
  intros Hc. induction 1 as [|x t l ts [Hx1 Hx2] _ IH]; intros m prev acc cm o H; cbn [map fold_kids existsb flat_map].
  - rewrite orb_false_r, app_nil_r. exact H.
  - assert (A : fl_ok b (E join1 (Some (FoldEnv acc (k_doc prev) (S m) (jkid t))) c) (cm || false || has_comment x) ((o ++ [punct ", "]) ++ on_one_line x)).
    { unfold join1, n_add, jlit. cbn [SpecElab.elab_note fe_left fe_index fe_right].
      apply fl_concat; [apply fl_concat; [exact H|]|].
      - exact (@texts_lit (chars ", ") None b c White Hc).
      - apply flat_child; auto. }
    rewrite orb_false_r, <- app_assoc in A. specialize (IH (S m) (jkid t) _ _ _ A). rewrite <- orb_assoc, <- app_assoc in IH. exact IH.
Qed.

Lemma commas_cons x l : commas (on_one_line x :: map on_one_line l) = on_one_line x ++ flat_map (fun x => punct ", " :: on_one_line x) l.
Proof.
  revert x; induction l as [|y l IH]; intros x; cbn [map commas flat_map]; [rewrite app_nil_r; reflexivity|].
  cbn [map] in IH. specialize (IH y). cbn [commas] in IH. rewrite IH. reflexivity.
Qed.

Variables op cl : string.
Definition n_open : tree_notation := Style (chars "open") (jlit op).
Definition n_close : tree_notation := Style (chars "close") (jlit cl).
Definition n_single : tree_notation := n_add (n_add n_open single_seq) n_close.
Definition n_rows : tree_notation := Fold (Child 0) (n_xor (n_add Left separator) Right).
Definition n_multi : tree_notation := n_xor (n_add n_open (n_shr 4 n_rows)) n_close.
Definition n_block : tree_notation :=
  Count (n_add (n_add n_open FocusMark) n_close) (n_or n_single n_multi) (n_or n_single n_multi).

Lemma texts_open fe b c : wx b c -> texts b (E n_open fe c) [punct op].
Proof. intros H. exact (@texts_styled (chars "open") (chars op) fe b c White H eq_refl). Qed.
Lemma texts_close fe b c : wx b c -> texts b (E n_close fe c) [punct cl].
Proof. intros H. exact (@texts_styled (chars "close") (chars cl) fe b c White H eq_refl). Qed.

Lemma flat_seq b c x l t ts : wx b c -> ks = t :: ts ->
  Forall2 (fun j t => styled t /\ flat_ok j t) (x :: l) (t :: ts) ->
  fl_ok b (E (n_add n_open single_seq) None c) (existsb has_comment (x :: l)) (punct op :: commas (map on_one_line (x :: l))).
Proof.
  intros Hc Hks H. revert Hks. inversion H as [|? ? ? ? [Hx1 Hx2] Hts]; subst. intros Hks.
  unfold n_add. cbn [SpecElab.elab_note]. change (punct op :: commas (map on_one_line (x :: l))) with ([punct op] ++ commas (map on_one_line (x :: l))).
  change (existsb has_comment (x :: l)) with (false || (has_comment x || existsb has_comment l)).
  apply fl_concat; [apply texts_open; exact Hc|]. cbn [map]. rewrite commas_cons. rewrite Hks. cbn [map].
  apply flat_fold; [exact Hc|exact Hts|]. cbn [SpecElab.elab_note length]. cbn [List.length map].
  cbn. apply flat_child; auto.
Qed.

Lemma flat_single b c x l t ts : wx b c -> ks = t :: ts ->
  Forall2 (fun j t => styled t /\ flat_ok j t) (x :: l) (t :: ts) ->
  fl_ok b (E n_single None c) (existsb has_comment (x :: l)) (punct op :: commas (map on_one_line (x :: l)) ++ [punct cl]) /\
  (existsb has_comment (x :: l) = true -> forall k rem, fits_s (E n_single None c) k rem false = Some false).
Proof.
  intros Hc Hks H. pose proof (flat_seq Hc Hks H) as A. unfold n_single. cbn [n_add SpecElab.elab_note] in *. split.
  - rewrite <- (orb_false_r (existsb _ _)). exact (@fl_concat b _ _ _ false _ [punct cl] A (@texts_close None b c Hc)).
  - intros E k rem. rewrite E in A. rewrite fits_steps.
    + cbn [steps]. apply runf_commented. apply A.
    + split; [apply A|]. apply (@texts_close None b c Hc).
Qed.

(** ** In rows *)
Definition join2 : tree_notation := n_xor (n_add Left separator) Right.

Lemma in_rows_cons width p put x y l : in_rows width p put (x :: y :: l) =
  (if needs_comma x (y :: l) then put (width (chars ",")) x ++ [punct ","] else put 0%N x) ++ Break p :: in_rows width p put (y :: l).
Proof. reflexivity. Qed.

Lemma rows_fold w j0 b p c col0 : x_flat c = false -> wx b c -> ix b p c ->
  forall l ts, Forall2 (fun j t => styled t /\ free_ok j t) l ts ->
  forall m x t acc o, flags (x :: l) (t :: ts) ->
  (forall k tail, kspec k tail x -> exists col', renders b w (acc c) j0 k col0 (o ++ pretty w p (prefix_width str_width wadd p) tail x) col' (is_jcomment x)) ->
  forall k, (forall rem e, k rem e = Some true) ->
  exists col' e, renders b w (fold_kids (fun e c => E join2 (Some e) c) m (jkid t) (map jkid ts) acc c) j0 k col0
    (o ++ in_rows str_width p (fun tail x => pretty w p (prefix_width str_width wadd p) tail x) (x :: l)) col' e.
Proof.
  intros Hf Hw Hx. induction 1 as [|y u l ts [Hy1 Hy2] F IH]; intros m x t acc o Hfl Hacc k Hk.
  - destruct (Hacc k 0%N) as (col' & R).
    { unfold kspec. destruct (is_jcomment x); intros rem; rewrite Hk; [|destruct rem]; reflexivity. }
    exists col', (is_jcomment x). exact R.
  - destruct Hfl as [Hfx Hfl]. cbn [map fold_kids].
    set (out := (if needs_comma x (y :: l) then pretty w p (prefix_width str_width wadd p) (str_width (chars ",")) x ++ [punct ","]
                 else pretty w p (prefix_width str_width wadd p) 0 x) ++ [Break p]).
    destruct (IH (S m) y u (E join2 (Some (FoldEnv acc (k_doc (jkid t)) (S m) (jkid u)))) (o ++ out) Hfl) with (k := k) as (col' & e & R); [|exact Hk|].
    2: { exists col', e. rewrite in_rows_cons. unfold out in R. rewrite <- !app_assoc in R. exact R. }
    clear k Hk IH Hfl. intros k tail Hk.
    destruct (@free_child y u (S m) b p c w k (prefix_width str_width wadd p) tail j0 Hy1 Hy2 Hf Hw Hx Hk) as (col' & R).
    exists col'. unfold join2, n_xor, n_add. cbn [SpecElab.elab_note fe_left fe_ldoc fe_index fe_right].
    apply renders_concat with (c1 := prefix_width str_width wadd p); [|exact R].
    unfold out. rewrite app_assoc.
    assert (Y : exists c1 e1, renders b w (SConcat (acc c) (E separator (Some (FoldEnv acc (k_doc (jkid t)) (S m) (jkid u))) c)) j0 (fun _ _ => Some true) col0
      (o ++ (if needs_comma x (y :: l) then pretty w p (prefix_width str_width wadd p) (str_width (chars ",")) x ++ [punct ","]
                 else pretty w p (prefix_width str_width wadd p) 0 x)) c1 e1).
    { unfold separator. cbn [SpecElab.elab_note fe_ldoc k_doc jkid].
      replace (i_cond (r_info (tree_rdoc t)) NeedsSeparator) with (flag t) by (destruct t; reflexivity). rewrite Hfx.
      destruct (needs_comma x (y :: l)) eqn:En.
      - unfold needs_comma in En. apply andb_true_iff in En as [En _]. apply negb_true_iff in En.
        edestruct Hacc as (c1 & R1); [|eexists _, false; rewrite app_assoc; eapply renders_concat; [rewrite En in R1; exact R1|]].
        + unfold kspec. rewrite En. intros rem. cbn [fits_s]. unfold jlit. cbn [SpecElab.elab_note fits_s tx_width]. destruct (_ <=? rem)%N; reflexivity.
        + apply (texts_renders Hrel). exact (@texts_lit (chars ",") _ b c White Hw).
      - destruct (Hacc (fun _ _ => Some true) 0%N) as (c1 & (es & R1 & R2)).
        { unfold kspec. destruct (is_jcomment x); intros rem; [|destruct rem]; reflexivity. }
        exists c1, (is_jcomment x), (es ++ []). cbn [rend SpecElab.elab_note fits_s]. rewrite R1. cbn [obind]. split; [reflexivity|]. rewrite app_nil_r. exact R2. }
    destruct Y as (c1 & e1 & Y). eapply renders_break; [exact Hrel|exact Hx|exact Y].
Qed.

Definition block_line (l : list json) : list jpiece := punct op :: commas (map on_one_line l) ++ [punct cl].

Lemma norm0 n : kid_number 0 (S n) = Some 0.
Proof. reflexivity. Qed.

Lemma block_empty b c : wx b c -> ks = [] -> texts b (E n_block None c) [punct op; punct cl].
Proof.
  intros Hc Hks.
  replace (E n_block None c) with (SConcat (SConcat (E n_open None c) SMark) (E n_close None c)).
  - change [punct op; punct cl] with (([punct op] ++ []) ++ [punct cl]).
    apply texts_concat; [apply texts_concat; [apply texts_open; exact Hc|apply texts_mark]|apply texts_close; exact Hc].
  - unfold n_block, n_add. cbn [SpecElab.elab_note]. destruct (map jkid ks) as [|? ?] eqn:Ek; [reflexivity|rewrite Hks in Ek; discriminate].
Qed.

Lemma block_some b c t ts : wx b c -> ks = t :: ts ->
  E n_block None c = if x_flat c then E n_single None c else SChoice (E n_single None c) (E n_multi None c).
Proof.
  intros Hc Hks. unfold n_block, n_or. cbn [SpecElab.elab_note].
  destruct (map jkid ks) as [|? [|]] eqn:Ek; [rewrite Hks in Ek; discriminate|reflexivity|reflexivity].
Qed.

Lemma block_flat b c l : x_flat c = true -> wx b c -> Forall2 (fun j t => styled t /\ flat_ok j t) l ks ->
  fl_ok b (E n_block None c) (existsb has_comment l) (block_line l).
Proof.
  intros Hf Hc H. destruct l as [|x l].
  - assert (E1 : ks = []) by (inversion H; reflexivity). exact (block_empty Hc E1).
  - assert (E1 : exists t ts, ks = t :: ts) by (inversion H; eauto). destruct E1 as (t & ts & E1). rewrite E1 in H. rewrite (block_some Hc E1), Hf. apply (flat_single Hc E1 H).
Qed.

Lemma good_flat : forall l ts, Forall2 good l ts -> Forall2 (fun j t => styled t /\ flat_ok j t) l ts.
Proof. induction 1 as [|x t l ts H _ IH]; constructor; auto. destruct H as (A & B & C). auto. Qed.
Lemma good_free : forall l ts, Forall2 good l ts -> Forall2 (fun j t => styled t /\ free_ok j t) l ts.
Proof. induction 1 as [|x t l ts H _ IH]; constructor; auto. destruct H as (A & B & C). auto. Qed.

Lemma multi_renders b p c w k col j0 x l t ts : x_flat c = false -> wx b c -> ix b p c ->
  Forall2 good (x :: l) (t :: ts) -> flags (x :: l) (t :: ts) -> ks = t :: ts ->
  exists col', renders b w (E n_multi None c) j0 k col
    ([punct op; Break (p ++ [tab])] ++
     in_rows str_width (p ++ [tab]) (fun tail x => pretty w (p ++ [tab]) (prefix_width str_width wadd (p ++ [tab])) tail x) (x :: l) ++
     [Break p; punct cl]) col' false.
Proof.
  intros Hf Hw Hx H Hfl Hks. unfold n_multi, n_xor, n_add, n_shr. cbn [SpecElab.elab_note option_map].
  set (c' := in_indent (repeat space 4) None c).
  assert (Hx' : ix b (p ++ [tab]) c').
  { unfold ix, c', in_indent. cbn [x_ind rev]. rewrite Hx, map_app. cbn [map]. f_equal. f_equal. unfold wx in Hw. rewrite Hw. reflexivity. }
  assert (Hw' : wx b c') by exact Hw. assert (Hf' : x_flat c' = false) by exact Hf.
  set (p' := p ++ [tab]) in *.
  assert (X : styled t /\ free_ok x t /\ Forall2 (fun j t => styled t /\ free_ok j t) l ts).
  { inversion H as [|? ? ? ? Hx0 Hl0]. destruct Hx0 as (A & B & C). split; [exact A|]. split; [exact C|]. apply good_free. exact Hl0. }
  destruct X as (X1 & X2 & X3).
  assert (R : exists c1 e1, renders b w (E n_rows None c') j0 (fun _ _ => Some true) (prefix_width str_width wadd p')
    ([] ++ in_rows str_width p' (fun tail x => pretty w p' (prefix_width str_width wadd p') tail x) (x :: l)) c1 e1).
  { destruct (@rows_fold w j0 b p' c' (prefix_width str_width wadd p') Hf' Hw' Hx' l ts X3 0 x t (fun c => E (Child 0) None c) [] Hfl) with (k := fun (_ : N) (_ : bool) => Some true) as (c1 & e1 & R); [|reflexivity|].
    - intros k0 tail Hk0. cbn [SpecElab.elab_note]. rewrite Hks. cbn [map List.length]. rewrite norm0. cbn [nth_error].
      apply (@free_child x t 0 b p' c' w k0 _ tail j0 X1 X2 Hf' Hw' Hx' Hk0).
    - exists c1, e1. unfold n_rows. cbn [SpecElab.elab_note]. replace (map jkid ks) with (jkid t :: map jkid ts) in * by (rewrite Hks; reflexivity). exact R. }
  destruct R as (c1 & e1 & R). cbn [app] in R.
  eexists. change ([Break p; punct cl]) with ([Break p] ++ [punct cl]). rewrite !app_assoc.
  apply renders_concat with (c1 := prefix_width str_width wadd p); [|apply (texts_renders Hrel); apply texts_close; exact Hw].
  eapply renders_break; [exact Hrel|exact Hx|].
  change [punct op; Break p'] with ([punct op] ++ [Break p']). rewrite <- app_assoc.
  eapply renders_concat; [apply (texts_renders Hrel); apply texts_open; exact Hw|].
  eapply renders_concat; [|exact R]. exact (@renders_newline env Hrel b w j0 _ _ false _ p' Hx').
Qed.

(** The whole block, in a free context. *)
Definition block_out (w : N) (p : list (color * str)) (col tail : N) (l : list json) : list jpiece :=
  match l with
  | [] => block_line l
  | _ => if negb (existsb has_comment l) && (col + out_width str_width (block_line l) + tail <=? w)%N then block_line l
         else [punct op; Break (p ++ [tab])] ++
              in_rows str_width (p ++ [tab]) (fun tail x => pretty w (p ++ [tab]) (prefix_width str_width wadd (p ++ [tab])) tail x) l ++
              [Break p; punct cl]
  end.

Lemma block_free b p c w k col tail j0 l : x_flat c = false -> wx b c -> ix b p c ->
  (forall rem, k rem false = Some (tail <=? rem)%N) -> Forall2 good l ks -> flags l ks ->
  exists col', renders b w (E n_block None c) j0 k col (block_out w p col tail l) col' false.
Proof.
  intros Hf Hw Hx Hk H Hfl. destruct l as [|x l].
  - assert (E1 : ks = []) by (inversion H; reflexivity). eexists. apply (texts_renders Hrel). exact (block_empty Hw E1).
  - assert (E1 : exists t ts, ks = t :: ts) by (inversion H; eauto). destruct E1 as (t & ts & E1). rewrite E1 in H, Hfl. rewrite (block_some Hw E1), Hf.
    destruct (flat_single Hw E1 (good_flat H)) as [S1 S2].
    destruct (@multi_renders b p c w k col j0 x l t ts Hf Hw Hx H Hfl E1) as (col' & M).
    assert (P : picks_first w (E n_single None c) k (col, false) =
      Some (negb (existsb has_comment (x :: l)) && (col + out_width str_width (block_line (x :: l)) + tail <=? w)%N)).
    { unfold picks_first. destruct (existsb has_comment (x :: l)).
      - rewrite S2 by reflexivity. destruct (_ <=? _)%N; reflexivity.
      - cbn [negb andb]. cbn [fl_ok] in S1. fold (block_line (x :: l)) in S1. destruct (N.leb_spec col w) as [Hcol|Hcol].
        + rewrite (texts_fits S1), Hk. set (ow := out_width str_width (block_line (x :: l))) in *.
          destruct (N.leb_spec ow (w - col)).
          * f_equal. destruct (N.leb_spec tail (w - col - ow)), (N.leb_spec (col + ow + tail) w); lia.
          * f_equal. destruct (N.leb_spec (col + ow + tail) w); lia.
        + f_equal. destruct (N.leb_spec (col + out_width str_width (block_line (x :: l)) + tail) w); [lia|reflexivity]. }
    unfold block_out, renders. cbn [rend]. rewrite (straight_head _ (@fl_straight _ _ _ _ S1)), P. cbn [obind].
    destruct (negb (existsb has_comment (x :: l)) && _) eqn:D.
    + apply andb_true_iff in D as [D _]. apply negb_true_iff in D. rewrite D in S1. eexists. exact (@texts_renders env Hrel b w _ j0 k col _ S1).
    + exists col'. exact M.
Qed.

End Node.
End Json.
