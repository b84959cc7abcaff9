(** JSON documents: the content of the output, and lines. *)
From Verif Require Export PJson6.
From Coq Require Import String.

Set Implicit Arguments.

(** ** Content *)
Definition blank (p : list (color * str)) : Prop := forall c s, In (c, s) p -> exists n, s = repeat 32%N n.

Lemma blank_tab p : blank p -> blank (p ++ [tab]).
Proof. intros H c s Hin. apply in_app_iff in Hin as [Hin|[[= <- <-]|[]]]; [eapply H; exact Hin|]. exists 4. reflexivity. Qed.

Lemma spaced_spaces n toks s : spaced toks s -> spaced toks (repeat 32%N n ++ s).
Proof. intros H. induction n as [|n IH]; [exact H|]. apply sp_space. exact IH. Qed.

Lemma spaced_blank p toks s : blank p -> spaced toks s -> spaced toks (List.concat (map snd p) ++ s).
Proof.
  intros Hp H. induction p as [|[c x] p IH]; [exact H|]. cbn [map List.concat snd]. rewrite <- app_assoc.
  destruct (Hp c x (or_introl eq_refl)) as (n & ->). apply spaced_spaces. apply IH. intros c' s' Hin. apply (Hp c' s'). right. exact Hin.
Qed.

Lemma jtext_app o1 o2 : jtext (o1 ++ o2) = jtext o1 ++ jtext o2.
Proof. induction o1 as [|[c s|p] o1 IH]; cbn [app jtext]; [reflexivity| |]; rewrite IH, ?app_comm_cons, ?app_assoc; reflexivity. Qed.

Lemma spaced_nl p toks s : blank p -> spaced toks s -> spaced toks (jtext [Break p] ++ s).
Proof. intros Hp H. cbn [jtext]. rewrite app_nil_r. cbn [app]. apply sp_break. apply spaced_blank; assumption. Qed.

(** [adds toks s]: the text [s] consists of the tokens [toks]. *)
Definition adds (toks : list str) (s : str) : Prop := forall toks' s', spaced toks' s' -> spaced (toks ++ toks') (s ++ s').

Lemma adds_app t1 t2 s1 s2 : adds t1 s1 -> adds t2 s2 -> adds (t1 ++ t2) (s1 ++ s2).
Proof. intros A B t s H. rewrite <- !app_assoc. apply A, B, H. Qed.
Lemma adds_token t : adds [t] t.
Proof. intros t' s H. apply sp_token. exact H. Qed.
Lemma adds_nl p : blank p -> adds [] (jtext [Break p]).
Proof. intros Hp t s H. apply spaced_nl; assumption. Qed.
Lemma adds_nil : adds [] [].
Proof. intros t s H. exact H. Qed.
Lemma adds_quoted s : adds [string_token s] (jtext (quoted s)).
Proof. cbn [jtext quoted]. rewrite app_nil_r. apply adds_token. Qed.
Lemma adds_comma : adds [chars ","] (jtext [punct ", "]).
Proof. intros t s H. apply (@sp_token (chars ",")). apply sp_space. exact H. Qed.
Lemma adds_colon : adds [chars ":"] (jtext [punct ": "]).
Proof. intros t s H. apply (@sp_token (chars ":")). apply sp_space. exact H. Qed.

Lemma adds_commas (f : json -> list jpiece) l : (forall x, In x l -> adds (tokens x) (jtext (f x))) ->
  adds (separate (chars ",") (map tokens l)) (jtext (commas (map f l))).
Proof.
  induction l as [|x [|y l] IH]; intros H; [apply adds_nil|apply H; left; reflexivity|].
  change (separate (chars ",") (map tokens (x :: y :: l))) with (tokens x ++ [chars ","] ++ separate (chars ",") (map tokens (y :: l))).
  change (commas (map f (x :: y :: l))) with (f x ++ [punct ", "] ++ commas (map f (y :: l))). rewrite !jtext_app.
  apply adds_app; [apply H; left; reflexivity|]. apply adds_app; [apply adds_comma|]. apply IH. intros z Hz. apply H. right. exact Hz.
Qed.

Lemma adds_line j : has_comment j = false -> is_value j \/ is_member j -> adds (tokens j) (jtext (on_one_line j)).
Proof.
  induction j as [|b|s|s|l IH|l IH|key x IH|s|l IH] using json_ind'; intros Hc Hj.
  - apply adds_token.
  - destruct b; apply adds_token.
  - apply adds_quoted.
  - cbn [tokens on_one_line jtext]. rewrite app_nil_r. apply adds_token.
  - assert (Hl : forall x, In x l -> is_entry x). { destruct Hj as [Hj|Hj]; inversion Hj; assumption. }
    change (tokens (JArray l)) with ([chars "["] ++ separate (chars ",") (map tokens l) ++ [chars "]"]).
    change (on_one_line (JArray l)) with ([punct "["] ++ commas (map on_one_line l) ++ [punct "]"]). rewrite !jtext_app.
    apply adds_app; [apply adds_token|]. apply adds_app; [|apply adds_token]. apply adds_commas. intros x Hx.
    assert (Hcx : has_comment x = false). { destruct (has_comment x) eqn:E; [|reflexivity]. cbn [has_comment] in Hc. rewrite <- Hc. symmetry. apply existsb_exists. eauto. }
    apply IH; [exact Hx|exact Hcx|]. destruct (Hl x Hx) as [y Hy|s]; [left; exact Hy|discriminate].
  - assert (Hl : forall x, In x l -> is_member x). { destruct Hj as [Hj|Hj]; inversion Hj; assumption. }
    change (tokens (JObject l)) with ([chars "{"] ++ separate (chars ",") (map tokens l) ++ [chars "}"]).
    change (on_one_line (JObject l)) with ([punct "{"] ++ commas (map on_one_line l) ++ [punct "}"]). rewrite !jtext_app.
    apply adds_app; [apply adds_token|]. apply adds_app; [|apply adds_token]. apply adds_commas. intros x Hx.
    assert (Hcx : has_comment x = false). { destruct (has_comment x) eqn:E; [|reflexivity]. cbn [has_comment] in Hc. rewrite <- Hc. symmetry. apply existsb_exists. eauto. }
    apply IH; [exact Hx|exact Hcx|]. right. apply Hl. exact Hx.
  - assert (Hx : is_value x). { destruct Hj as [Hj|Hj]; inversion Hj; assumption. }
    change (tokens (JPair key x)) with ([string_token key] ++ [chars ":"] ++ tokens x).
    change (on_one_line (JPair key x)) with (quoted key ++ [punct ": "] ++ on_one_line x). rewrite !jtext_app.
    apply adds_app; [apply adds_quoted|]. apply adds_app; [apply adds_colon|]. apply IH; [exact Hc|left; exact Hx].
  - discriminate.
  - destruct Hj as [Hj|Hj]; inversion Hj.
Qed.

Section Content.
Variable is_white : char -> bool.
Scheme written_ind' := Minimality for written Sort Prop with rows_ind' := Minimality for rows Sort Prop with roots_ind' := Minimality for roots_rows Sort Prop.
Combined Scheme written_all from written_ind', rows_ind', roots_ind'.

Lemma comma_free x l : existsb has_comment (x :: l) = false -> has_comment x = false /\ existsb has_comment l = false.
Proof. cbn [existsb]. apply orb_false_iff. Qed.

Lemma adds_written : forall p,
  (forall j o, written is_white p j o -> blank p -> has_comment j = false -> adds (tokens j) (jtext o)) /\
  (forall l o, rows is_white p l o -> blank p -> existsb has_comment l = false -> adds (separate (chars ",") (map tokens l)) (jtext o)) /\
  (forall l o, roots_rows is_white p l o -> blank p -> existsb has_comment l = false -> adds (List.concat (map tokens l)) (jtext o)).
Proof.
  apply (written_all (is_white := is_white)
    (fun p j o => blank p -> has_comment j = false -> adds (tokens j) (jtext o))
    (fun p l o => blank p -> existsb has_comment l = false -> adds (separate (chars ",") (map tokens l)) (jtext o))
    (fun p l o => blank p -> existsb has_comment l = false -> adds (List.concat (map tokens l)) (jtext o))).
  - intros p x Hc Hv _ _. apply adds_line; auto.
  - intros p l o Hl _ IH Hp Hc. pose proof (blank_tab Hp) as Hp'.
    change (tokens (JArray l)) with ([chars "["] ++ [] ++ separate (chars ",") (map tokens l) ++ [] ++ [chars "]"]).
    rewrite !jtext_app.
    change (jtext [punct "["; Break (p ++ [tab])]) with (chars "[" ++ jtext [Break (p ++ [tab])]).
    change (jtext [Break p; punct "]"]) with (jtext ([Break p] ++ [punct "]"])). rewrite jtext_app, <- !app_assoc.
    apply adds_app; [apply adds_token|]. apply adds_app; [apply adds_nl; exact Hp'|]. apply adds_app; [apply IH; [exact Hp'|exact Hc]|].
    apply adds_app; [apply adds_nl; exact Hp|apply adds_token].
  - intros p l o Hl _ IH Hp Hc. pose proof (blank_tab Hp) as Hp'.
    change (tokens (JObject l)) with ([chars "{"] ++ [] ++ separate (chars ",") (map tokens l) ++ [] ++ [chars "}"]).
    rewrite !jtext_app.
    change (jtext [punct "{"; Break (p ++ [tab])]) with (chars "{" ++ jtext [Break (p ++ [tab])]).
    change (jtext [Break p; punct "}"]) with (jtext ([Break p] ++ [punct "}"])). rewrite jtext_app, <- !app_assoc.
    apply adds_app; [apply adds_token|]. apply adds_app; [apply adds_nl; exact Hp'|]. apply adds_app; [apply IH; [exact Hp'|exact Hc]|].
    apply adds_app; [apply adds_nl; exact Hp|apply adds_token].
  - intros p k x o _ IH Hp Hc.
    change (tokens (JPair k x)) with ([string_token k] ++ [chars ":"] ++ tokens x).
    change (quoted k ++ punct ": " :: o) with (quoted k ++ [punct ": "] ++ o). rewrite !jtext_app.
    apply adds_app; [apply adds_quoted|]. apply adds_app; [apply adds_colon|]. apply IH; assumption.
  - intros p s o _ _ H. discriminate.
  - intros p _ _. apply adds_nil.
  - intros p l o _ IH Hp Hc. apply IH; assumption.
  - intros p x o _ IH Hp Hc. apply comma_free in Hc as [Hc _]. apply IH; assumption.
  - intros p x l o1 o2 Hl _ IH1 _ IH2 Hp Hc. apply comma_free in Hc as [Hc1 Hc2].
    assert (E : separate (chars ",") (map tokens (x :: l)) = tokens x ++ [chars ","] ++ [] ++ separate (chars ",") (map tokens l)) by (destruct l; [congruence|reflexivity]).
    assert (N : needs_comma x l = true).
    { unfold needs_comma. destruct x; try discriminate; (destruct l as [|y l]; [congruence|]; apply comma_free in Hc2 as [Hc2 _]; destruct y; try discriminate; reflexivity). }
    rewrite E, N. change (Break p :: o2) with ([Break p] ++ o2). rewrite !jtext_app.
    apply adds_app; [apply IH1; assumption|]. apply adds_app; [apply adds_token|]. apply adds_app; [apply adds_nl; exact Hp|apply IH2; assumption].
  - intros p x o _ IH Hp Hc. apply comma_free in Hc as [Hc _]. cbn [map List.concat]. rewrite app_nil_r. apply IH; assumption.
  - intros p x l o1 o2 Hl _ IH1 _ IH2 Hp Hc. apply comma_free in Hc as [Hc1 Hc2].
    change (Break p :: o2) with ([Break p] ++ o2). rewrite !jtext_app. cbn [map List.concat].
    apply adds_app; [apply IH1; assumption|]. apply (@adds_app []); [apply adds_nl; exact Hp|apply IH2; assumption].
Qed.
End Content.

(** ** Lines *)
Section Lines.
Context {env : Env}.

Lemma nf_lines b o : forall cur col, col = exact_width (map (jseg b) cur) ->
  Forall (fun l => exact_width l < U16)%N (map (map (jseg b)) (jlines_from cur o)) -> nf str_width col o.
Proof.
  assert (P : forall p, psum str_width p = exact_width (map (jseg b) p)).
  { intros p. unfold psum, prefix_width, exact_width. rewrite !map_map.
    change (map (fun x => seg_width (jseg b x)) p) with (map (fun x : color * str => str_width (snd x)) p).
    generalize (map (fun x : color * str => str_width (snd x)) p). clear. intros l.
    assert (E : forall a, fold_left N.add l a = (a + fold_right N.add 0 l)%N); [|apply E].
    induction l as [|x l IH]; intros a; cbn [fold_left fold_right]; [lia|]. rewrite IH. lia. }
  induction o as [|[c s|p] o IH]; intros cur col Hc H; cbn [nf jlines_from map] in *.
  - inversion H. subst. assumption.
  - apply (IH (cur ++ [(c, s)])); [|exact H]. rewrite map_app. unfold exact_width in *. rewrite map_app, fold_right_app. cbn.
    rewrite Hc. clear. induction (map seg_width (map (jseg b) cur)) as [|x l IH]; cbn; [lia|]. lia.
  - inversion H as [|? ? H1 H2]. split; [rewrite Hc; exact H1|]. apply (IH p); [apply P|exact H2].
Qed.

Lemma join_jlines b o : forall cur,
  join_lines (map segs_to_string (map (map (jseg b)) (jlines_from cur o))) = List.concat (map snd cur) ++ jtext o.
Proof.
  assert (S : forall cur, segs_to_string (map (jseg b) cur) = List.concat (map snd cur)).
  { intros cur. unfold segs_to_string. rewrite map_map. reflexivity. }
  assert (N : forall o cur, map segs_to_string (map (map (jseg b)) (jlines_from cur o)) <> []).
  { clear. induction o as [|[c s|p] o IH]; intros cur; cbn [jlines_from]; [discriminate|apply IH|discriminate]. }
  induction o as [|[c s|p] o IH]; intros cur; cbn [jlines_from jtext].
  - cbn [map join_lines]. rewrite S, app_nil_r. reflexivity.
  - rewrite IH, map_app, concat_app. cbn [map List.concat snd]. rewrite app_nil_r, <- app_assoc. reflexivity.
  - cbn [map]. specialize (IH p). specialize (N o p). destruct (map segs_to_string (map (map (jseg b)) (jlines_from p o))) as [|x l] eqn:E; [congruence|].
    change (join_lines (segs_to_string (map (jseg b) cur) :: x :: l)) with (segs_to_string (map (jseg b) cur) ++ [10%N] ++ join_lines (x :: l)).
    rewrite IH, S. reflexivity.
Qed.
End Lines.
