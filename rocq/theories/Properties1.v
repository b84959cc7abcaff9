(** The properties of printing around a focus (C01-C07, C09-C11, C20, C24, C43).

    Vocabulary: [finite_doc] (SpecDoc), [rep], [valid_doc], [doc_shape] (SpecElab),
    [layout], [lines_of] (SpecLayout), [displayed], [at_start], [at_end],
    [at_mark], [linear], [unique_ids] (SpecFocus), [printed], [print_fails],
    [all_lines] (SpecPrint), and SpecProps. *)
From Verif Require Export PFinite Examples SpecProps.

Set Implicit Arguments.

Section Finite.
Context {pd : PrettyDoc} {env : Env} {ideq : IdEq pd}.

(** C01.  If the call succeeds, then either the whole document can be printed
    from its start, both iterators succeed, and the lines around the focus are
    the lines of the whole document; or the whole document cannot be printed
    and one of the iterators fails too. *)
Theorem C01_partial_printing_agrees doc w path ft st up fl down :
  finite_doc doc -> is_text_target ft = false ->
  ev (fun n => pretty_print n doc w path ft st) (Ok (up, fl, down)) ->
  (exists ups downs fl0 downs0,
     ev (fun n => collect n (up_next n) up) (Ok ups) /\
     ev (fun n => collect n (down_next n) down) (Ok downs) /\
     printed doc w [] FStart st [] fl0 downs0 /\
     all_lines ups fl downs = all_lines [] fl0 downs0) \/
  (exists f f0, print_fails doc w [] FStart st f0 /\
     (ev (fun n => collect n (up_next n) up) (Fail f) \/
      ev (fun n => collect n (down_next n) down) (Fail f))).
Proof.
  intros Hf Hft Hok. destruct (finite_tree st Hf) as (root & Ht & Hr).
  pose proof (@around_root _ _ _ _ (nofuel_eol doc) (@nofuel_ovf _ _ doc) doc st root Ht Hr w path ft up fl down Hft Hok) as Ha.
  pose proof (@full_root _ _ _ _ (nofuel_eol doc) (@nofuel_ovf _ _ doc) doc st root Ht Hr w) as Hb.
  destruct (layout w root) as [es|].
  - left. destruct Ha as (ups & downs & H1 & H2 & H3). destruct Hb as (fl0 & downs0 & H4 & H5 & H6).
    exists ups, downs, fl0, downs0. repeat (split; [solve [auto]|]). rewrite <- H3, H6. unfold all_lines. rewrite H5. reflexivity.
  - right. destruct Ha as (f & _ & Ha). destruct Hb as (f0 & Hb & _). eauto.
Qed.

(** C01, in terms of complete prints only. *)
Theorem C01_same_lines doc w st path ft ups fl downs :
  finite_doc doc -> is_text_target ft = false -> printed doc w path ft st ups fl downs ->
  exists fl0 downs0, printed doc w [] FStart st [] fl0 downs0 /\
    all_lines ups fl downs = all_lines [] fl0 downs0.
Proof.
  intros Hf Hft Hp. pose proof Hp as (up & down & A1 & A2 & A3).
  destruct (C01_partial_printing_agrees _ _ _ _ Hf Hft A1) as [(ups' & downs' & fl0 & downs0 & H1 & H2 & H3 & H4)|(f & f0 & _ & H)].
  - exists fl0, downs0. split; auto. pose proof (ev_det A2 H1) as E1. pose proof (ev_det A3 H2) as E2.
    injection E1 as <-. injection E2 as <-. exact H4.
  - exfalso. destruct H as [H|H]; [pose proof (ev_det A2 H)|pose proof (ev_det A3 H)]; discriminate.
Qed.

(** C09.  The call ends, and so do both iterators. *)
Theorem C09_printing_terminates doc w path ft st :
  finite_doc doc ->
  exists r, ev (fun n => pretty_print n doc w path ft st) r /\ r <> Fail FFuel /\
    forall up fl down, r = Ok (up, fl, down) ->
    exists ru rd, ev (fun n => collect n (up_next n) up) ru /\ ru <> Fail FFuel /\
                  ev (fun n => collect n (down_next n) down) rd /\ rd <> Fail FFuel.
Proof.
  intros Hf. destruct (finite_tree st Hf) as (root & Ht & Hr).
  destruct (@total_root _ _ _ _ (nofuel_eol doc) (@nofuel_ovf _ _ doc) doc st root Ht Hr w path ft) as (r & Hev & H).
  exists r. split; auto. destruct r as [[[up fl] down]|f].
  - split; [discriminate|]. intros ? ? ? [= <- <- <-]. destruct H as (ru & rd & H1 & H2 & H3 & H4).
    exists ru, rd. split; auto. split. { intros ->. destruct (H3 _ eq_refl). congruence. }
    split; auto. intros ->. destruct (H4 _ eq_refl). congruence.
  - split; [|discriminate]. intros [= ->].
    destruct H as [[H _]|[(i & _ & H)|[(_ & H)|(n & _ & H)]]]; congruence.
Qed.

(** C09.  The string printer ends too. *)
Theorem C09_to_string_terminates doc w :
  finite_doc doc -> exists r, ev (fun n => pretty_print_to_string n doc w) r /\ r <> Fail FFuel.
Proof.
  intros Hf. destruct (C09_printing_terminates w [] FStart None Hf) as (r & Hev & Hr & H).
  destruct r as [[[up fl] down]|f].
  - destruct (H _ _ _ eq_refl) as (ru & rd & H1 & H2 & H3 & H4).
    destruct rd as [downs|f].
    + destruct ru as [ups|f].
      * eexists. split; [apply (@to_string_ok _ _ doc w ups fl downs); exists up, down; auto|discriminate].
      * exists (Ok (focused_to_string fl ++ line_tail downs)). split; [|discriminate].
        apply (ev_bind_ok (fun n '(_, fl, down) => loop n (to_string_body n) (down, focused_to_string fl))) with (a := (up, fl, down)); auto.
        destruct H3 as [N3 H3]. exists N3. intros n Hn. specialize (H3 n Hn). unfold collect in H3.
        pose proof (string_loop n n down [] (focused_to_string fl)) as Hs. rewrite H3 in Hs.
        destruct Hs as (tail & E & Hs). simpl in E. subst. exact Hs.
    + exists (Fail f). split; [|congruence]. apply to_string_fails. right. eauto 10.
  - exists (Fail f). split; [|congruence]. apply to_string_fails. auto.
Qed.

(** C20.  A document error that is reported was returned by a method of a node
    of the document. *)
Theorem C20_reported_errors_are_real doc w path ft st e :
  finite_doc doc -> print_fails doc w path ft st (FErr (PrettyDocErr e)) ->
  exists x, reachable doc x /\ method_fails x e.
Proof.
  intros Hf Hp. destruct (finite_tree st Hf) as (root & Ht & Hr).
  destruct (@total_root _ _ _ _ (nofuel_eol doc) (@nofuel_ovf _ _ doc) doc st root Ht Hr w path ft) as (r & Hev & H).
  destruct Hp as [Hp|(up & fl & down & Hp & Hc)].
  - pose proof (ev_det Hev Hp). subst r. destruct H as [[_ H]|[(i & _ & H)|[(_ & H)|(n & _ & H)]]]; try congruence; auto.
  - pose proof (ev_det Hev Hp). subst r. destruct H as (ru & rd & H1 & H2 & H3 & H4).
    destruct Hc as [Hc|Hc].
    + pose proof (ev_det H1 Hc). subst ru. destruct (H3 _ eq_refl) as [_ H]. auto.
    + pose proof (ev_det H2 Hc). subst rd. destruct (H4 _ eq_refl) as [_ H]. auto.
Qed.

Lemma string_lines s : forall downs, s ++ line_tail downs = join_lines (s :: map segs_to_string downs).
Proof.
  intros downs. revert s. induction downs as [|l ls IH]; intros s.
  - simpl. rewrite app_nil_r. reflexivity.
  - change (s ++ [10%N] ++ (segs_to_string l ++ line_tail ls) = s ++ [10%N] ++ join_lines (segs_to_string l :: map segs_to_string ls)).
    rewrite IH. reflexivity.
Qed.

(** C24.  The string printer returns the lines of the document, joined. *)
Theorem C24_to_string_joins_lines doc w path ft ups fl downs :
  finite_doc doc -> is_text_target ft = false -> printed doc w path ft None ups fl downs ->
  ev (fun n => pretty_print_to_string n doc w) (Ok (join_lines (map segs_to_string (all_lines ups fl downs)))).
Proof.
  intros Hf Hft Hp. destruct (C01_same_lines Hf Hft Hp) as (fl0 & downs0 & H1 & ->).
  replace (join_lines (map segs_to_string (all_lines [] fl0 downs0))) with (focused_to_string fl0 ++ line_tail downs0).
  { apply (to_string_ok H1). }
  apply (string_lines (segs_to_string (left_segments fl0 ++ right_segments fl0)) downs0).
Qed.

(** ** Printing from the start: nothing is above. *)
Lemma loop_inv {X S R} (I : S -> Prop) (J : R -> Prop) (body : S -> res X (step S R)) :
  (forall s, I s -> match body s with Ok (Next s') => I s' | Ok (Done r) => J r | Fail _ => True end) ->
  forall n s r, I s -> loop n body s = Ok r -> J r.
Proof.
  intros Hb. induction n as [|n IH]; intros s r Hs; [discriminate|]. cbn [loop]. specialize (Hb s Hs).
  destruct (body s) as [[s'|r']|f]; [eauto| |discriminate]. intros [= <-]. exact Hb.
Qed.

Lemma expand_first_prev n p b c p' b' : expand_first n p b c = Ok (p', b') -> pr_prev p' = pr_prev p.
Proof.
  unfold expand_first. intros H.
  refine (@loop_inv _ _ _ (fun s => pr_prev (snd (fst s)) = pr_prev p) (fun r => pr_prev (fst r) = pr_prev p) _ _ _ _ _ _ H); [|reflexivity].
  intros [[[|x stack] p1] b1] E; simpl in *; [exact E|].
  destruct (ck_note x) as [| |ind|t|d1 d2|d1 d2|i d|]; simpl; auto.
  - unfold bind. destruct (block_new ind (bl_chunks b1)); simpl; auto.
  - unfold bind. destruct (chunk_new d1); auto. destruct (chunk_new d2); simpl; auto.
Qed.

Lemma print_next_prev n p p' ol : print_next_line n p = Ok (p', ol) -> pr_prev p' = pr_prev p.
Proof.
  unfold print_next_line. destruct (pr_next p) as [|b bs]; [intros [= <- _]; reflexivity|].
  destruct (loop n (print_next_body n) (set_next p bs, b)) as [[p1 b1]|f] eqn:E; [|discriminate].
  cbn [bind]. destruct (block_print b1); [|discriminate]. cbn [bind]. intros [= <- _].
  refine (@loop_inv _ _ _ (fun s => pr_prev (fst s) = pr_prev p) (fun r => pr_prev (fst r) = pr_prev p) _ _ _ _ _ _ E); [|reflexivity].
  intros [p2 b2] E2; simpl in *. unfold bind. destruct (bl_chunks b2) as [|c cs]; [exact E2|].
  destruct (ck_note c) as [| |ind|t|d1 d2|d1 d2|i d|]; simpl; auto.
  - destruct (push_text _ t); simpl; auto.
  - destruct (choose n p2 _ d1 d2); auto. destruct (expand_first n p2 _ _) as [[]|] eqn:E3; auto. simpl. apply expand_first_prev in E3. congruence.
  - destruct (chunk_new d); auto. destruct (expand_first n p2 _ _) as [[]|] eqn:E3; auto. simpl. apply expand_first_prev in E3. congruence.
Qed.

Lemma start_up n doc w st up fl down : pretty_print n doc w [] FStart st = Ok (up, fl, down) -> pr_prev up = [].
Proof.
  unfold pretty_print, seek, seek_path, seek_start, bind.
  destruct (printer_new w) as [p0|] eqn:E0; [|discriminate].
  destruct (with_optional_style doc st); [|discriminate]. destruct (chunk_new a); [|discriminate].
  unfold printer_new, bind in E0. destruct (block_new [] []) as [b0|]; [|discriminate]. injection E0 as <-. simpl.
  destruct (expand_first n _ b0 a0) as [[p1 b1]|] eqn:E1; [|discriminate].
  apply expand_first_prev in E1. simpl.
  destruct (print_next_line n (push_next p1 b1)) as [[p2 [l|]]|] eqn:E2; try discriminate.
  apply print_next_prev in E2. destruct (Nat.leb _ _); [|discriminate].
  intros [= <- _ _]. simpl in *. congruence.
Qed.

Lemma start_up_done doc w st up fl down : ev (fun n => pretty_print n doc w [] FStart st) (Ok (up, fl, down)) ->
  ev (fun n => collect n (up_next n) up) (Ok []).
Proof.
  intros [N H]. pose proof (start_up _ _ _ _ (H N (le_n N))) as E. exists 1. intros [|n] Hn; [lia|].
  unfold collect. cbn [loop]. unfold collect_body at 1, up_next, print_prev_line. rewrite E. reflexivity.
Qed.

(** C24, converse: if the string printer succeeds then so does printing from
    the start. *)
Theorem C24_to_string_ok_only_if_printed doc w s :
  finite_doc doc -> ev (fun n => pretty_print_to_string n doc w) (Ok s) ->
  exists fl downs, printed doc w [] FStart None [] fl downs /\
    s = join_lines (map segs_to_string (all_lines [] fl downs)).
Proof.
  intros Hf Hs.
  destruct (C09_printing_terminates w [] FStart None Hf) as (r & Hev & _ & H).
  destruct r as [[[up fl] down]|f].
  2: { pose proof (@to_string_fails _ _ doc w f (or_introl Hev)) as H1. pose proof (ev_det Hs H1). discriminate. }
  destruct (H _ _ _ eq_refl) as (ru & rd & H1 & _ & H3 & _).
  destruct rd as [downs|f].
  2: { pose proof (@to_string_fails _ _ doc w f) as H5.
       assert (ev (fun n => pretty_print_to_string n doc w) (Fail f)) as H6 by (apply H5; right; eauto 10).
       pose proof (ev_det Hs H6). discriminate. }
  assert (Hp : printed doc w [] FStart None [] fl downs).
  { exists up, down. split; auto. split; auto. eapply start_up_done; eauto. }
  exists fl, downs. split; auto.
  pose proof (C24_to_string_joins_lines Hf (eq_refl : is_text_target FStart = false) Hp) as H4. pose proof (ev_det Hs H4) as E. injection E as ->. reflexivity.
Qed.

(** C43.  An iterator that has returned [None] returns [None] at every later
    call (and does not change). *)
Theorem C43_exhausted_up n p p' : up_next n p = Ok (p', None) -> p' = p /\ forall m, up_next m p' = Ok (p', None).
Proof.
  unfold up_next, print_prev_line. destruct (pr_prev p) as [|b bs] eqn:E.
  - intros [= <-]. rewrite E. auto.
  - unfold bind. destruct (loop n (print_prev_body n) _) as [[p1 b1]|]; [|discriminate].
    destruct (block_print b1); discriminate.
Qed.

Theorem C43_exhausted_down n p p' : down_next n p = Ok (p', None) -> p' = p /\ forall m, down_next m p' = Ok (p', None).
Proof.
  unfold down_next, print_next_line. destruct (pr_next p) as [|b bs] eqn:E.
  - intros [= <-]. rewrite E. auto.
  - unfold bind. destruct (loop n (print_next_body n) _) as [[p1 b1]|]; [|discriminate].
    destruct (block_print b1); discriminate.
Qed.

End Finite.
