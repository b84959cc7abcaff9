(** The iterators after an error. *)
From Verif Require Export SpecIter PWhole.

Set Implicit Arguments.

(** ** Loops that leave something behind *)
Section LoopLeft.
Context {X S R L : Type}.

Lemma loop_left_snd (bodyL : S -> L * res X (step S R)) body left n : forall s,
  (forall s, snd (bodyL s) = body s) -> snd (loop_left n bodyL left s) = loop n body s.
Proof.
  induction n as [|n IH]; intros s H; [reflexivity|]. cbn [loop_left loop]. rewrite <- H.
  destruct (bodyL s) as [l [[s'|r]|f]]; simpl; auto.
Qed.

Lemma loop_left_fst (bodyL : S -> L * res X (step S R)) left (g : R -> L) n : forall s l r,
  (forall s l r, bodyL s = (l, Ok (Done r)) -> l = g r) -> loop_left n bodyL left s = (l, Ok r) -> l = g r.
Proof.
  induction n as [|n IH]; intros s l r H; [discriminate|]. cbn [loop_left].
  destruct (bodyL s) as [l' [[s'|r']|f]] eqn:E; eauto.
  - intros [= <- <-]. eauto.
  - discriminate.
Qed.

Definition loopsL (body : nat -> S -> L * res X (step S R)) (left : S -> L) (s : S) (x : L * res X R) : Prop :=
  exists N, forall n m, N <= n -> N <= m -> loop_left m (body n) left s = x.

Lemma loopsL_ev body left s x : loopsL body left s x -> ev (fun n => loop_left n (body n) left s) x.
Proof. intros [N H]. exists N. intros. apply H; lia. Qed.

Lemma loopsL_stop body left s l r :
  ev (fun n => body n s) (l, match r with Ok a => Ok (Done a) | Fail f => Fail f end) -> loopsL body left s (l, r).
Proof.
  intros [N H]. exists (Datatypes.S N). intros n m Hn Hm.
  destruct m as [|m]; [lia|]. cbn [loop_left]. rewrite H by lia. destruct r; reflexivity.
Qed.

Lemma loopsL_next body left s l s' x :
  ev (fun n => body n s) (l, Ok (Next s')) -> loopsL body left s' x -> loopsL body left s x.
Proof.
  intros [N1 H1] [N2 H2]. exists (Datatypes.S (N1 + N2)). intros n m Hn Hm.
  destruct m as [|m]; [lia|]. cbn [loop_left]. rewrite H1 by lia. apply H2; lia.
Qed.
End LoopLeft.

Section Iter.
Context {pd : PrettyDoc} {env : Env}.

(** ** Agreement with [down_next] and [up_next] *)

Lemma expand_first_left_eq n p b c :
  match expand_first n p b c with
  | Ok (p', b') => expand_first_left n p b c = (p', Ok (p', b'))
  | Fail f => snd (expand_first_left n p b c) = Fail f
  end.
Proof.
  unfold expand_first, expand_first_left.
  pose proof (@loop_left_snd _ _ _ _ (fun s => (snd (fst s), expand_first_body s)) expand_first_body (fun s => snd (fst s)) n ([c], p, b) (fun _ => eq_refl)) as E.
  pose proof (@loop_left_fst _ _ _ _ (fun s => (snd (fst s), expand_first_body s)) (fun s => snd (fst s)) fst n ([c], p, b)) as F.
  destruct (loop n expand_first_body ([c], p, b)) as [[p' b']|f]; [|exact E].
  destruct (loop_left _ _ _ _) as [l r]. simpl in E. subst r. f_equal. apply (F l (p', b')); auto.
  clear. intros [[st p] b] l [p' b'] H. injection H as <- H. simpl in H. destruct st as [|c st]; [injection H as <- _; reflexivity|].
  destruct (ck_note c); try discriminate; unfold bind in H.
  - destruct (block_new _ _); discriminate.
  - destruct (chunk_new _); [|discriminate]. destruct (chunk_new _); discriminate.
Qed.

Lemma expand_last_left_eq n p b c :
  match expand_last n p b c with
  | Ok (p', b') => expand_last_left n p b c = (p', Ok (p', b'))
  | Fail f => snd (expand_last_left n p b c) = Fail f
  end.
Proof.
  unfold expand_last, expand_last_left.
  pose proof (@loop_left_snd _ _ _ _ (fun s => (snd (fst s), expand_last_body s)) expand_last_body (fun s => snd (fst s)) n ([], [c], p, b) (fun _ => eq_refl)) as E.
  pose proof (@loop_left_fst _ _ _ _ (fun s => (snd (fst s), expand_last_body s)) (fun s => snd (fst s)) (fun r => snd (fst r)) n ([], [c], p, b)) as F.
  destruct (loop n expand_last_body ([], [c], p, b)) as [[[ch p'] b']|f]; cbn [bind];
    destruct (loop_left _ _ _ _) as [l r]; simpl in E; subst r; cbn [bind]; [|reflexivity].
  f_equal. apply (F l (ch, p', b')); auto.
  clear. intros [[[ch st] p] b] l [[ch' p'] b'] H. injection H as <- H. simpl in H. destruct st as [|c st]; [injection H as _ <- _; reflexivity|].
  destruct (ck_note c); try discriminate; unfold bind in H.
  - destruct (block_new _ _); discriminate.
  - destruct (chunk_new _); [|discriminate]. destruct (chunk_new _); discriminate.
Qed.

Lemma next_body_left_eq n s : snd (print_next_body_left n s) = print_next_body n s.
Proof.
  destruct s as [p b]. simpl. destruct (bl_chunks b) as [|c cs]; [reflexivity|].
  destruct (ck_note c) as [| | | |da db|da db|i d|]; try reflexivity.
  - destruct (choose n p _ da db) as [x|f]; [|reflexivity]. cbn [bind].
    pose proof (expand_first_left_eq n p (set_chunks b cs) x) as E.
    destruct (expand_first n p (set_chunks b cs) x) as [[p' b']|f]; [rewrite E; reflexivity|].
    destruct (expand_first_left n p (set_chunks b cs) x) as [q r]. simpl in E. subst r. reflexivity.
  - destruct (chunk_new d) as [x|f]; [|reflexivity]. cbn [bind].
    pose proof (expand_first_left_eq n p (set_chunks b cs) x) as E.
    destruct (expand_first n p (set_chunks b cs) x) as [[p' b']|f]; [rewrite E; reflexivity|].
    destruct (expand_first_left n p (set_chunks b cs) x) as [q r]. simpl in E. subst r. reflexivity.
Qed.

Lemma prev_body_left_eq n s : snd (print_prev_body_left n s) = print_prev_body n s.
Proof.
  destruct s as [p b]. simpl. destruct (bl_chunks b) as [|c cs]; [reflexivity|].
  destruct (ck_note c) as [| | | |da db|da db|i d|]; try reflexivity.
  - destruct (choose n p _ da db) as [x|f]; [|reflexivity]. cbn [bind].
    pose proof (expand_last_left_eq n p (set_chunks b cs) x) as E.
    destruct (expand_last n p (set_chunks b cs) x) as [[p' b']|f]; [rewrite E; reflexivity|].
    destruct (expand_last_left n p (set_chunks b cs) x) as [q r]. simpl in E. subst r. reflexivity.
  - destruct (chunk_new d) as [x|f]; [|reflexivity]. cbn [bind].
    pose proof (expand_last_left_eq n p (set_chunks b cs) x) as E.
    destruct (expand_last n p (set_chunks b cs) x) as [[p' b']|f]; [rewrite E; reflexivity|].
    destruct (expand_last_left n p (set_chunks b cs) x) as [q r]. simpl in E. subst r. reflexivity.
Qed.

Lemma next_body_done n s l r : print_next_body_left n s = (l, Ok (Done r)) -> l = fst r.
Proof.
  destruct s as [p b]. simpl. destruct (bl_chunks b) as [|c cs]; [intros [= <- <-]; reflexivity|].
  destruct (ck_note c) as [| | | |da db|da db|i d|]; try discriminate; unfold bind.
  - destruct (push_text _ _); discriminate.
  - destruct (choose n p _ da db); [|discriminate]. destruct (expand_first_left _ _ _ _) as [? []]; discriminate.
  - destruct (chunk_new d); [|discriminate]. destruct (expand_first_left _ _ _ _) as [? []]; discriminate.
Qed.

Lemma prev_body_done n s l r : print_prev_body_left n s = (l, Ok (Done r)) -> l = fst r.
Proof.
  destruct s as [p b]. simpl. destruct (bl_chunks b) as [|c cs]; [intros [= <- <-]; reflexivity|].
  destruct (ck_note c) as [| | | |da db|da db|i d|]; try discriminate; unfold bind.
  - destruct (push_text _ _); discriminate.
  - destruct (choose n p _ da db); [|discriminate]. destruct (expand_last_left _ _ _ _) as [? []]; discriminate.
  - destruct (chunk_new d); [|discriminate]. destruct (expand_last_left _ _ _ _) as [? []]; discriminate.
Qed.

Lemma down_left_eq n p :
  match down_next n p with
  | Ok (p', ol) => down_next_left n p = (p', Ok ol)
  | Fail f => snd (down_next_left n p) = Fail f
  end.
Proof.
  unfold down_next, print_next_line, down_next_left. destruct (pr_next p) as [|b bs]; [reflexivity|].
  pose proof (@loop_left_snd _ _ _ _ (print_next_body_left n) (print_next_body n) fst n (set_next p bs, b) (next_body_left_eq n)) as E.
  pose proof (fun l r => @loop_left_fst _ _ _ _ (print_next_body_left n) fst fst n (set_next p bs, b) l r (@next_body_done n)) as F.
  destruct (loop n (print_next_body n) (set_next p bs, b)) as [[p' b']|f]; cbn [bind];
    destruct (loop_left _ _ _ _) as [l r]; simpl in E; subst r; cbn [bind].
  - destruct (block_print b'); cbn [bind]; [|reflexivity]. rewrite (F l (p', b') eq_refl). reflexivity.
  - reflexivity.
Qed.

Lemma up_left_eq n p :
  match up_next n p with
  | Ok (p', ol) => up_next_left n p = (p', Ok ol)
  | Fail f => snd (up_next_left n p) = Fail f
  end.
Proof.
  unfold up_next, print_prev_line, up_next_left. destruct (pr_prev p) as [|b bs]; [reflexivity|].
  pose proof (@loop_left_snd _ _ _ _ (print_prev_body_left n) (print_prev_body n) fst n (set_prev p bs, b) (prev_body_left_eq n)) as E.
  pose proof (fun l r => @loop_left_fst _ _ _ _ (print_prev_body_left n) fst fst n (set_prev p bs, b) l r (@prev_body_done n)) as F.
  destruct (loop n (print_prev_body n) (set_prev p bs, b)) as [[p' b']|f]; cbn [bind];
    destruct (loop_left _ _ _ _) as [l r]; simpl in E; subst r; cbn [bind].
  - destruct (block_print b'); cbn [bind]; [|reflexivity]. rewrite (F l (p', b') eq_refl). reflexivity.
  - reflexivity.
Qed.

(** ** Draining ends *)
Variable P : failure (perr Er) -> Prop.
Hypothesis P_eol : P (FErr TextAfterEndOfLine).
Hypothesis P_ovf : ovf = true -> P (FPanic POverflow).
Notation ritems := (ritems P top).
Notation rstack := (rstack P top).
Notation okpart := (okpart P top).
Notation allf := (allf P).

(** Blocks whose chunks unfold to finite trees, and their total size. *)
Inductive blocks_ok : list block -> nat -> Prop :=
| bo_nil k : blocks_ok [] k
| bo_cons b bs its k k' : ritems its (bl_chunks b) -> blocks_ok bs k -> its_size its + k < k' -> blocks_ok (b :: bs) k'.

Lemma blocks_le bs k k' : blocks_ok bs k -> k <= k' -> blocks_ok bs k'.
Proof. intros H Hle. inversion H; subst; econstructor; eauto. lia. Qed.

Lemma push_text_chunks b t : match push_text b t with Ok b' => bl_chunks b' = bl_chunks b | Fail f => P f end.
Proof.
  unfold push_text. destruct (bl_at_eol b); [exact P_eol|].
  destruct (add16_cases P P_ovf (X := perr Er) (Y := perr Er) (bl_prefix_len b) (tx_width t)) as [(w & -> & _)|(-> & _ & E)]; simpl; auto.
Qed.

Lemma block_new_chunks ind cs : match block_new ind cs with Ok b => bl_chunks b = cs | Fail f => P f end.
Proof.
  unfold block_new.
  destruct (to_option_sum16 P P_ovf (X := perr Er) (Y := perr Er) (map seg_width (rev ind))) as [(w & -> & _)|(-> & _ & E)]; simpl; auto.
Qed.

Lemma expand_first_safe : forall m gst stack p b its k,
  its_size gst <= m -> rstack gst stack -> ritems its (bl_chunks b) -> blocks_ok (pr_next p) k ->
  exists q r, loopsL (fun _ s => (snd (fst s), expand_first_body s)) (fun s => snd (fst s)) (stack, p, b) (q, r) /\
    match r with
    | Ok (_, b') => exists its' kq, ritems its' (bl_chunks b') /\ blocks_ok (pr_next q) kq /\
        its_size its' <= its_size gst + its_size its /\ its_size its' + kq <= its_size gst + its_size its + k
    | Fail f => P f /\ blocks_ok (pr_next q) (its_size gst + its_size its + k)
    end.
Proof.
  induction m as [m IH] using lt_wf_ind. intros gst stack p b its k Hm Hst Hits Hk.
  destruct Hst as [|c j s gst stack Hc Ho Hst].
  - exists p, (Ok (p, b)). split; [apply loopsL_stop; ev_now|]. exists its, k. repeat split; auto; simpl; lia.
  - assert (Hkeep : expanded s ->
      expand_first_body (c :: stack, p, b) = Ok (Next (stack, p, set_chunks b (c :: bl_chunks b))) ->
      exists q r, loopsL (fun _ s => (snd (fst s), expand_first_body s)) (fun s => snd (fst s)) (c :: stack, p, b) (q, r) /\
        match r with
        | Ok (_, b') => exists its' kq, ritems its' (bl_chunks b') /\ blocks_ok (pr_next q) kq /\
            its_size its' <= its_size (GI j s :: gst) + its_size its /\ its_size its' + kq <= its_size (GI j s :: gst) + its_size its + k
        | Fail f => P f /\ blocks_ok (pr_next q) (its_size (GI j s :: gst) + its_size its + k)
        end).
    { intros He Hb. pose proof (size_pos s). simpl in Hm.
      edestruct (IH (its_size gst)) with (gst := gst) (stack := stack) (p := p)
        (b := set_chunks b (c :: bl_chunks b)) (its := GI j s :: its) as (q & r & Hl & Hr); eauto; try lia.
      { simpl. constructor; auto. }
      exists q, r. split; [eapply loopsL_next; [|exact Hl]; cbn [snd fst]; rewrite Hb; ev_now|].
      destruct r as [[p' b']|f].
      - destruct Hr as (its' & kq & H1 & H2 & H3). exists its', kq. repeat split; auto; simpl in *; lia.
      - destruct Hr as [Hp Hr]. split; auto. eapply blocks_le; eauto. simpl. lia. }
    destruct Hc as [Hci Hcd]. destruct Ho as [Hof Hoq].
    destruct s as [f| | |ind|t|a sb|a sb|cn ci s'|]; simpl in Hcd; try contradiction;
      destruct (ck_note c) as [| |ind'|t'|da db|da db|n' d|] eqn:En; try contradiction.
    + simpl in Hm. edestruct (IH (its_size gst)) with (gst := gst) (stack := stack) (p := p) (b := b) (its := its)
        as (q & r & Hl & Hr); eauto; try lia.
      exists q, r. split; [eapply loopsL_next; [|exact Hl]; cbn [snd fst]; unfold expand_first_body; rewrite En; ev_now|].
      destruct r as [[p' b']|f].
      * destruct Hr as (its' & kq & H1 & H2 & H3). exists its', kq. repeat split; auto; simpl in *; lia.
      * destruct Hr as [Hp Hr]. split; auto. eapply blocks_le; eauto. simpl. lia.
    + apply Hkeep; simpl; auto. rewrite En. reflexivity.
    + subst ind'. simpl in Hm. pose proof (block_new_chunks ind (bl_chunks b)) as Hb.
      destruct (block_new ind (bl_chunks b)) as [nb|f] eqn:Enb.
      2: { exists p, (Fail f). split; [apply loopsL_stop; cbn [snd fst]; unfold expand_first_body; rewrite En, Enb; ev_now|].
           split; auto. eapply blocks_le; eauto. lia. }
      edestruct (IH (its_size gst)) with (gst := gst) (stack := stack) (p := push_next p nb)
        (b := set_chunks b []) (its := @nil item) (k := S (its_size its + k)) as (q & r & Hl & Hr); eauto; try lia.
      { simpl. constructor. }
      { simpl. rewrite <- Hb in Hits. econstructor; eauto. }
      exists q, r. split; [eapply loopsL_next; [|exact Hl]; cbn [snd fst]; unfold expand_first_body; rewrite En, Enb; ev_now|].
      destruct r as [[p' b']|f].
      * destruct Hr as (its' & kq & H1 & H2 & H3). exists its', kq. repeat split; auto; simpl in *; lia.
      * destruct Hr as [Hp Hr]. split; auto. eapply blocks_le; eauto. simpl. lia.
    + apply Hkeep; simpl; auto. rewrite En. reflexivity.
    + destruct Hcd as [[Hia Hda] [Hib Hdb]]. destruct Hof as [Hfa Hfb]. simpl in Hm.
      destruct (chunk_new_spec _ _ Hia Hda) as [(ca & Ea & Hca & _)|(f & Ea & ->)].
      2: { exists p, (Fail f). split; [apply loopsL_stop; cbn [snd fst]; unfold expand_first_body; rewrite En, Ea; ev_now|].
           split; auto. eapply blocks_le; eauto. lia. }
      destruct (chunk_new_spec _ _ Hib Hdb) as [(cb & Eb & Hcb & _)|(f & Eb & ->)].
      2: { exists p, (Fail f). split; [apply loopsL_stop; cbn [snd fst]; unfold expand_first_body; rewrite En, Ea, Eb; ev_now|].
           split; auto. eapply blocks_le; eauto. lia. }
      edestruct (IH (its_size (GI j sb :: GI j a :: gst))) with (gst := GI j sb :: GI j a :: gst)
        (stack := cb :: ca :: stack) (p := p) (b := b) (its := its) as (q & r & Hl & Hr); eauto.
      { simpl; lia. }
      { repeat constructor; auto; try apply Hcb; try apply Hca. }
      exists q, r. split; [eapply loopsL_next; [|exact Hl]; cbn [snd fst]; unfold expand_first_body; rewrite En, Ea, Eb; ev_now|].
      destruct r as [[p' b']|f].
      * destruct Hr as (its' & kq & H1 & H2 & H3). exists its', kq. repeat split; auto; simpl in *; lia.
      * destruct Hr as [Hp Hr]. split; auto. eapply blocks_le; eauto. simpl. lia.
    + apply Hkeep; simpl; auto. rewrite En. reflexivity.
    + apply Hkeep; simpl; auto. rewrite En. reflexivity.
    + apply Hkeep; simpl; auto. rewrite En. reflexivity.
Qed.

Lemma expand_last_safe : forall m gch chunks gst stack p b its k,
  its_size gst <= m -> ritems gch chunks -> rstack gst stack -> ritems its (bl_chunks b) -> blocks_ok (pr_prev p) k ->
  exists q r, loopsL (fun _ s => (snd (fst s), expand_last_body s)) (fun s => snd (fst s)) (chunks, stack, p, b) (q, r) /\
    match r with
    | Ok (chunks', _, b') => bl_chunks b' = bl_chunks b /\ exists gch' kq, ritems gch' chunks' /\ blocks_ok (pr_prev q) kq /\
        its_size gch' <= its_size gch + its_size gst /\ its_size gch' + kq <= its_size gch + its_size gst + k
    | Fail f => P f /\ blocks_ok (pr_prev q) (its_size gch + its_size gst + k)
    end.
Proof.
  induction m as [m IH] using lt_wf_ind. intros gch chunks gst stack p b its k Hm Hch Hst Hits Hk.
  destruct Hst as [|c j s gst stack Hc Ho Hst].
  - exists p, (Ok (chunks, p, b)). split; [apply loopsL_stop; ev_now|]. split; auto. exists gch, k. repeat split; auto; simpl; lia.
  - assert (Hkeep : expanded s ->
      expand_last_body (chunks, c :: stack, p, b) = Ok (Next (c :: chunks, stack, p, b)) ->
      exists q r, loopsL (fun _ s => (snd (fst s), expand_last_body s)) (fun s => snd (fst s)) (chunks, c :: stack, p, b) (q, r) /\
        match r with
        | Ok (chunks', _, b') => bl_chunks b' = bl_chunks b /\ exists gch' kq, ritems gch' chunks' /\ blocks_ok (pr_prev q) kq /\
            its_size gch' <= its_size gch + its_size (GI j s :: gst) /\ its_size gch' + kq <= its_size gch + its_size (GI j s :: gst) + k
        | Fail f => P f /\ blocks_ok (pr_prev q) (its_size gch + its_size (GI j s :: gst) + k)
        end).
    { intros He Hb. pose proof (size_pos s). simpl in Hm.
      edestruct (IH (its_size gst)) with (gch := GI j s :: gch) (chunks := c :: chunks) (gst := gst) (stack := stack) (p := p)
        (b := b) (its := its) as (q & r & Hl & Hr); eauto; try lia.
      { constructor; auto. }
      exists q, r. split; [eapply loopsL_next; [|exact Hl]; cbn [snd fst]; rewrite Hb; ev_now|].
      destruct r as [[[ch p'] b']|f].
      - destruct Hr as (H0 & gch' & kq & H1 & H2 & H3). split; auto. exists gch', kq. repeat split; auto; simpl in *; lia.
      - destruct Hr as [Hp Hr]. split; auto. eapply blocks_le; eauto. simpl. lia. }
    destruct Hc as [Hci Hcd]. destruct Ho as [Hof Hoq].
    destruct s as [f| | |ind|t|a sb|a sb|cn ci s'|]; simpl in Hcd; try contradiction;
      destruct (ck_note c) as [| |ind'|t'|da db|da db|n' d|] eqn:En; try contradiction.
    + simpl in Hm. edestruct (IH (its_size gst)) with (gch := gch) (chunks := chunks) (gst := gst) (stack := stack) (p := p) (b := b) (its := its)
        as (q & r & Hl & Hr); eauto; try lia.
      exists q, r. split; [eapply loopsL_next; [|exact Hl]; cbn [snd fst]; unfold expand_last_body; rewrite En; ev_now|].
      destruct r as [[[ch p'] b']|f].
      * destruct Hr as (H0 & gch' & kq & H1 & H2 & H3). split; auto. exists gch', kq. repeat split; auto; simpl in *; lia.
      * destruct Hr as [Hp Hr]. split; auto. eapply blocks_le; eauto. simpl. lia.
    + apply Hkeep; simpl; auto. rewrite En. reflexivity.
    + subst ind'. simpl in Hm. pose proof (block_new_chunks ind (bl_chunks b)) as Hb.
      destruct (block_new ind (bl_chunks b)) as [nb|f] eqn:Enb.
      2: { exists p, (Fail f). split; [apply loopsL_stop; cbn [snd fst]; unfold expand_last_body; rewrite En, Enb; ev_now|].
           split; auto. eapply blocks_le; eauto. lia. }
      edestruct (IH (its_size gst)) with (gch := @nil item) (chunks := @nil chunk) (gst := gst) (stack := stack)
        (p := push_prev p (Block (bl_segments b) (bl_prefix_len b) (bl_at_eol b) (rev chunks)))
        (b := nb) (its := its) (k := S (its_size gch + k)) as (q & r & Hl & Hr); eauto; try lia.
      { constructor. }
      { rewrite Hb. exact Hits. }
      { simpl. apply ritems_rev in Hch. econstructor; [exact Hch|eauto|]. rewrite its_size_rev. lia. }
      exists q, r. split; [eapply loopsL_next; [|exact Hl]; cbn [snd fst]; unfold expand_last_body; rewrite En, Enb; ev_now|].
      destruct r as [[[ch p'] b']|f].
      * destruct Hr as (H0 & gch' & kq & H1 & H2 & H3). split; [congruence|]. exists gch', kq. repeat split; auto; simpl in *; lia.
      * destruct Hr as [Hp Hr]. split; auto. eapply blocks_le; eauto. simpl. lia.
    + apply Hkeep; simpl; auto. rewrite En. reflexivity.
    + destruct Hcd as [[Hia Hda] [Hib Hdb]]. destruct Hof as [Hfa Hfb]. simpl in Hm.
      destruct (chunk_new_spec _ _ Hib Hdb) as [(cb & Eb & Hcb & _)|(f & Eb & ->)].
      2: { exists p, (Fail f). split; [apply loopsL_stop; cbn [snd fst]; unfold expand_last_body; rewrite En, Eb; ev_now|].
           split; auto. eapply blocks_le; eauto. lia. }
      destruct (chunk_new_spec _ _ Hia Hda) as [(ca & Ea & Hca & _)|(f & Ea & ->)].
      2: { exists p, (Fail f). split; [apply loopsL_stop; cbn [snd fst]; unfold expand_last_body; rewrite En, Eb, Ea; ev_now|].
           split; auto. eapply blocks_le; eauto. lia. }
      edestruct (IH (its_size (GI j a :: GI j sb :: gst))) with (gch := gch) (chunks := chunks) (gst := GI j a :: GI j sb :: gst)
        (stack := ca :: cb :: stack) (p := p) (b := b) (its := its) as (q & r & Hl & Hr); eauto.
      { simpl; lia. }
      { repeat constructor; auto; try apply Hcb; try apply Hca. }
      exists q, r. split; [eapply loopsL_next; [|exact Hl]; cbn [snd fst]; unfold expand_last_body; rewrite En, Eb, Ea; ev_now|].
      destruct r as [[[ch p'] b']|f].
      * destruct Hr as (H0 & gch' & kq & H1 & H2 & H3). split; auto. exists gch', kq. repeat split; auto; simpl in *; lia.
      * destruct Hr as [Hp Hr]. split; auto. eapply blocks_le; eauto. simpl. lia.
    + apply Hkeep; simpl; auto. rewrite En. reflexivity.
    + apply Hkeep; simpl; auto. rewrite En. reflexivity.
    + apply Hkeep; simpl; auto. rewrite En. reflexivity.
Qed.


Lemma expand_first_left_safe p b c j s its k :
  cden c j s -> okpart j s -> ritems its (bl_chunks b) -> blocks_ok (pr_next p) k ->
  exists q r, ev (fun n => expand_first_left n p b c) (q, r) /\
    match r with
    | Ok (p', b') => q = p' /\ exists its' kq, ritems its' (bl_chunks b') /\ blocks_ok (pr_next q) kq /\
        its_size its' <= size s + its_size its /\ its_size its' + kq <= size s + its_size its + k
    | Fail f => P f /\ blocks_ok (pr_next q) (size s + its_size its + k)
    end.
Proof.
  intros Hc Ho Hi Hk.
  destruct (@expand_first_safe (its_size [GI j s]) [GI j s] [c] p b its k (le_n _)) as (q & r & Hl & Hr); auto.
  { repeat constructor; auto; try apply Hc; try apply Ho. }
  simpl in Hr. rewrite Nat.add_0_r in Hr. apply loopsL_ev in Hl. exists q, r. split; [exact Hl|].
  destruct r as [[p' b']|f]; auto. split; auto.
  destruct Hl as [N Hl]. specialize (Hl N (le_n _)).
  pose proof (expand_first_left_eq N p b c) as E. unfold expand_first_left in E. rewrite Hl in E.
  destruct (expand_first N p b c) as [[p1 b1]|]; [|discriminate]. injection E as -> -> _. reflexivity.
Qed.

Lemma expand_last_left_safe p b c j s its k :
  cden c j s -> okpart j s -> ritems its (bl_chunks b) -> blocks_ok (pr_prev p) k ->
  exists q r, ev (fun n => expand_last_left n p b c) (q, r) /\
    match r with
    | Ok (p', b') => q = p' /\ exists its' kq, ritems its' (bl_chunks b') /\ blocks_ok (pr_prev q) kq /\
        its_size its' <= size s + its_size its /\ its_size its' + kq <= size s + its_size its + k
    | Fail f => P f /\ blocks_ok (pr_prev q) (size s + its_size its + k)
    end.
Proof.
  intros Hc Ho Hi Hk.
  destruct (@expand_last_safe (its_size [GI j s]) [] [] [GI j s] [c] p b its k (le_n _)) as (q & r & Hl & Hr); auto.
  { constructor. }
  { repeat constructor; auto; try apply Hc; try apply Ho. }
  simpl in Hr. rewrite Nat.add_0_r in Hr. apply loopsL_ev in Hl.
  assert (Hev : ev (fun n => expand_last_left n p b c) (q, '(chunks, p, b) <- r ;; Ok (p, set_chunks b (rev chunks ++ bl_chunks b)))).
  { destruct Hl as [N Hl]. exists N. intros n Hn. unfold expand_last_left. rewrite Hl by auto. reflexivity. }
  eexists q, _. split; [exact Hev|].
  destruct r as [[[ch p'] b']|f]; cbn [bind].
  - split.
    { destruct Hev as [N Hev]. specialize (Hev N (le_n _)). pose proof (expand_last_left_eq N p b c) as E. rewrite Hev in E. cbn [bind] in E.
      destruct (expand_last N p b c) as [[p1 b1]|]; [|discriminate]. injection E as -> -> _. reflexivity. }
    destruct Hr as (H0 & gch & kq & H1 & H2 & H3). exists (rev gch ++ its), kq. split.
    { simpl. rewrite H0. apply ritems_app; auto. apply ritems_rev. auto. }
    split; auto. rewrite its_size_app, its_size_rev. lia.
  - destruct Hr as [Hp Hr]. split; auto. eapply blocks_le; eauto. lia.
Qed.

(** One chunk. *)
Lemma next_line_safe : forall m p b its k,
  its_size its <= m -> ritems its (bl_chunks b) -> blocks_ok (pr_next p) k ->
  exists q r, loopsL print_next_body_left fst (p, b) (q, r) /\ blocks_ok (pr_next q) (its_size its + k) /\
    match r with Ok (_, b') => bl_chunks b' = [] | Fail f => P f end.
Proof.
  induction m as [m IH] using lt_wf_ind. intros p b its k Hm Hits Hk.
  destruct (bl_chunks b) as [|c cs] eqn:Ec.
  { exists p, (Ok (p, b)). split; [apply loopsL_stop; unfold print_next_body_left; rewrite Ec; ev_now|].
    split; auto. eapply blocks_le; eauto. lia. }
  destruct (ritems_cons Hits) as (es & j & s & its' & _ & -> & [Hci Hcd] & [Hof Hoq] & He & Hits').
  rewrite its_size_ge in *. simpl in Hm |- *.
  assert (Hgo : forall q b' its2 kq, ev (fun n => print_next_body_left n (p, b)) (q, Ok (Next (q, b'))) ->
    ritems its2 (bl_chunks b') -> blocks_ok (pr_next q) kq -> its_size its2 < m -> its_size its2 + kq <= size s + its_size its' + k ->
    exists q r, loopsL print_next_body_left fst (p, b) (q, r) /\ blocks_ok (pr_next q) (size s + its_size its' + k) /\
      match r with Ok (_, b') => bl_chunks b' = [] | Fail f => P f end).
  { intros q b' its2 kq Hev Hi2 Hk2 Hs1 Hs2.
    destruct (IH (its_size its2) ltac:(lia) q b' its2 kq (le_n _) Hi2 Hk2) as (q2 & r & Hl & Hb & Hr).
    exists q2, r. split; [eapply loopsL_next; eauto|]. split; auto. eapply blocks_le; eauto. }
  assert (Hstop : forall q f, ev (fun n => print_next_body_left n (p, b)) (q, Fail f) -> P f ->
    blocks_ok (pr_next q) (size s + its_size its' + k) ->
    exists q r, loopsL print_next_body_left fst (p, b) (q, r) /\ blocks_ok (pr_next q) (size s + its_size its' + k) /\
      match r with Ok (_, b') => bl_chunks b' = [] | Fail f => P f end).
  { intros q f Hev HP Hb. exists q, (Fail f). split; [apply loopsL_stop; exact Hev|]. auto. }
  assert (Hk' : blocks_ok (pr_next p) (size s + its_size its' + k)) by (eapply blocks_le; eauto; lia).
  pose proof (size_pos s) as Hsz.
  assert (Hexp : forall x s', cden x j s' \/ (exists j', cden x j' s') -> allf s' -> size s' < size s ->
    ev (fun n => print_next_body_left n (p, b)) (p, Ok (Next (p, set_chunks b cs))) \/ True ->
    forall G : nat -> printer * pres (step (printer * block) (printer * block)),
    (forall n, G n = let '(q, r) := expand_first_left n p (set_chunks b cs) x in (q, s <- r ;; Ok (Next s))) ->
    (forall y, ev G y -> ev (fun n => print_next_body_left n (p, b)) y) ->
    exists q r, loopsL print_next_body_left fst (p, b) (q, r) /\ blocks_ok (pr_next q) (size s + its_size its' + k) /\
      match r with Ok (_, b') => bl_chunks b' = [] | Fail f => P f end).
  { intros x s' Hx Hf Hlt _ G HG Hout.
    assert (Hx' : exists j', cden x j' s') by (destruct Hx; eauto). destruct Hx' as [j' Hx'].
    destruct (@expand_first_left_safe p (set_chunks b cs) x j' s' its' k Hx' (conj Hf I) Hits' Hk) as (q & r & [N Hev] & Hr).
    assert (Hev2 : ev G (q, s <- r ;; Ok (Next s))).
    { exists N. intros n Hn. rewrite HG, Hev by auto. reflexivity. }
    apply Hout in Hev2. destruct r as [[p' b']|f]; cbn [bind] in Hev2.
    - destruct Hr as (-> & its2 & kq & H1 & H2 & H3). eapply Hgo; eauto; lia.
    - destruct Hr as [HP Hr]. eapply Hstop; eauto. eapply blocks_le; eauto. lia. }
  destruct s as [f| | |ind|t|sa sb|sa sb|cn ci s'|]; simpl in Hcd, He; try contradiction;
    destruct (ck_note c) as [| |ind'|t'|da db|da db|n' d|] eqn:En; try contradiction.
  - eapply (Hgo p (set_eol (set_chunks b cs)) its' k); [unfold print_next_body_left; rewrite Ec, En; ev_now|exact Hits'|exact Hk| |]; simpl in *; lia.
  - subst t'. pose proof (push_text_chunks (set_chunks b cs) t) as Ht.
    destruct (push_text (set_chunks b cs) t) as [b'|f] eqn:Et.
    + eapply (Hgo p b' its' k); [unfold print_next_body_left; rewrite Ec, En, Et; ev_now|rewrite Ht; exact Hits'|exact Hk| |]; simpl in *; lia.
    + eapply (Hstop p f); auto. unfold print_next_body_left. rewrite Ec, En, Et. ev_now.
  - destruct Hcd as [[Hia Hda] [Hib Hdb]]. destruct Hof as [Hfa Hfb].
    destruct (@choose_spec _ _ P top p (set_chunks b cs) da db j sa sb its') as (r & Hev & Hr); auto.
    destruct r as [x|f].
    + destruct Hr as (fl & _ & _ & Hx & _).
      apply (Hexp x (if fl then sa else sb)) with (G := fun n => let '(q, r) := expand_first_left n p (set_chunks b cs) x in (q, s <- r ;; Ok (Next s))); auto.
      * destruct fl; auto.
      * destruct fl; simpl; lia.
      * intros y [N2 Hy]. destruct Hev as [N1 Hev]. exists (N1 + N2). intros n Hn. unfold print_next_body_left. rewrite Ec, En, Hev by lia. apply Hy. lia.
    + destruct Hr as [HP _]. apply (Hstop p f); auto. destruct Hev as [N1 Hev]. exists N1. intros n Hn. unfold print_next_body_left. rewrite Ec, En, Hev by lia. reflexivity.
  - destruct Hcd as (-> & Hid & Hd). destruct Hof as [Hfi Hf].
    destruct ci as [j'|f].
    2: { apply (Hstop p f); auto. unfold print_next_body_left. rewrite Ec, En. unfold chunk_new. rewrite Hid. ev_now. }
    destruct (chunk_new_spec _ _ Hid Hd) as [(x & Ex & Hx & _)|(f & Ex & ->)].
    2: { apply (Hstop p f); auto. unfold print_next_body_left. rewrite Ec, En, Ex. ev_now. }
    apply (Hexp x s') with (G := fun n => let '(q, r) := expand_first_left n p (set_chunks b cs) x in (q, s <- r ;; Ok (Next s))); eauto.
    intros y [N2 Hy]. exists N2. intros n Hn. unfold print_next_body_left. rewrite Ec, En, Ex. apply Hy. lia.
  - eapply (Hgo p (set_chunks b cs) its' k); [unfold print_next_body_left; rewrite Ec, En; ev_now|exact Hits'|exact Hk| |]; simpl in *; lia.
Qed.

Lemma prev_line_safe : forall m p b its k,
  its_size its <= m -> ritems its (bl_chunks b) -> blocks_ok (pr_prev p) k ->
  exists q r, loopsL print_prev_body_left fst (p, b) (q, r) /\ blocks_ok (pr_prev q) (its_size its + k) /\
    match r with Ok (_, b') => bl_chunks b' = [] | Fail f => P f end.
Proof.
  induction m as [m IH] using lt_wf_ind. intros p b its k Hm Hits Hk.
  destruct (bl_chunks b) as [|c cs] eqn:Ec.
  { exists p, (Ok (p, b)). split; [apply loopsL_stop; unfold print_prev_body_left; rewrite Ec; ev_now|].
    split; auto. eapply blocks_le; eauto. lia. }
  destruct (ritems_cons Hits) as (es & j & s & its' & _ & -> & [Hci Hcd] & [Hof Hoq] & He & Hits').
  rewrite its_size_ge in *. simpl in Hm |- *.
  assert (Hgo : forall q b' its2 kq, ev (fun n => print_prev_body_left n (p, b)) (q, Ok (Next (q, b'))) ->
    ritems its2 (bl_chunks b') -> blocks_ok (pr_prev q) kq -> its_size its2 < m -> its_size its2 + kq <= size s + its_size its' + k ->
    exists q r, loopsL print_prev_body_left fst (p, b) (q, r) /\ blocks_ok (pr_prev q) (size s + its_size its' + k) /\
      match r with Ok (_, b') => bl_chunks b' = [] | Fail f => P f end).
  { intros q b' its2 kq Hev Hi2 Hk2 Hs1 Hs2.
    destruct (IH (its_size its2) ltac:(lia) q b' its2 kq (le_n _) Hi2 Hk2) as (q2 & r & Hl & Hb & Hr).
    exists q2, r. split; [eapply loopsL_next; eauto|]. split; auto. eapply blocks_le; eauto. }
  assert (Hstop : forall q f, ev (fun n => print_prev_body_left n (p, b)) (q, Fail f) -> P f ->
    blocks_ok (pr_prev q) (size s + its_size its' + k) ->
    exists q r, loopsL print_prev_body_left fst (p, b) (q, r) /\ blocks_ok (pr_prev q) (size s + its_size its' + k) /\
      match r with Ok (_, b') => bl_chunks b' = [] | Fail f => P f end).
  { intros q f Hev HP Hb. exists q, (Fail f). split; [apply loopsL_stop; exact Hev|]. auto. }
  assert (Hk' : blocks_ok (pr_prev p) (size s + its_size its' + k)) by (eapply blocks_le; eauto; lia).
  pose proof (size_pos s) as Hsz.
  assert (Hexp : forall x s', cden x j s' \/ (exists j', cden x j' s') -> allf s' -> size s' < size s ->
    ev (fun n => print_prev_body_left n (p, b)) (p, Ok (Next (p, set_chunks b cs))) \/ True ->
    forall G : nat -> printer * pres (step (printer * block) (printer * block)),
    (forall n, G n = let '(q, r) := expand_last_left n p (set_chunks b cs) x in (q, s <- r ;; Ok (Next s))) ->
    (forall y, ev G y -> ev (fun n => print_prev_body_left n (p, b)) y) ->
    exists q r, loopsL print_prev_body_left fst (p, b) (q, r) /\ blocks_ok (pr_prev q) (size s + its_size its' + k) /\
      match r with Ok (_, b') => bl_chunks b' = [] | Fail f => P f end).
  { intros x s' Hx Hf Hlt _ G HG Hout.
    assert (Hx' : exists j', cden x j' s') by (destruct Hx; eauto). destruct Hx' as [j' Hx'].
    destruct (@expand_last_left_safe p (set_chunks b cs) x j' s' its' k Hx' (conj Hf I) Hits' Hk) as (q & r & [N Hev] & Hr).
    assert (Hev2 : ev G (q, s <- r ;; Ok (Next s))).
    { exists N. intros n Hn. rewrite HG, Hev by auto. reflexivity. }
    apply Hout in Hev2. destruct r as [[p' b']|f]; cbn [bind] in Hev2.
    - destruct Hr as (-> & its2 & kq & H1 & H2 & H3). eapply Hgo; eauto; lia.
    - destruct Hr as [HP Hr]. eapply Hstop; eauto. eapply blocks_le; eauto. lia. }
  destruct s as [f| | |ind|t|sa sb|sa sb|cn ci s'|]; simpl in Hcd, He; try contradiction;
    destruct (ck_note c) as [| |ind'|t'|da db|da db|n' d|] eqn:En; try contradiction.
  - eapply (Hgo p (set_eol (set_chunks b cs)) its' k); [unfold print_prev_body_left; rewrite Ec, En; ev_now|exact Hits'|exact Hk| |]; simpl in *; lia.
  - subst t'. pose proof (push_text_chunks (set_chunks b cs) t) as Ht.
    destruct (push_text (set_chunks b cs) t) as [b'|f] eqn:Et.
    + eapply (Hgo p b' its' k); [unfold print_prev_body_left; rewrite Ec, En, Et; ev_now|rewrite Ht; exact Hits'|exact Hk| |]; simpl in *; lia.
    + eapply (Hstop p f); auto. unfold print_prev_body_left. rewrite Ec, En, Et. ev_now.
  - destruct Hcd as [[Hia Hda] [Hib Hdb]]. destruct Hof as [Hfa Hfb].
    destruct (@choose_spec _ _ P top p (set_chunks b cs) da db j sa sb its') as (r & Hev & Hr); auto.
    destruct r as [x|f].
    + destruct Hr as (fl & _ & _ & Hx & _).
      apply (Hexp x (if fl then sa else sb)) with (G := fun n => let '(q, r) := expand_last_left n p (set_chunks b cs) x in (q, s <- r ;; Ok (Next s))); auto.
      * destruct fl; auto.
      * destruct fl; simpl; lia.
      * intros y [N2 Hy]. destruct Hev as [N1 Hev]. exists (N1 + N2). intros n Hn. unfold print_prev_body_left. rewrite Ec, En, Hev by lia. apply Hy. lia.
    + destruct Hr as [HP _]. apply (Hstop p f); auto. destruct Hev as [N1 Hev]. exists N1. intros n Hn. unfold print_prev_body_left. rewrite Ec, En, Hev by lia. reflexivity.
  - destruct Hcd as (-> & Hid & Hd). destruct Hof as [Hfi Hf].
    destruct ci as [j'|f].
    2: { apply (Hstop p f); auto. unfold print_prev_body_left. rewrite Ec, En. unfold chunk_new. rewrite Hid. ev_now. }
    destruct (chunk_new_spec _ _ Hid Hd) as [(x & Ex & Hx & _)|(f & Ex & ->)].
    2: { apply (Hstop p f); auto. unfold print_prev_body_left. rewrite Ec, En, Ex. ev_now. }
    apply (Hexp x s') with (G := fun n => let '(q, r) := expand_last_left n p (set_chunks b cs) x in (q, s <- r ;; Ok (Next s))); eauto.
    intros y [N2 Hy]. exists N2. intros n Hn. unfold print_prev_body_left. rewrite Ec, En, Ex. apply Hy. lia.
  - eapply (Hgo p (set_chunks b cs) its' k); [unfold print_prev_body_left; rewrite Ec, En; ev_now|exact Hits'|exact Hk| |]; simpl in *; lia.
Qed.

Lemma down_safe p k : blocks_ok (pr_next p) k ->
  exists q r, ev (fun n => down_next_left n p) (q, r) /\
    match r with
    | Ok None => True
    | Ok (Some _) => k <> 0 /\ blocks_ok (pr_next q) (pred k)
    | Fail f => P f /\ k <> 0 /\ blocks_ok (pr_next q) (pred k)
    end.
Proof.
  intros Hk. unfold down_next_left. destruct (pr_next p) as [|b bs] eqn:E.
  { exists p, (Ok None). split; [ev_now|exact I]. }
  inversion Hk as [|? ? its k0 ? Hi Hbs Hlt]; subst.
  destruct (@next_line_safe (its_size its) (set_next p bs) b its k0 (le_n _) Hi Hbs) as (q & r & Hl & Hb & Hr).
  apply loopsL_ev in Hl. destruct Hl as [N Hl].
  exists q, ('(_, b) <- r ;; l <- block_print b ;; Ok (Some l)). split.
  { exists N. intros n Hn. rewrite Hl by auto. reflexivity. }
  assert (Hb' : blocks_ok (pr_next q) (pred k)) by (eapply blocks_le; eauto; lia).
  destruct r as [[p' b']|f]; cbn [bind].
  - unfold block_print. rewrite Hr. cbn [bind]. split; auto. lia.
  - repeat split; auto. lia.
Qed.

Lemma up_safe p k : blocks_ok (pr_prev p) k ->
  exists q r, ev (fun n => up_next_left n p) (q, r) /\
    match r with
    | Ok None => True
    | Ok (Some _) => k <> 0 /\ blocks_ok (pr_prev q) (pred k)
    | Fail f => P f /\ k <> 0 /\ blocks_ok (pr_prev q) (pred k)
    end.
Proof.
  intros Hk. unfold up_next_left. destruct (pr_prev p) as [|b bs] eqn:E.
  { exists p, (Ok None). split; [ev_now|exact I]. }
  inversion Hk as [|? ? its k0 ? Hi Hbs Hlt]; subst.
  destruct (@prev_line_safe (its_size its) (set_prev p bs) b its k0 (le_n _) Hi Hbs) as (q & r & Hl & Hb & Hr).
  apply loopsL_ev in Hl. destruct Hl as [N Hl].
  exists q, ('(_, b) <- r ;; l <- block_print b ;; Ok (Some l)). split.
  { exists N. intros n Hn. rewrite Hl by auto. reflexivity. }
  assert (Hb' : blocks_ok (pr_prev q) (pred k)) by (eapply blocks_le; eauto; lia).
  destruct r as [[p' b']|f]; cbn [bind].
  - unfold block_print. rewrite Hr. cbn [bind]. split; auto. lia.
  - repeat split; auto. lia.
Qed.

(** Draining. *)
Hypothesis P_fuel : ~ P FFuel.

Definition ending_ok (items : list (line + perr Er)) (e : option panic) : Prop :=
  (forall x, In (inr x) items -> P (FErr x)) /\ (forall x, e = Some x -> P (FPanic x)).

Lemma drain_safe next get :
  (forall p k, blocks_ok (get p) k -> exists q r, ev (fun n => next n p) (q, r) /\
    match r with
    | Ok None => True
    | Ok (Some _) => k <> 0 /\ blocks_ok (get q) (pred k)
    | Fail f => P f /\ k <> 0 /\ blocks_ok (get q) (pred k)
    end) ->
  forall k p, blocks_ok (get p) k -> exists items e, drained next p items e /\ ending_ok items e /\ length items <= k.
Proof.
  intros Hn. induction k as [k IH] using lt_wf_ind. intros p Hk.
  destruct (Hn p k Hk) as (q & r & Hev & Hr). destruct r as [[l|]|[x|x|]].
  - destruct Hr as [H1 H2]. destruct (IH (pred k) ltac:(lia) q H2) as (items & e & Hd & [He1 He2] & Hlen).
    exists (inl l :: items), e. split; [eapply drained_line; eauto|]. split; [|simpl; lia]. split; auto.
    intros x [[=]|Hx]; auto.
  - exists [], None. split; [eapply drained_none; eauto|]. split; [|simpl; lia]. split; [intros x []|discriminate].
  - destruct Hr as (HP & H1 & H2). destruct (IH (pred k) ltac:(lia) q H2) as (items & e & Hd & [He1 He2] & Hlen).
    exists (inr x :: items), e. split; [eapply drained_err; eauto|]. split; [|simpl; lia]. split; auto.
    intros y [[= <-]|Hx]; auto.
  - exists [], (Some x). split; [eapply drained_panic; eauto|]. split; [|simpl; lia]. split; [intros y []|].
    intros y [= <-]. apply Hr.
  - exfalso. apply P_fuel. apply Hr.
Qed.

(** The iterators returned by pretty_print. *)
Lemma blocks_of bs gs : Forall2 (rblock P top) bs gs -> exists k, blocks_ok bs k.
Proof.
  induction 1 as [|b g bs gs Hb Hbs [k IH]]; [exists 0; constructor|].
  exists (S (its_size (g_items g) + k)). econstructor; [apply Hb|exact IH|lia].
Qed.

Lemma iter_blocks (ideq : IdEq pd) doc st root w path ft up fl down :
  doc_tree doc st root -> root_ok P top topN root ->
  ev (fun n => pretty_print n doc w path ft st) (Ok (up, fl, down)) ->
  (exists k, blocks_ok (pr_prev up) k) /\ (exists k, blocks_ok (pr_next down) k).
Proof.
  intros Ht Hr Hpp.
  destruct (@pp_sought pd env ideq P P_eol P_ovf top) with (NP := topN) (w := w) (doc := doc) (path := path) (ft := ft) (st := st) (root := root)
    as [(p2 & gp2 & g2 & gn2 & Hrp & Hfoc & Hdone)|(f & Hev & _)]; unfold top, topN; auto.
  2: { pose proof (ev_det Hpp Hev). discriminate. }
  destruct Hrp as [Hw Hp Hn Hh Hf].
  inversion Hn as [|b g0 bs gn0 Hb Hn' E1 E2]. subst g0 gn0. symmetry in E1.
  assert (Hb0 : rblock P top b g2) by exact Hb.
  destruct (@print_next_line_spec pd env P P_eol P_ovf top) with (p := p2) (b := b) (bs := bs) (g := g2) (w := w) as (r & Hev & Hr2); unfold top; auto.
  assert (Htail : exists r, ev (fun n => pp_tail n w p2) r /\
    match r with Ok (up, fl, down) => (exists k, blocks_ok (pr_prev up) k) /\ (exists k, blocks_ok (pr_next down) k) | Fail _ => True end).
  { destruct r as [[p' ol]|f].
    - destruct Hr2 as (g' & nbs & gnb & es & -> & -> & Hnb & _).
      set (l := g_segs g') in *.
      destruct (Nat.leb (length (bl_segments b)) (length l)) eqn:El.
      + eexists (Ok (_, _, _)). split.
        * unfold pp_tail. rewrite E1. cbv zeta.
          eapply (ev_bind_ok (fun n x => match x with (p, ol) => _ end)); [exact Hev|]. cbv beta iota. rewrite El. ev_now.
        * cbn. split; [eapply blocks_of; exact Hp|]. eapply blocks_of. apply Forall2_app; [exact Hnb|exact Hn'].
      + exists (Panic PIndex). split; [|exact I].
        unfold pp_tail. rewrite E1. cbv zeta.
        eapply (ev_bind_ok (fun n x => match x with (p, ol) => _ end)); [exact Hev|]. cbv beta iota. rewrite El. ev_now.
    - exists (Fail f). split; [|exact I].
      unfold pp_tail. rewrite E1. cbv zeta. apply (ev_bind_fail (fun n x => match x with (p, ol) => _ end)). exact Hev. }
  destruct Htail as (r2 & Hev2 & Hr3). apply Hdone in Hev2. pose proof (ev_det Hpp Hev2). subst r2. exact Hr3.
Qed.

Lemma iter_drained (ideq : IdEq pd) doc st root w path ft up fl down :
  doc_tree doc st root -> root_ok P top topN root ->
  ev (fun n => pretty_print n doc w path ft st) (Ok (up, fl, down)) ->
  (exists items e, drained up_next_left up items e /\ ending_ok items e) /\
  (exists items e, drained down_next_left down items e /\ ending_ok items e).
Proof.
  intros Ht Hr Hpp. destruct (@iter_blocks ideq doc st root w path ft up fl down Ht Hr Hpp) as [[k1 H1] [k2 H2]]. split.
  - destruct (@drain_safe up_next_left pr_prev up_safe k1 up H1) as (items & e & Hd & He & _). eauto.
  - destruct (@drain_safe down_next_left pr_next down_safe k2 down H2) as (items & e & Hd & He & _). eauto.
Qed.

End Iter.

Section Collect.
Context {pd : PrettyDoc} {env : Env}.

Lemma drained_collect (nextL : nat -> printer -> printer * pres (option line)) (next : nat -> printer -> pres (printer * option line)) :
  (forall n p, match next n p with Ok (p', ol) => nextL n p = (p', Ok ol) | Fail f => snd (nextL n p) = Fail f end) ->
  forall p items e, drained nextL p items e ->
  forall acc, loops (fun n => collect_body (next n)) (p, acc) (match until_failure items e with Ok ls => Ok (acc ++ ls) | Fail f => Fail f end).
Proof.
  intros Hag. induction 1 as [p p' [N H]|p p' l items e [N H] Hd IH|p p' x items e [N H] Hd IH|p p' x [N H]]; intros acc; cbn [until_failure].
  - apply loops_done. exists N. intros n Hn. specialize (H n Hn). pose proof (Hag n p) as E. unfold collect_body.
    destruct (next n p) as [[q ol]|f]; rewrite H in E; [|discriminate]. injection E as <- <-. cbn. rewrite app_nil_r. reflexivity.
  - eapply loops_next.
    + exists N. intros n Hn. specialize (H n Hn). pose proof (Hag n p) as E. unfold collect_body.
      destruct (next n p) as [[q ol]|f]; rewrite H in E; [|discriminate]. injection E as <- <-. cbn. reflexivity.
    + specialize (IH (acc ++ [l])). destruct (until_failure items e) as [ls|f]; [|exact IH]. rewrite <- app_assoc in IH. exact IH.
  - apply loops_fail. exists N. intros n Hn. specialize (H n Hn). pose proof (Hag n p) as E. unfold collect_body.
    destruct (next n p) as [[q ol]|f]; rewrite H in E; [discriminate|]. cbn in E. injection E as <-. reflexivity.
  - apply loops_fail. exists N. intros n Hn. specialize (H n Hn). pose proof (Hag n p) as E. unfold collect_body.
    destruct (next n p) as [[q ol]|f]; rewrite H in E; [discriminate|]. cbn in E. injection E as <-. reflexivity.
Qed.

End Collect.
