(** Collecting the lines around the focus. *)
From Verif Require Export PSeek2.

Set Implicit Arguments.

Section Main.
Context {pd : PrettyDoc} {env : Env} {ideq : IdEq pd}.

Variable P : failure (perr Er) -> Prop.
Hypothesis P_eol : P (FErr TextAfterEndOfLine).
Hypothesis P_ovf : ovf = true -> P (FPanic POverflow).
Variable Q : Id -> shape -> Prop.
Hypothesis Q_concat : forall j a b, Q j (SConcat a b) -> Q j a /\ Q j b.
Hypothesis Q_choice : forall j a b, Q j (SChoice a b) -> Q j a /\ Q j b.
Hypothesis Q_child : forall j n j' s, Q j (SChild n (Ok j') s) -> Q j' s.

Notation ritems := (ritems P Q).
Notation rblock := (rblock P Q).
Notation okpart := (okpart P Q).

Variable w : N.
Notation rp := (rp P Q w).
Notation vall := (vall w).

(** ** Lines of a trace *)

Lemma lines_nonl es : no_newline es -> forall cur rest,
  lines_from cur (es ++ rest) = lines_from (cur ++ texts es) rest.
Proof.
  unfold no_newline. induction es as [|e es IH]; simpl; intros H cur rest.
  - rewrite app_nil_r. reflexivity.
  - apply andb_true_iff in H as [He H]. destruct e; simpl in *; try discriminate; auto.
    rewrite IH by auto. rewrite <- app_assoc. reflexivity.
Qed.

Lemma lines_nonl_end es cur : no_newline es -> lines_from cur es = [cur ++ texts es].
Proof. intros H. rewrite <- (app_nil_r es) at 1. rewrite lines_nonl by auto. reflexivity. Qed.

(** Lines of a concatenation. *)
Lemma lines_app a b cur : exists l ls,
  lines_from cur a = ls ++ [l] /\ lines_from cur (a ++ b) = ls ++ lines_from l b.
Proof.
  revert cur; induction a as [|e a IH]; intros cur; simpl.
  - exists cur, []. auto.
  - destruct e; auto. destruct (IH (rev ind)) as (l & ls & H1 & H2).
    exists l, (cur :: ls). simpl. rewrite H1, H2. auto.
Qed.

Lemma lines_cur es : forall cur, exists r ls,
  lines_from [] es = r :: ls /\ lines_from cur es = (cur ++ r) :: ls.
Proof.
  assert (H : forall es a b, exists r ls, lines_from b es = (b ++ r) :: ls /\ lines_from (a ++ b) es = (a ++ b ++ r) :: ls).
  { clear. induction es as [|e es IH]; intros a b; simpl.
    - exists [], []. rewrite app_nil_r. auto.
    - destruct e; auto.
      + destruct (IH a (b ++ [text_seg t])) as (r & ls & H1 & H2).
        exists (text_seg t :: r), ls. rewrite H1. rewrite <- app_assoc in H2 at 1. rewrite <- !app_assoc in *.
        simpl in *. auto.
      + exists [], (lines_from (rev ind) es). rewrite app_nil_r. auto. }
  intros cur. destruct (H es cur []) as (r & ls & H1 & H2). exists r, ls.
  rewrite app_nil_r in H2. auto.
Qed.

Lemma lines_done_head g cur rest : has_head g -> no_newline (g_body g) ->
  lines_from cur (g_done g ++ rest) = cur :: lines_from (g_segs g) rest.
Proof.
  intros Hh Hn. unfold g_done, g_segs. unfold has_head in Hh. destruct (g_head g) as [ind|]; [|congruence].
  rewrite <- app_assoc. simpl. rewrite lines_nonl by auto. reflexivity.
Qed.

Lemma lines_done_none g rest : g_head g = None -> no_newline (g_body g) ->
  lines_of (g_done g ++ rest) = lines_from (g_segs g) rest.
Proof.
  intros Hh Hn. unfold g_done, g_segs, lines_of. rewrite Hh. simpl. rewrite lines_nonl by auto. reflexivity.
Qed.

(** ** Downward *)

Lemma collect_down : forall m gs p acc,
  gs_size gs <= m -> pr_width p = w -> Forall2 rblock (pr_next p) gs -> Forall has_head gs ->
  exists r, loops (fun n => collect_body (down_next n)) (p, acc) r /\
    match r with
    | Ok ls => exists es ls', ls = acc ++ ls' /\ vblocks w gs = Some es /\
        forall cur, lines_from cur es = cur :: ls'
    | Fail f => P f /\ vblocks w gs = None
    end.
Proof.
  induction m as [m IH] using lt_wf_ind.
  intros gs p acc Hm Hw Hn Hh.
  inversion Hn as [E1 E2|b g bs gs' Hb Hn' E1 E2]; subst gs.
  - exists (Ok acc). split.
    { apply loops_done. exists 0. intros n _. unfold collect_body, down_next, print_next_line.
      rewrite <- E1. reflexivity. }
    exists [], []. rewrite app_nil_r. split; auto.
  - symmetry in E1. pose proof (Forall_inv Hh) as Hg. pose proof (Forall_inv_tail Hh) as Hgs.
    destruct (print_next_line_spec P_eol P_ovf Q_concat Q_choice Q_child p E1 Hw Hb) as (r & Hev & Hr).
    destruct r as [[p' ol]|f].
    + destruct Hr as (g' & nbs & gnb & es & -> & -> & Hnb & Hfr & Hhd & Hbd & Hnl & Hv & Hz).
      destruct (IH (gs_size (gnb ++ gs'))) with (gs := gnb ++ gs') (p := set_next p (nbs ++ bs))
        (acc := acc ++ [g_segs g']) as (r & Hl & Hr); auto.
      { rewrite gs_size_app. simpl in Hm. lia. }
      { simpl. apply Forall2_app; auto. }
      { apply Forall_app. split; auto. apply fresh_heads; auto. }
      exists r. split.
      { eapply loops_next; [|exact Hl]. unfold collect_body, down_next.
        eapply (ev_bind_ok (fun n x => match x with (p, ol) => _ end)); [exact Hev|]. ev_now. }
      rewrite vblocks_app in Hr. cbn [vblocks]. rewrite <- Hv.
      destruct r as [ls|f].
      * destruct Hr as (es2 & ls' & -> & Hes & Hln).
        exists (g_done g' ++ es2), (g_segs g' :: ls'). split; [rewrite <- app_assoc; reflexivity|].
        split.
        { rewrite <- oapp_assoc, Hes. reflexivity. }
        intros cur. rewrite lines_done_head; auto; [|unfold has_head in *; congruence].
        rewrite Hln. reflexivity.
      * destruct Hr as [HP HV]. split; auto. rewrite <- oapp_assoc, HV. reflexivity.
    + exists (Fail f). destruct Hr as [HP HV]. split; [|split; auto; simpl; rewrite HV; reflexivity].
      apply loops_fail. unfold collect_body, down_next.
      apply (ev_bind_fail (fun n x => match x with (p, ol) => _ end)). exact Hev.
Qed.

(** ** Upward *)

Definition heads0 (gs : list gblock) : Prop := gs = [] \/ heads_ok None gs.

Definition ups_ok (gp : list gblock) (es : list event) (ups : list line) : Prop :=
  (gp = [] /\ es = [] /\ ups = []) \/ (gp <> [] /\ lines_of es = rev ups).

Lemma heads0_prefix a b : heads_ok None (a ++ b) -> heads0 a.
Proof.
  destruct a as [|g a]; [left; reflexivity|]. simpl. intros [H1 H2]. right. split; auto.
  apply Forall_app in H2. apply H2.
Qed.

(** The last line of a prefix. *)
Lemma ups_line gp es ups g : heads_ok None (rev gp ++ [g]) -> no_newline (g_body g) ->
  ups_ok gp es ups -> lines_of (es ++ g_done g) = rev ups ++ [g_segs g].
Proof.
  intros Hh Hn [(-> & -> & ->)|[Hne Hl]].
  - simpl in *. rewrite <- (app_nil_r (g_done g)). rewrite lines_done_none; auto. apply Hh.
  - assert (Hg : has_head g).
    { destruct (rev gp) as [|g0 gs] eqn:Er.
      - apply (f_equal (@rev _)) in Er. rewrite rev_involutive in Er. contradiction.
      - destruct Hh as [_ Hh]. apply Forall_app in Hh as [_ Hh]. inversion Hh; auto. }
    unfold lines_of in *. destruct (lines_app es (g_done g) []) as (l & ls & H1 & H2).
    rewrite H2. rewrite <- (app_nil_r (g_done g)). rewrite lines_done_head by auto. simpl.
    rewrite <- Hl, H1, <- app_assoc. reflexivity.
Qed.

Lemma collect_up : forall m gp p acc,
  gs_size gp <= m -> pr_width p = w -> Forall2 rblock (pr_prev p) gp -> heads0 (rev gp) ->
  exists r, loops (fun n => collect_body (up_next n)) (p, acc) r /\
    match r with
    | Ok ls => exists es ls', ls = acc ++ ls' /\ vblocks w (rev gp) = Some es /\ ups_ok gp es ls'
    | Fail f => P f /\ vblocks w (rev gp) = None
    end.
Proof.
  induction m as [m IH] using lt_wf_ind.
  intros gp p acc Hm Hw Hn Hh.
  inversion Hn as [E1 E2|b g bs gs' Hb Hn' E1 E2]; subst gp.
  - exists (Ok acc). split.
    { apply loops_done. exists 0. intros n _. unfold collect_body, up_next, print_prev_line.
      rewrite <- E1. reflexivity. }
    exists [], []. rewrite app_nil_r. split; auto. split; auto. left. auto.
  - symmetry in E1.
    assert (Hh0 : heads_ok None (rev gs' ++ [g])).
    { destruct Hh as [Hh|Hh]; simpl in Hh; auto. apply app_eq_nil in Hh as [_ Hh]. discriminate. }
    destruct (print_prev_line_spec P_eol P_ovf Q_concat Q_choice Q_child p E1 Hw Hb) as (r & Hev & Hr).
    destruct r as [[p' ol]|f].
    + destruct Hr as (g' & nbs & gnb & -> & -> & Hnb & Hhd & Hnl & Hv & Hz).
      assert (Hh1 : heads_ok None (rev (gnb ++ gs') ++ [g'])).
      { rewrite rev_app_distr, <- app_assoc. eapply heads_ok_trans; eauto. }
      destruct (IH (gs_size (gnb ++ gs'))) with (gp := gnb ++ gs') (p := set_prev p (nbs ++ bs))
        (acc := acc ++ [g_segs g']) as (r & Hl & Hr); auto.
      { rewrite gs_size_app. simpl in Hm. lia. }
      { simpl. apply Forall2_app; auto. }
      { eapply heads0_prefix; eauto. }
      exists r. split.
      { eapply loops_next; [|exact Hl]. unfold collect_body, up_next.
        eapply (ev_bind_ok (fun n x => match x with (p, ol) => _ end)); [exact Hev|]. ev_now. }
      assert (HV : vblocks w (rev (g :: gs')) = oapp (vblocks w (rev (gnb ++ gs'))) (Some (g_done g'))).
      { simpl. rewrite rev_app_distr, !vblocks_app. cbn [vblocks]. rewrite oapp_nil_r, <- Hv, oapp_assoc. reflexivity. }
      rewrite HV.
      destruct r as [ls|f].
      * destruct Hr as (es2 & ls' & -> & Hes & Hln).
        exists (es2 ++ g_done g'), (g_segs g' :: ls'). split; [rewrite <- app_assoc; reflexivity|].
        split; [rewrite Hes; reflexivity|]. right. split; [discriminate|].
        simpl. eapply ups_line; eauto.
      * destruct Hr as [HP HV2]. split; auto. rewrite HV2. reflexivity.
    + exists (Fail f). destruct Hr as [HP HV]. split.
      * apply loops_fail. unfold collect_body, up_next.
        apply (ev_bind_fail (fun n x => match x with (p, ol) => _ end)). exact Hev.
      * split; auto. simpl. rewrite vblocks_app. simpl. rewrite HV. apply oapp_none_r.
Qed.

(** ** The end of pretty_print *)

Definition pp_tail (n : nat) (width : N) (p : printer) : pres (printer * focused_line * printer) :=
  match pr_next p with
  | [] => Panic PNoBlock
  | b :: _ =>
      let num_left_segs := length (bl_segments b) in
      '(p, ol) <- print_next_line n p ;;
      match ol with
      | None => Panic PNoBlock
      | Some l =>
          if Nat.leb num_left_segs (length l)
          then Ok (Printer width (pr_prev p) [],
                   FocusedLine (firstn num_left_segs l) (skipn num_left_segs l),
                   Printer width [] (pr_next p))
          else Panic PIndex
      end
  end.

Lemma heads_ok_one gp g gn : heads_ok None (rev gp ++ g :: gn) -> heads_ok None (rev gp ++ [g]) /\ Forall has_head gn.
Proof.
  intros H. change (g :: gn) with ([g] ++ gn) in H. rewrite app_assoc in H.
  destruct (rev gp ++ [g]) as [|g0 gs] eqn:E; [destruct (rev gp); discriminate|].
  simpl in *. destruct H as [H1 H2]. apply Forall_app in H2 as [H2 H3]. auto.
Qed.

(** What the caller of pretty_print observes, given that the printer stands for
    [gp] and [g :: gn]. *)
Lemma tail_spec p gp g gn :
  rp p gp (g :: gn) ->
  exists r, ev (fun n => pp_tail n w p) r /\
    match r with
    | Ok (up, fl, down) =>
        exists ru rd, ev (fun n => collect n (up_next n) up) ru /\
                      ev (fun n => collect n (down_next n) down) rd /\
          match ru with
          | Ok ups => exists pre, oapp (vblocks w (rev gp)) (Some (g_done g)) = Some pre /\
                        lines_of pre = rev ups ++ [left_segments fl]
          | Fail f => P f /\ vblocks w (rev gp) = None
          end /\
          match rd with
          | Ok downs => exists post, vblocks w (g :: gn) = Some (g_done g ++ post) /\
                          lines_from [] post = right_segments fl :: downs
          | Fail f => P f /\ vblocks w (g :: gn) = None
          end
    | Fail f => P f /\ vblock w g = None
    end.
Proof.
  intros Hrp. destruct Hrp as [Hw Hp Hn Hh Hf].
  inversion Hn as [|b g0 bs gn0 Hb Hn' E1 E2]. subst g0 gn0. symmetry in E1. simpl in Hf.
  destruct (heads_ok_one _ _ _ Hh) as [Hh1 Hh2].
  destruct (print_next_line_spec P_eol P_ovf Q_concat Q_choice Q_child p E1 Hw Hb) as (r & Hev & Hr).
  destruct r as [[p' ol]|f].
  - destruct Hr as (g' & nbs & gnb & es & -> & -> & Hnb & Hfr & Hhd & Hbd & Hnl & Hv & Hz).
    assert (Hsegs : g_segs g' = g_segs g ++ texts es).
    { unfold g_segs. rewrite Hhd, Hbd. unfold texts. rewrite flat_map_app, app_assoc. reflexivity. }
    assert (Hnl1 : no_newline (g_body g)) by apply Hb.
    assert (Hnl2 : no_newline es).
    { unfold no_newline in *. rewrite Hbd, forallb_app in Hnl. apply andb_true_iff in Hnl. apply Hnl. }
    eexists (Ok (Printer w (pr_prev p) [],
      FocusedLine (g_segs g) (texts es), Printer w [] (nbs ++ bs))).
    split.
    { unfold pp_tail. rewrite E1. cbv zeta.
      eapply (ev_bind_ok (fun n x => match x with (p, ol) => _ end)); [exact Hev|].
      cbv beta iota. rewrite (rb_segs Hb), Hsegs, app_length.
      replace (length (g_segs g) <=? length (g_segs g) + length (texts es)) with true
        by (symmetry; apply Nat.leb_le; lia).
      rewrite firstn_app, skipn_app, Nat.sub_diag, firstn_all, skipn_all. simpl. rewrite app_nil_r. ev_now. }
    destruct (@collect_up (gs_size gp) gp (Printer w (pr_prev p) []) []) as (ru & Hlu & Hru); auto.
    { eapply heads0_prefix; eauto. }
    destruct (@collect_down (gs_size (gnb ++ gn)) (gnb ++ gn) (Printer w [] (nbs ++ bs)) [])
      as (rd & Hld & Hrd); auto.
    { simpl. apply Forall2_app; auto. }
    { apply Forall_app. split; auto. apply fresh_heads; auto. }
    exists ru, rd. split; [apply loops_ev in Hlu; exact Hlu|]. split; [apply loops_ev in Hld; exact Hld|].
    split.
    + destruct ru as [ups|f]; auto. destruct Hru as (esu & ups' & -> & Hvu & Hok). simpl.
      exists (esu ++ g_done g). rewrite Hvu. split; [reflexivity|]. eapply ups_line; eauto.
    + rewrite vblocks_app in Hrd. cbn [vblocks]. rewrite <- Hv, <- oapp_assoc.
      destruct rd as [downs|f].
      * destruct Hrd as (esd & downs' & -> & Hvd & Hln). simpl.
        exists (es ++ esd). rewrite Hvd. simpl. split.
        { unfold g_done. rewrite Hhd, Hbd, <- !app_assoc. reflexivity. }
        rewrite lines_nonl by auto. simpl. apply Hln.
      * destruct Hrd as [HP HV]. split; auto. rewrite HV. reflexivity.
  - exists (Fail f). split; [|exact Hr].
    unfold pp_tail. rewrite E1. cbv zeta.
    apply (ev_bind_fail (fun n x => match x with (p, ol) => _ end)). exact Hev.
Qed.

End Main.
