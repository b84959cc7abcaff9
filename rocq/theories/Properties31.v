(** C64: the layout that is picked comes first among all layouts that fit. *)
From Verif Require Export SpecPick PPick Properties19.

Set Implicit Arguments.

Section Pick.
Context {pd : PrettyDoc} {env : Env} {ideq : IdEq pd}.
Variables (r : rdoc) (doc : D).
Hypothesis Hrep : rep r doc.
Hypothesis Hv : valid_doc r.

(** C64.  If every choice obeys the documented requirement, then what is printed
    is one of the layouts of the document, and it comes before every other
    layout whose lines all fit: at the first choice at which they differ, the
    printed layout takes the first option. *)
Theorem C64_comes_first w st path ft ups fl downs :
  obedient (snd (doc_shape r st)) -> is_text_target ft = false ->
  printed doc w path ft st ups fl downs -> narrow_lines (all_lines ups fl downs) ->
  exists cs es, doc_picks (doc_shape r st) cs es /\ all_lines ups fl downs = lines_of es /\
    forall cs' es', doc_picks (doc_shape r st) cs' es' -> fitting w es' ->
      (cs = cs' /\ es = es') \/ comes_before cs cs'.
Proof.
  intros Ho Hft Hp Hn. destruct (C12_choice_rule Hrep Hv Hft Hp Hn) as (t & (j & p' & Ej & L) & E).
  destruct (lays_earliest L Ho) as (cs & Rc & I). exists cs, (events t). split; [exists j; auto|]. split; auto.
  intros cs' es' (j' & Ej' & R') Hg. rewrite Ej in Ej'. injection Ej' as <-. apply good_widths in Hg as [HF Ht].
  apply (I cs' es' [] R'); rewrite ?app_nil_r; auto. intros len eol K. exact K.
Qed.

(** C64.  If moreover first options are single lines, and the second options
    fit, then the printed layout fits: it is the first of the layouts that fit. *)
Theorem C64_first_fitting w st :
  matched r -> (w < U16)%N -> obedient (snd (doc_shape r st)) -> single_line_firsts (snd (doc_shape r st)) ->
  fitting w (second_events (i_id (r_info r)) (snd (doc_shape r st))) ->
  exists cs es fl downs, doc_picks (doc_shape r st) cs es /\ fitting w es /\
    printed doc w [] FStart st [] fl downs /\ all_lines [] fl downs = lines_of es /\
    forall cs' es', doc_picks (doc_shape r st) cs' es' -> fitting w es' -> cs' = cs \/ comes_before cs cs'.
Proof.
  intros Hm Hw Ho Hs [HF Ht]. destruct (C54_always_prints Hrep Hv st Hm Hw Hs HF Ht) as (fl & downs & Hp & HF').
  assert (Hn : narrow_lines (all_lines [] fl downs)).
  { eapply Forall_impl; [|exact HF']. intros l Hl. simpl in *. lia. }
  destruct (C12_choice_rule Hrep Hv (eq_refl : is_text_target FStart = false) Hp Hn) as (t & (j & p' & Ej & L) & E).
  destruct (lays_earliest L Ho) as (cs & Rc & I). exists cs, (events t), fl, downs. split; [exists j; auto|].
  split. { split; [rewrite <- E; exact HF'|]. apply (lays_clean L). }
  split; auto. split; auto.
  intros cs' es' (j' & Ej' & R') Hg. rewrite Ej in Ej'. injection Ej' as <-. apply good_widths in Hg as [HF0 Ht0].
  destruct (I cs' es' [] R') as [[-> _]|K]; rewrite ?app_nil_r; auto. intros len eol K. exact K.
Qed.

(** The decisions name the layouts: two different layouts differ in a decision,
    and one of the two comes before the other.  So "first" makes sense. *)
Theorem C64_layouts_ordered st cs es cs' es' :
  doc_picks (doc_shape r st) cs es -> doc_picks (doc_shape r st) cs' es' ->
  (cs = cs' /\ es = es') \/ comes_before cs cs' \/ comes_before cs' cs.
Proof. intros (j & Ej & R1) (j' & Ej' & R2). rewrite Ej in Ej'. injection Ej' as <-. eapply picks_tri; eauto. Qed.

End Pick.

Theorem C64_order cs cs' cs'' :
  ~ comes_before cs cs /\ (comes_before cs cs' -> comes_before cs' cs'' -> comes_before cs cs'').
Proof.
  split; [apply before_irrefl|].
  intros (s & m & m' & -> & ->) (s' & n & n' & E & ->). revert s' n E.
  induction s as [|c s IH]; intros [|c' s'] n E; simpl in *; try discriminate; injection E as E0 E; try subst c'; try subst c.
  - eexists [], _, _. split; reflexivity.
  - eexists [], _, _. split; reflexivity.
  - destruct (IH _ _ E) as (z & y & y' & E1 & E2). exists (c :: z), y, y'. simpl. rewrite E1, E2. auto.
Qed.

Print Assumptions C64_comes_first.
Print Assumptions C64_first_fitting.
Print Assumptions C64_layouts_ordered.
Print Assumptions C64_order.
