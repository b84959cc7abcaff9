(** Everything that is printed comes from the document (C66).  Vocabulary:
    SpecOrigin, SpecOriginPane. *)
From Verif Require Export SpecOrigin SpecOriginPane POrigin2 POriginPane.

Set Implicit Arguments.

Section Origins.
Context {pd : PrettyDoc} {env : Env}.

(** [asking p ls q]: some calls of [next()] on one of the two line iterators lead it
    from [p] to [q] and return, among errors and [None]s, the lines [ls].  Calls
    after an error or after the end are included. *)
Inductive asking (p : printer) : list line -> printer -> Prop :=
| asking_none : asking p [] p
| asking_line ls q n q' l : asking p ls q ->
    up_next_left n q = (q', Ok (Some l)) \/ down_next_left n q = (q', Ok (Some l)) -> asking p (ls ++ [l]) q'
| asking_other ls q n q' r : asking p ls q -> (forall l, r <> Ok (Some l)) ->
    up_next_left n q = (q', r) \/ down_next_left n q = (q', r) -> asking p ls q'.

Section Printed.
Variables (doc : D) (ft : focus_target) (st : option Sty).
Notation okg := (from_document doc ft st).

Section Call.
Variables (n : nat) (w : N) (path : list nat) (up down : printer) (fl : focused_line).
Hypothesis Hp : pretty_print n doc w path ft st = Ok (up, fl, down).

Theorem C66_printed : Forall okg (left_segments fl) /\ Forall okg (right_segments fl).
Proof. destruct (@pretty_print_origin _ _ _ _ _ _ _ _ _ _ _ Hp) as (_ & _ & H1 & H2). auto. Qed.

Theorem C66_lines p ls q : p = up \/ p = down -> asking p ls q -> Forall (Forall okg) ls.
Proof.
  intros E H. destruct (@pretty_print_origin _ _ _ _ _ _ _ _ _ _ _ Hp) as (Hu & Hd & _).
  assert (Hok : ok_p (okd doc ft st) okg (okt doc ft st) p) by (destruct E as [-> | ->]; assumption). clear E Hu Hd.
  enough (X : ok_p (okd doc ft st) okg (okt doc ft st) q /\ Forall (Forall okg) ls) by apply X.
  induction H as [|ls q n' q' l H IH Hn|ls q n' q' r H IH Hr Hn].
  - split; [exact Hok|constructor].
  - destruct IH as [I1 I2].
    destruct Hn as [Hn|Hn]; [pose proof (@next_origin _ _ doc ft st up_next_left n' q (or_introl eq_refl) I1) as [J1 J2]
      |pose proof (@next_origin _ _ doc ft st down_next_left n' q (or_intror eq_refl) I1) as [J1 J2]];
      rewrite Hn in J1, J2; (split; [exact J1|]); apply Forall_app; (split; [exact I2|]); (constructor; [|constructor]); apply J2; reflexivity.
  - destruct IH as [I1 I2].
    destruct Hn as [Hn|Hn]; [pose proof (@next_origin _ _ doc ft st up_next_left n' q (or_introl eq_refl) I1) as [J1 J2]
      |pose proof (@next_origin _ _ doc ft st down_next_left n' q (or_intror eq_refl) I1) as [J1 J2]];
      rewrite Hn in J1; split; assumption.
Qed.
End Call.
End Printed.

(** *** Characters *)

(** Every character that the notations and texts of the document contain satisfies [P]. *)
Definition all_chars (doc : D) (P : char -> Prop) : Prop :=
  forall s, in_notation doc s \/ in_text doc s -> Forall P s.

Lemma Forall_firstn A (P : A -> Prop) k l : Forall P l -> Forall P (firstn k l).
Proof. intros H. rewrite <- (firstn_skipn k l) in H. apply Forall_app in H. apply H. Qed.
Lemma Forall_skipn A (P : A -> Prop) k l : Forall P l -> Forall P (skipn k l).
Proof. intros H. rewrite <- (firstn_skipn k l) in H. apply Forall_app in H. apply H. Qed.

Lemma segment_chars doc ft st P g : all_chars doc P -> from_document doc ft st g -> Forall P (seg_str g).
Proof.
  intros HP [_ [H|[H|(k & t & _ & H & [E|E])]] _]; auto; rewrite E; [apply Forall_firstn|apply Forall_skipn]; auto.
Qed.
Lemma line_chars doc ft st P l : all_chars doc P -> Forall (from_document doc ft st) l -> Forall P (segs_to_string l).
Proof.
  intros HP H. induction H as [|g l H1 H2 IH]; [constructor|]. unfold segs_to_string. cbn [map concat]. apply Forall_app. split; [|exact IH].
  eapply segment_chars; eauto.
Qed.

Theorem C66_characters n doc w path ft st up fl down (P : char -> Prop) :
  all_chars doc P -> pretty_print n doc w path ft st = Ok (up, fl, down) ->
  Forall P (focused_to_string fl) /\
  forall p ls q, p = up \/ p = down -> asking p ls q -> Forall (fun l => Forall P (segs_to_string l)) ls.
Proof.
  intros HP H. assert (H0 : Forall (from_document doc ft st) (left_segments fl) /\ Forall (from_document doc ft st) (right_segments fl)) by (eapply C66_printed; exact H). destruct H0 as [H1 H2]. split.
  - eapply line_chars; [exact HP|]. apply Forall_app. split; eassumption.
  - intros p ls q Hpq Ha. assert (X : Forall (Forall (from_document doc ft st)) ls) by (eapply C66_lines; [exact H|exact Hpq|exact Ha]). eapply Forall_impl; [|exact X]. intros l. apply line_chars. exact HP.
Qed.

Lemma string_loop doc (P : char -> Prop) n : all_chars doc P -> forall k p acc s,
  ok_p (okd doc FStart None) (from_document doc FStart None) (okt doc FStart None) p ->
  Forall (fun ch => P ch \/ ch = newline_char) acc ->
  loop k (to_string_body n) (p, acc) = Ok s -> Forall (fun ch => P ch \/ ch = newline_char) s.
Proof.
  intros HP k. induction k as [|k IH]; intros p acc s Hp Hacc H; [discriminate|].
  cbn [loop] in H. unfold to_string_body in H at 1. unfold down_next in H.
  destruct (print_next_line n p) as [[p' ol]|e] eqn:E; [|discriminate]. cbn [bind] in H.
  destruct (@next_line_origin _ _ _ _ _ _ _ _ _ Hp E) as [Hp' Hl]. destruct ol as [l|]; cbn [bind] in H.
  - eapply IH; [exact Hp'| |exact H]. apply Forall_app. split; [apply Forall_app; split; [exact Hacc|repeat constructor; right; reflexivity]|].
    eapply Forall_impl; [|eapply line_chars; [exact HP|apply Hl; reflexivity]]. intros ch Hch. left. exact Hch.
  - injection H as <-. exact Hacc.
Qed.

Theorem C66_to_string n doc w (P : char -> Prop) s :
  all_chars doc P -> pretty_print_to_string n doc w = Ok s -> Forall (fun ch => P ch \/ ch = newline_char) s.
Proof.
  intros HP H. unfold pretty_print_to_string in H.
  destruct (pretty_print n doc w [] FStart None) as [[[up fl] down]|e] eqn:E; [|discriminate]. cbn [bind] in H.
  destruct (@pretty_print_origin _ _ _ _ _ _ _ _ _ _ _ E) as (_ & Hd & H1 & H2).
  eapply string_loop; [exact HP|exact Hd| |exact H].
  eapply Forall_impl; [|eapply line_chars; [exact HP|apply Forall_app; split; eassumption]]. intros ch Hch. left. exact Hch.
Qed.
End Origins.

(** *** Windows *)
Section Windows.
Context {pd : PrettyDoc} {env : Env} {L : Type}.
Variable get_content : L -> option (D * printing_options).

(** Everything written to a window, also if the display ends in an error. *)
Theorem C66_window WE sz n p st : Forall (written_by get_content p st) (fst (drawn get_content WE sz n p st)).
Proof. apply drawn_origin. Qed.

Theorem C66_window_characters WE sz n p st (P : char -> Prop) :
  P space ->
  (forall ch st', basic_pane p st (PFill ch) st' -> P ch) ->
  (forall l st' doc o, basic_pane p st (PDoc l) st' -> get_content l = Some (doc, o) -> all_chars doc P) ->
  forall ch pos sty fw, In (Put ch pos sty fw) (fst (drawn get_content WE sz n p st)) -> P ch.
Proof.
  intros H1 H2 H3 ch pos sty fw Hin. pose proof (C66_window WE sz n p st) as H. rewrite Forall_forall in H. specialize (H _ Hin).
  destruct H as (x & st' & Hb & Hw). destruct x as [ps|ps|l|c|s q]; try contradiction.
  - destruct Hw as [(-> & _)|(doc & o & g & E & Hg & Hc & _)]; [exact H1|].
    pose proof (@segment_chars _ _ doc _ _ P g (H3 _ _ _ _ Hb E) Hg) as X. rewrite Forall_forall in X. apply X. exact Hc.
  - destruct Hw as (_ & [[-> _]|[-> _]]); [eapply H2; exact Hb|exact H1].
Qed.
End Windows.
