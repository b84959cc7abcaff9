(** Results about all finite documents: agreement of partial and full
    printing, termination, errors, and the string printer. *)
From Verif Require Export PClosed SpecPrint.

Set Implicit Arguments.

Section Generic.
Context {pd : PrettyDoc} {env : Env} {ideq : IdEq pd}.

Lemma lines_join pre post ups l r downs :
  lines_of pre = rev ups ++ [l] -> lines_from [] post = r :: downs ->
  lines_of (pre ++ post) = rev ups ++ (l ++ r) :: downs.
Proof.
  intros H1 H2. unfold lines_of in *. destruct (lines_app pre post []) as (l' & ls & E1 & E2).
  rewrite H1 in E1. apply app_inj_tail in E1 as [<- <-]. rewrite E2. f_equal.
  destruct (lines_cur post l) as (r' & ls' & E3 & E4). rewrite H2 in E3. injection E3 as <- <-. exact E4.
Qed.

Lemma lines_of_last es : exists ls l, lines_of es = ls ++ [l].
Proof. destruct (lines_app es [] []) as (l & ls & H & _). exists ls, l. exact H. Qed.

Lemma printed_det doc w path ft st ups fl downs ups' fl' downs' :
  printed doc w path ft st ups fl downs -> printed doc w path ft st ups' fl' downs' ->
  ups = ups' /\ fl = fl' /\ downs = downs'.
Proof.
  intros (up & down & H1 & H2 & H3) (up' & down' & H1' & H2' & H3').
  pose proof (ev_det H1 H1') as E. injection E as -> -> ->.
  pose proof (ev_det H2 H2') as E. injection E as ->.
  pose proof (ev_det H3 H3') as E. injection E as ->. auto.
Qed.

Lemma printed_not_fails doc w path ft st ups fl downs f :
  printed doc w path ft st ups fl downs -> print_fails doc w path ft st f -> False.
Proof.
  intros (up & down & H1 & H2 & H3) [H|(up' & fl' & down' & H1' & H)].
  - pose proof (ev_det H1 H). discriminate.
  - pose proof (ev_det H1 H1') as E. injection E as -> -> ->.
    destruct H as [H|H]; [pose proof (ev_det H2 H)|pose proof (ev_det H3 H)]; discriminate.
Qed.

(** What is concluded from the tree of the document. *)
Section Root.
Variable P : failure (perr Er) -> Prop.
Hypothesis P_eol : P (FErr TextAfterEndOfLine).
Hypothesis P_ovf : ovf = true -> P (FPanic POverflow).

Definition top : Id -> shape -> Prop := fun _ _ => True.
Definition topN : list nat -> Id -> Prop := fun _ _ => True.

Variables (doc : D) (st : option Sty) (root : pres Id * shape).
Hypothesis Htree : doc_tree doc st root.
Hypothesis Hroot : root_ok P top topN root.

Lemma total_root w path ft :
  exists r, ev (fun n => pretty_print n doc w path ft st) r /\
    match r with
    | Ok (up, fl, down) =>
        exists ru rd, ev (fun n => collect n (up_next n) up) ru /\
                      ev (fun n => collect n (down_next n) down) rd /\
          (forall f, ru = Fail f -> P f) /\ (forall f, rd = Fail f -> P f)
    | Fail f => P f \/ (exists i, In i path /\ f = FErr (InvalidPath i)) \/
        (ft = FMark /\ f = FErr MissingFocusMark) \/ (exists n, ft = FText n /\ f = FErr MissingText)
    end.
Proof.
  apply (@pp_total _ _ _ P P_eol P_ovf top) with (NP := topN) (root := root); unfold top, topN; auto.
Qed.

(** The whole document, from the start. *)
Lemma full_root w :
  match layout w root with
  | Some es => exists fl downs, printed doc w [] FStart st [] fl downs /\ left_segments fl = [] /\
      lines_of es = right_segments fl :: downs
  | None => exists f, print_fails doc w [] FStart st f /\ P f
  end.
Proof.
  destruct (@pp_spec _ _ _ P P_eol P_ovf top) with (NP := topN) (w := w) (doc := doc) (path := @nil nat) (ft := FStart) (st := st) (root := root)
    as (r & Hev & Hr); unfold top, topN, splits; auto.
  { intros m H. discriminate. }
  destruct r as [[[up fl] down]|f].
  - destruct Hr as (ru & rd & Hu & Hd & Pu & Pd & HL). destruct (layout w root) as [es|].
    + destruct HL as (ups & downs & pre & post & -> & -> & [-> Hst] & H1 & H2).
      destruct Hst as [[_ ->]|(q1 & j1 & m & a' & E & _)]; [|destruct q1; discriminate].
      simpl in H1. destruct ups as [|u ups].
      * injection H1 as H1. exists fl, downs. split; [exists up, down; auto|]. auto.
      * exfalso. apply (f_equal (@length _)) in H1. simpl in H1. rewrite app_length in H1. rewrite app_length in H1. simpl in H1. lia.
    + destruct HL as [HL|HL].
      * destruct ru as [|f]; [discriminate|]. exists f. split; auto. right. eauto 10.
      * destruct rd as [|f]; [discriminate|]. exists f. split; auto. right. eauto 10.
  - destruct Hr as [[HP ->]|[(p1 & i & p2 & E & _)|[(E & _)|(n & E & _)]]]; try discriminate.
    + exists f. split; auto. left. exact Hev.
    + destruct p1; discriminate.
Qed.

(** Around any focus. *)
Lemma around_root w path ft up fl down : is_text_target ft = false ->
  ev (fun n => pretty_print n doc w path ft st) (Ok (up, fl, down)) ->
  match layout w root with
  | Some es => exists ups downs, ev (fun n => collect n (up_next n) up) (Ok ups) /\
      ev (fun n => collect n (down_next n) down) (Ok downs) /\ lines_of es = all_lines ups fl downs
  | None => exists f, P f /\ (ev (fun n => collect n (up_next n) up) (Fail f) \/
                              ev (fun n => collect n (down_next n) down) (Fail f))
  end.
Proof.
  intros Hft Hok.
  destruct (@pp_spec _ _ _ P P_eol P_ovf top) with (NP := topN) (w := w) (doc := doc) (path := path) (ft := ft) (st := st) (root := root)
    as (r & Hev & Hr); unfold top, topN, splits; auto.
  { intros m H. subst ft. discriminate. }
  pose proof (ev_det Hev Hok). subst r.
  destruct Hr as (ru & rd & Hu & Hd & Pu & Pd & HL). destruct (layout w root) as [es|].
  - destruct HL as (ups & downs & pre & post & -> & -> & Hdiv & H1 & H2). exists ups, downs.
    split; auto. split; auto. unfold all_lines. etransitivity; [|eapply lines_join; eauto].
    destruct ft; try discriminate; destruct Hdiv as [-> _]; reflexivity.
  - destruct HL as [HL|HL]; [destruct ru as [|f]|destruct rd as [|f]]; try discriminate; exists f; auto.
Qed.

End Root.

(** ** The string printer *)

Definition line_tail (ls : list line) : str := concat (map (fun l => newline_char :: segs_to_string l) ls).

Lemma string_loop k n : forall p acc s,
  match loop k (collect_body (down_next n)) (p, acc) with
  | Ok ls => exists tail, ls = acc ++ tail /\ loop k (to_string_body n) (p, s) = Ok (s ++ line_tail tail)
  | Fail f => loop k (to_string_body n) (p, s) = Fail f
  end.
Proof.
  induction k as [|k IH]; intros p acc s; [reflexivity|].
  assert (E1 : loop (S k) (collect_body (down_next n)) (p, acc) =
    match down_next n p with
    | Ok (p', Some l) => loop k (collect_body (down_next n)) (p', acc ++ [l])
    | Ok (p', None) => Ok acc
    | Fail f => Fail f
    end) by (cbn [loop]; unfold collect_body at 1; destruct (down_next n p) as [[p' [l|]]|f]; reflexivity).
  assert (E2 : loop (S k) (to_string_body n) (p, s) =
    match down_next n p with
    | Ok (p', Some l) => loop k (to_string_body n) (p', (s ++ [newline_char]) ++ segs_to_string l)
    | Ok (p', None) => Ok s
    | Fail f => Fail f
    end) by (cbn [loop]; unfold to_string_body at 1; destruct (down_next n p) as [[p' [l|]]|f]; reflexivity).
  rewrite E1, E2. clear E1 E2.
  destruct (down_next n p) as [[p' [l|]]|f]; auto.
  - specialize (IH p' (acc ++ [l]) ((s ++ [newline_char]) ++ segs_to_string l)).
    destruct (loop k (collect_body (down_next n)) (p', acc ++ [l])) as [ls|f]; auto.
    destruct IH as (tail & -> & E). exists (l :: tail). rewrite <- app_assoc. split; auto.
    etransitivity; [exact E|]. f_equal. unfold line_tail. simpl. rewrite <- !app_assoc. reflexivity.
  - exists []. rewrite !app_nil_r. auto.
Qed.

Lemma to_string_ok doc w ups fl downs : printed doc w [] FStart None ups fl downs ->
  ev (fun n => pretty_print_to_string n doc w) (Ok (focused_to_string fl ++ line_tail downs)).
Proof.
  intros (up & down & H1 & _ & H3).
  apply (ev_bind_ok (fun n '(_, fl, down) => loop n (to_string_body n) (down, focused_to_string fl))) with (a := (up, fl, down)); auto.
  destruct H3 as [N3 H3]. exists N3. intros n Hn. specialize (H3 n Hn). unfold collect in H3.
  pose proof (string_loop n n down [] (focused_to_string fl)) as H. rewrite H3 in H.
  destruct H as (tail & E & H). simpl in E. subst. exact H.
Qed.

Lemma to_string_fails doc w f : 
  (ev (fun n => pretty_print n doc w [] FStart None) (Fail f) \/
   exists up fl down, ev (fun n => pretty_print n doc w [] FStart None) (Ok (up, fl, down)) /\
     ev (fun n => collect n (down_next n) down) (Fail f)) ->
  ev (fun n => pretty_print_to_string n doc w) (Fail f).
Proof.
  intros [H|(up & fl & down & H1 & H3)].
  - apply (ev_bind_fail (fun n '(_, fl, down) => loop n (to_string_body n) (down, focused_to_string fl))). auto.
  - apply (ev_bind_ok (fun n '(_, fl, down) => loop n (to_string_body n) (down, focused_to_string fl))) with (a := (up, fl, down)); auto.
    destruct H3 as [N3 H3]. exists N3. intros n Hn. specialize (H3 n Hn). unfold collect in H3.
    pose proof (string_loop n n down [] (focused_to_string fl)) as H. rewrite H3 in H. exact H.
Qed.

End Generic.
