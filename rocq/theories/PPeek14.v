(** The window at a focus mark, or in a text, in documents with holes. *)
From Verif Require Export PPeek13.
From Verif Require Import SpecMask.

Set Implicit Arguments.

Section PPeek14.
Context {pd : PrettyDoc} {env : Env} {ideq : IdEq pd}.

Notation QT := (fun (_ : Id) (_ : shape) => True).

(** The call, given what happens once the node is found. *)
Lemma pwindow_gen doc w (ids : list nat -> option Id) st d0 j s path ft ku kd ups downs l r b c a :
  (forall q q' j, ids q = Some j -> ids q' = Some j -> q = q') ->
  with_optional_style doc st = Ok d0 -> lift (m_id (dl_doc d0)) = Ok j -> pden (Ok j) s (eval d0) ->
  ids [] = Some j -> plab ids [] s ->
  leads ids [] (peek_doc w (Ok j, s)) path b c a -> opens s = true ->
  (forall p c0 gp g gn j1 s1,
    prp QT w p gp (g :: gn) -> pcden c0 j1 s1 -> opens s1 = true -> ids path = Some j1 ->
    content w g j1 s1 = c -> vbs w (rev gp) ++ map Ev (g_done g) = b -> rest_of w g j1 s1 gn = a ->
    exists p2, ev (fun n => focus_of n p c0 ft) (Ok p2) /\
    exists up down,
      ev (fun n => pp_tail n w p2) (Ok (up, FocusedLine l r, down)) /\
      ev (fun n => take_lines (up_next n) ku up) (Ok ups) /\
      ev (fun n => take_lines (down_next n) kd down) (Ok downs)) ->
  ev (fun n => window n doc w path ft st ku kd) (Ok (ups, FocusedLine l r, downs)).
Proof.
  intros Hinj Ed Hid Hden Hj Hlab Hl Ho Hfocus.
  assert (Heq : forall n, pretty_print n doc w path ft st =
    (p <- printer_new w ;; d <- with_optional_style doc st ;; c <- chunk_new d ;;
     y <- seek_path n p c path ;; p' <- focus_of n (fst y) (snd y) ft ;; pp_tail n w p')).
  { intros n. unfold pretty_print, seek. destruct (printer_new w) as [p|]; [|reflexivity]. cbn [bind].
    destruct (with_optional_style doc st) as [d|]; [|reflexivity]. cbn [bind].
    destruct (chunk_new d) as [c1|]; [|reflexivity]. cbn [bind].
    destruct (seek_path n p c1 path) as [[p1 c1']|]; [|reflexivity]. cbn [bind fst snd].
    unfold focus_of, pp_tail. destruct ft; reflexivity. }
  assert (Hh : head_fails s = false) by (apply opens_head; auto).
  destruct (@pchunk_new _ _ d0 j s Hid Hden Hh) as (c0 & Ec & Hc).
  set (p0 := Printer w [] [Block [] 0 false []]) in *.
  set (g0 := GBlock None [] []).
  assert (An : pat QT w ids [] p0 c0 [] g0 [] j s None).
  { constructor; auto.
    - constructor; simpl; auto.
      constructor; [|constructor]. constructor; simpl; auto; try reflexivity. constructor.
    - discriminate.
    - reflexivity. }
  assert (El : peek_doc w (Ok j, s) = content w g0 j s).
  { unfold peek_doc, content. rewrite Ho. reflexivity. }
  assert (Q1 : forall j a b, QT j (SConcat a b) -> QT j a /\ QT j b) by auto.
  assert (Q2 : forall j a b, QT j (SChoice a b) -> QT j a /\ QT j b) by auto.
  assert (Q3 : forall j n j' s, QT j (SChild n (Ok j') s) -> QT j' s) by auto.
  destruct (pseek_path Q1 Q2 Q3 Hinj An El Hl) as (p1 & c1 & gp & g & gn & j1 & s1 & omk & Hev & An1 & Ec1 & HB & HR).
  cbn [rev PPeek1.vbs flat_map app] in HB. unfold g_done at 2 in HB. cbn [g_head g_body g0 map app] in HB.
  assert (HR0 : rest_of w g0 j s [] = []) by reflexivity. rewrite HR0, app_nil_r in HR.
  destruct (Hfocus p1 c1 gp g gn j1 s1) as (p2 & Hf & up & down & Ht & Hu & Hd);
    try solve [symmetry; exact Ec1 | exact HB | exact HR | apply An1].
  unfold window.
  eapply (ev_bind_ok (fun n y => match y with (up, fl, down) => _ end)).
  { eapply ev_ext; [intros; symmetry; apply Heq|].
    change (printer_new w) with (Ok (X := perr Er) p0). cbn [bind]. rewrite Ed. cbn [bind]. rewrite Ec. cbn [bind].
    eapply (ev_bind_ok (fun n y => p' <- focus_of n (fst y) (snd y) ft ;; pp_tail n w p')); [exact Hev|].
    cbn [fst snd]. eapply (ev_bind_ok (fun n p' => pp_tail n w p')); [exact Hf|]. exact Ht. }
  cbv beta iota.
  eapply (ev_bind_ok (fun n ups => downs <- take_lines (down_next n) kd down ;; Ok (ups, FocusedLine l r, downs))); [exact Hu|].
  eapply (ev_bind_ok (fun n downs => Ok (ups, FocusedLine l r, downs))); [exact Hd|]. ev_now.
Qed.

Lemma open_window_gen o d w st path ft ku kd ups downs l r b c a mid (e : event) R :
  orep o d -> ovalid o -> ounique o ->
  leads (oid_at o) [] (open_layout w o st) path b c a ->
  c ++ a = map Ev mid ++ Ev e :: R ->
  (forall p c0 gp g gn j1 s1,
    prp QT w p gp (g :: gn) -> pcden c0 j1 s1 -> opens s1 = true -> oid_at o path = Some j1 ->
    content w g j1 s1 = c -> vbs w (rev gp) ++ map Ev (g_done g) = b -> rest_of w g j1 s1 gn = a ->
    exists p2, ev (fun n => focus_of n p c0 ft) (Ok p2) /\
    exists up down,
      ev (fun n => pp_tail n w p2) (Ok (up, FocusedLine l r, down)) /\
      ev (fun n => take_lines (up_next n) ku up) (Ok ups) /\
      ev (fun n => take_lines (down_next n) kd down) (Ok downs)) ->
  ev (fun n => window n d w path ft st ku kd) (Ok (ups, FocusedLine l r, downs)).
Proof.
  intros Hrep Hv Hu Hl E Hfocus.
  assert (Hno : forall g, open_layout w o st <> [Gap g]).
  { intros g Hg. rewrite Hg in Hl. inversion Hl as [q l0|q l0 j i m c1 r1 p1 b1 c2 a1 Hj E1]; subst.
    - destruct mid; discriminate.
    - destruct m as [|x [|y m]]; discriminate. }
  assert (Ho : opens (oelab o (root_ctx (forget o) st)) = true).
  { unfold open_layout, peek_doc in Hno. destruct (opens _); auto. elim (Hno GapOther). reflexivity. }
  assert (Hopen : o_open o = true).
  { destruct o; auto; discriminate. }
  destruct (orep_notation Hrep) as (nt & sty & H1 & H2 & H3). destruct (H3 Hopen) as (-> & -> & H4).
  set (sty0 := match st with Some s => style_combine s (i_style (o_info o)) | None => i_style (o_info o) end).
  apply (@pwindow_gen d w (oid_at o) st (Delayed (i_note (o_info o)) d false [] sty0 None)
    (i_id (o_info o)) (oelab o (root_ctx (forget o) st)) path ft ku kd ups downs l r b c a); auto.
  - unfold with_optional_style. rewrite H1, H2. cbn [lift bind]. unfold sty0. destruct st; reflexivity.
  - cbn [dl_doc]. rewrite H4. reflexivity.
  - unfold root_ctx. rewrite o_info_forget. apply orep_unfolds; auto.
  - unfold oid_at. simpl. rewrite Hopen. reflexivity.
  - apply oelab_lab; auto.
Qed.

Theorem open_window_mark o d w st path j ku kd ups downs l r b c a mid R :
  orep o d -> ovalid o -> ounique o ->
  leads (oid_at o) [] (open_layout w o st) path b c a -> oid_at o path = Some j ->
  c ++ a = map Ev mid ++ Ev (EMark j) :: R -> ~ In (EMark j) mid ->
  above (b ++ map Ev mid ++ [Ev (EMark j)]) ku ups l -> below R kd r downs ->
  ev (fun n => window n d w path FMark st ku kd) (Ok (ups, FocusedLine l r, downs)).
Proof.
  intros Hrep Hv Hu Hl Hj E Hmid Ha Hb.
  eapply open_window_gen; [exact Hrep|exact Hv|exact Hu|exact Hl|exact E|].
  intros p c0 gp g gn j1 s1 Hrp Hc Ho Hj1 <- <- <-. assert (j1 = j) by congruence. subst j1.
  apply (@pfocus_mark _ _ _ QT (fun _ _ _ _ => conj I I) (fun _ _ _ _ => conj I I) (fun _ _ _ _ _ => I) w
    p c0 gp g gn j s1 mid R ku kd ups downs l r); auto.
Qed.

Theorem open_window_text o d w st path k ku kd ups downs l r b c a mid j t R :
  orep o d -> ovalid o -> ounique o ->
  leads (oid_at o) [] (open_layout w o st) path b c a ->
  c ++ a = map Ev mid ++ Ev (EText j t) :: R ->
  existsb tftext mid = false -> tx_from_text t = true ->
  (str_width (firstn k (tx_str t)) + str_width (skipn k (tx_str t)) = tx_width t)%N ->
  above (b ++ map Ev mid ++ [Ev (EText j (fst (split_at t k)))]) ku ups l ->
  below (Ev (EText j (snd (split_at t k))) :: R) kd r downs ->
  ev (fun n => window n d w path (FText k) st ku kd) (Ok (ups, FocusedLine l r, downs)).
Proof.
  intros Hrep Hv Hu Hl E Hmid Ht Hw Ha Hb.
  eapply open_window_gen; [exact Hrep|exact Hv|exact Hu|exact Hl|exact E|].
  intros p c0 gp g gn j1 s1 Hrp Hc Ho _ <- <- <-.
  eapply (@pfocus_text _ _ QT) with (j := j1) (s := s1); eauto.
Qed.

End PPeek14.
