(** The oracle computes the layout. *)
From Verif Require Export Oracle SpecOracle Properties4.

Set Implicit Arguments.

Section Shape.
Context {pd : PrettyDoc} {env : Env}.

(** The oracle on notation trees, without overflow. *)
Fixpoint ofl (s : shape) (suf : option N) : option (option N) :=
  match s with
  | SFail _ => None
  | SEmpty | SMark => Some suf
  | SText t =>
      match suf with
      | None => Some None
      | Some w => if (tx_width t + w <? U16)%N then Some (Some (tx_width t + w)%N) else None
      end
  | SEol => match suf with Some w => if (w =? 0)%N then Some (Some 0%N) else Some None | None => Some None end
  | SNewline _ => Some (Some 0%N)
  | SChild _ _ s' => ofl s' suf
  | SConcat a b => obind (ofl b suf) (fun s => ofl a (capped s))
  | SChoice _ b => ofl b suf
  end.

Definition ofits (w : N) (lay : olayout) (first : option N) : option bool :=
  match first with
  | None => Some false
  | Some f =>
      if ol_eol lay && (0 <? f)%N then Some false
      else if (last_line_len lay + f <? U16)%N then Some (last_line_len lay + f <=? w)%N else None
  end.

Fixpoint opps (w : N) (s : shape) (lay : olayout) (suf : option N) : option olayout :=
  match s with
  | SFail _ => None
  | SEmpty | SMark => Some lay
  | SText t => if ol_eol lay then None else Some (OLayout (ol_done lay) (ol_last lay ++ tx_str t) (ol_eol lay))
  | SEol => Some (OLayout (ol_done lay) (ol_last lay) true)
  | SNewline ind => Some (append_newline lay (indent_string ind))
  | SChild _ _ s' => opps w s' lay suf
  | SConcat a b =>
      if head_fails a then None else
      obind (ofl b suf) (fun s => obind (opps w a lay (capped s)) (fun lay' => opps w b lay' suf))
  | SChoice a b =>
      if head_fails a then None else
      obind (ofl a suf) (fun first => obind (ofits w lay first) (fun f =>
      if f : bool then opps w a lay suf else opps w b lay suf))
  end.

End Shape.

Section Agree.
Context {pd : PrettyDoc} {env : Env}.
Hypothesis Hovf : ovf = true.

Lemma add16_true {X} a b c : add16 (X := X) ovf a b = Ok c <-> (a + b < U16)%N /\ c = (a + b)%N.
Proof.
  rewrite Hovf. unfold add16. destruct (a + b <? U16)%N eqn:E.
  - apply N.ltb_lt in E. split; [intros [= <-]; auto|intros [_ ->]; auto].
  - apply N.ltb_ge in E. split; [discriminate|lia].
Qed.

Lemma bind_ok {X A B} (x : res X A) (f : A -> res X B) b : bind x f = Ok b -> exists a, x = Ok a /\ f a = Ok b.
Proof. destruct x; simpl; [eauto|discriminate]. Qed.

Lemma den_not_fail i s c : den i s (Ok c) -> head_fails s = false.
Proof. destruct s; simpl; intros; auto. contradiction. Qed.

Lemma ofl_sound s : forall i n c suf r, den i s (Ok c) -> first_line_len n c suf = Ok r -> ofl s suf = Some r.
Proof.
  induction s as [f| | |ind|t|a IHa b IHb|a IHa b IHb|m i' s IH|]; intros i n c suf r Hd H;
    destruct n as [|n]; try discriminate; destruct c; simpl in Hd; try contradiction; simpl in H; simpl.
  - injection H as <-; auto.
  - destruct suf as [x|]; [destruct (x =? 0)%N|]; injection H as <-; auto.
  - injection H as <-; auto.
  - subst t0. destruct suf as [x|]; [|injection H as <-; auto].
    apply bind_ok in H as (y & H & [= <-]). apply add16_true in H as [H ->].
    apply N.ltb_lt in H. rewrite H. reflexivity.
  - destruct Hd as [[_ Ha] [_ Hb]].
    apply bind_ok in H as (y & Ey & H). apply bind_ok in H as (z & Hz & H). apply bind_ok in H as (x & Ex & H).
    rewrite Ey in Hb. rewrite Ex in Ha. erewrite IHb by eauto. simpl. eauto.
  - destruct Hd as [_ [_ Hb]]. apply bind_ok in H as (y & Ey & H). rewrite Ey in Hb. eauto.
  - destruct Hd as [_ [_ Hb]]. apply bind_ok in H as (y & Ey & H). rewrite Ey in Hb. eauto.
  - injection H as <-; auto.
Qed.

Lemma den_ok i s d : head_fails s = false -> den i s (eval d) -> exists c, eval d = Ok c.
Proof. destruct (eval d) as [c|f]; eauto. destruct s; simpl; intros E H; try contradiction. discriminate. Qed.

Lemma ofl_not_fail s suf r : ofl s suf = Some r -> head_fails s = false.
Proof. destruct s; simpl; auto. discriminate. Qed.

Lemma ofl_complete s : forall i c suf r, den i s (Ok c) -> ofl s suf = Some r ->
  exists N, forall n, N <= n -> first_line_len n c suf = Ok r.
Proof.
  induction s as [f| | |ind|t|a IHa b IHb|a IHa b IHb|m i' s IH|]; intros i c suf r Hd H;
    destruct c; simpl in Hd; try contradiction; cbn [ofl] in H.
  - injection H as <-. exists 1. intros [|n] Hn; [lia|]. reflexivity.
  - exists 1. intros [|n] Hn; [lia|]. simpl. destruct suf as [x|]; [destruct (x =? 0)%N|]; injection H as <-; auto.
  - injection H as <-. exists 1. intros [|n] Hn; [lia|]. reflexivity.
  - subst t0. exists 1. intros [|n] Hn; [lia|]. simpl. destruct suf as [x|]; [|injection H as <-; auto].
    destruct (tx_width t + x <? U16)%N eqn:E; [|discriminate]. injection H as <-. apply N.ltb_lt in E.
    rewrite (proj2 (add16_true (tx_width t) x _) (conj E eq_refl)). reflexivity.
  - destruct Hd as [[_ Ha] [_ Hb]]. apply obind_some in H as (z & Hz & H).
    destruct (@den_ok _ _ _ (@ofl_not_fail _ _ _ Hz) Hb) as (y & Ey). destruct (@den_ok _ _ _ (@ofl_not_fail _ _ _ H) Ha) as (x & Ex).
    rewrite Ey in Hb. rewrite Ex in Ha. destruct (IHb _ _ _ _ Hb Hz) as (N1 & H1). destruct (IHa _ _ _ _ Ha H) as (N2 & H2).
    exists (S (N1 + N2)). intros [|n] Hn; [lia|]. cbn [first_line_len]. rewrite Ey. cbn [bind]. rewrite H1 by lia. cbn [bind]. rewrite Ex. cbn [bind]. apply H2. lia.
  - destruct Hd as [_ [_ Hb]]. destruct (@den_ok _ _ _ (@ofl_not_fail _ _ _ H) Hb) as (y & Ey). rewrite Ey in Hb.
    destruct (IHb _ _ _ _ Hb H) as (N1 & H1). exists (S N1). intros [|n] Hn; [lia|]. cbn [first_line_len]. rewrite Ey. apply H1. lia.
  - destruct Hd as [_ [_ Hb]]. destruct (@den_ok _ _ _ (@ofl_not_fail _ _ _ H) Hb) as (y & Ey). rewrite Ey in Hb.
    destruct (IH _ _ _ _ Hb H) as (N1 & H1). exists (S N1). intros [|n] Hn; [lia|]. cbn [first_line_len]. rewrite Ey. apply H1. lia.
  - injection H as <-. exists 1. intros [|n] Hn; [lia|]. reflexivity.
Qed.

Lemma opps_sound w s : forall i n c lay suf lay', den i s (Ok c) -> opp n lay c suf w = Ok lay' ->
  (w < MAX_WIDTH)%N /\ opps w s lay suf = Some lay'.
Proof.
  induction s as [f| | |ind|t|a IHa b IHb|a IHa b IHb|m i' s IH|]; intros i n c lay suf lay' Hd H;
    (destruct n as [|n]; [discriminate|]); destruct c; simpl in Hd; try contradiction; cbn [opp] in H;
    destruct (w <? MAX_WIDTH)%N eqn:Ew; try discriminate; apply N.ltb_lt in Ew; (split; [exact Ew|]); cbn [opps].
  - injection H as <-; auto.
  - injection H as <-; auto.
  - subst ind. injection H as <-; auto.
  - subst t0. unfold append_text in H. destruct (ol_eol lay) eqn:E; [discriminate|]. injection H as <-. auto.
  - destruct Hd as [[_ Ha] [_ Hb]].
    apply bind_ok in H as (x & Ex & H). apply bind_ok in H as (y & Ey & H). apply bind_ok in H as (z & Hz & H). apply bind_ok in H as (u & Hu & H).
    rewrite Ey in Hb. rewrite Ex in Ha. rewrite (@den_not_fail _ _ _ Ha). rewrite (@ofl_sound _ _ _ _ _ _ Hb Hz). simpl.
    destruct (IHa _ _ _ _ _ _ Ha Hu) as [_ ->]. simpl. eapply IHb; eauto.
  - destruct Hd as [[_ Ha] [_ Hb]].
    apply bind_ok in H as (x & Ex & H). cbv zeta in H. apply bind_ok in H as (y & Ey & H). apply bind_ok in H as (f & Hf & H). apply bind_ok in H as (z & Hz & H).
    rewrite Ex in Ha. rewrite (@den_not_fail _ _ _ Ha). rewrite (@ofl_sound _ _ _ _ _ _ Ha Ey). simpl.
    assert (Ef : ofits w lay y = Some f).
    { unfold ofits. destruct y as [y|]; [|injection Hf as <-; auto]. destruct (_ && _); [injection Hf as <-; auto|].
      apply bind_ok in Hf as (v & Hf & [= <-]). apply add16_true in Hf as [Hf ->]. apply N.ltb_lt in Hf. rewrite Hf. auto. }
    rewrite Ef. simpl. destruct f.
    + injection Hz as <-. eapply IHa; eauto.
    + rewrite Hz in Hb. eapply IHb; eauto.
  - destruct Hd as [_ [_ Hb]]. apply bind_ok in H as (y & Ey & H). rewrite Ey in Hb. eapply IH; eauto.
  - injection H as <-; auto.
Qed.

Lemma opps_not_fail w s lay suf r : opps w s lay suf = Some r -> head_fails s = false.
Proof. destruct s; simpl; auto. discriminate. Qed.

Lemma opps_complete w s : (w < MAX_WIDTH)%N -> forall i c lay suf lay', den i s (Ok c) -> opps w s lay suf = Some lay' ->
  exists N, forall n, N <= n -> opp n lay c suf w = Ok lay'.
Proof.
  intros Hw. apply N.ltb_lt in Hw.
  induction s as [f| | |ind|t|a IHa b IHb|a IHa b IHb|m i' s IH|]; intros i c lay suf lay' Hd H;
    destruct c; simpl in Hd; try contradiction; cbn [opps] in H.
  - injection H as <-. exists 1. intros [|n] Hn; [lia|]. cbn [opp]. rewrite Hw. reflexivity.
  - injection H as <-. exists 1. intros [|n] Hn; [lia|]. cbn [opp]. rewrite Hw. reflexivity.
  - injection H as <-. exists 1. intros [|n] Hn; [lia|]. cbn [opp]. rewrite Hw. subst. reflexivity.
  - subst t0. exists 1. intros [|n] Hn; [lia|]. cbn [opp]. rewrite Hw. unfold append_text. destruct (ol_eol lay); [discriminate|]. injection H as <-. reflexivity.
  - destruct Hd as [[_ Ha] [_ Hb]]. destruct (head_fails a) eqn:Ea; [discriminate|].
    apply obind_some in H as (z & Hz & H). apply obind_some in H as (u & Hu & H).
    destruct (@den_ok _ _ _ (@ofl_not_fail _ _ _ Hz) Hb) as (y & Ey). destruct (@den_ok _ _ _ Ea Ha) as (x & Ex).
    rewrite Ey in Hb. rewrite Ex in Ha.
    destruct (@ofl_complete _ _ _ _ _ Hb Hz) as (N1 & H1). destruct (IHa _ _ _ _ _ Ha Hu) as (N2 & H2). destruct (IHb _ _ _ _ _ Hb H) as (N3 & H3).
    exists (S (N1 + N2 + N3)). intros [|n] Hn; [lia|]. cbn [opp]. rewrite Hw, Ex, Ey. cbn [bind]. rewrite H1 by lia. cbn [bind].
    rewrite H2 by lia. cbn [bind]. apply H3. lia.
  - destruct Hd as [[_ Ha] [_ Hb]]. destruct (head_fails a) eqn:Ea; [discriminate|].
    apply obind_some in H as (y & Hy & H). apply obind_some in H as (f & Hf & H).
    destruct (@den_ok _ _ _ Ea Ha) as (x & Ex). rewrite Ex in Ha. destruct (@ofl_complete _ _ _ _ _ Ha Hy) as (N1 & H1).
    assert (Ef : match y with
                    | None => Ok false
                    | Some first_len =>
                        if ol_eol lay && (0 <? first_len)%N then Ok false
                        else s <- add16 ovf (last_line_len lay) first_len ;; Ok (s <=? w)%N
                    end = Ok f :> pres bool).
    { unfold ofits in Hf. destruct y as [y|]; [|injection Hf as <-; auto]. destruct (_ && _); [injection Hf as <-; auto|].
      destruct (last_line_len lay + y <? U16)%N eqn:E; [|discriminate]. injection Hf as <-. apply N.ltb_lt in E.
      rewrite (proj2 (add16_true _ y _) (conj E eq_refl)). reflexivity. }
    destruct f.
    + destruct (IHa _ _ _ _ _ Ha H) as (N2 & H2). exists (S (N1 + N2)). intros [|n] Hn; [lia|]. cbn [opp]. rewrite Hw, Ex. cbn [bind].
      rewrite H1 by lia. cbn [bind]. cbv zeta. match goal with |- bind ?m _ = _ => replace m with (@Ok (perr Er) bool true) by (symmetry; exact Ef) end. cbn [bind]. apply H2. lia.
    + destruct (@den_ok _ _ _ (@opps_not_fail _ _ _ _ _ H) Hb) as (z & Ez). rewrite Ez in Hb.
      destruct (IHb _ _ _ _ _ Hb H) as (N2 & H2). exists (S (N1 + N2)). intros [|n] Hn; [lia|]. cbn [opp]. rewrite Hw, Ex. cbn [bind].
      rewrite H1 by lia. cbn [bind]. cbv zeta. match goal with |- bind ?m _ = _ => replace m with (@Ok (perr Er) bool false) by (symmetry; exact Ef) end. cbn [bind]. rewrite Ez. cbn [bind]. apply H2. lia.
  - destruct Hd as [_ [_ Hb]]. destruct (@den_ok _ _ _ (@opps_not_fail _ _ _ _ _ H) Hb) as (y & Ey). rewrite Ey in Hb.
    destruct (IH _ _ _ _ _ Hb H) as (N1 & H1). exists (S N1). intros [|n] Hn; [lia|]. cbn [opp]. rewrite Hw, Ey. apply H1. lia.
  - injection H as <-. exists 1. intros [|n] Hn; [lia|]. cbn [opp]. rewrite Hw. reflexivity.
Qed.

End Agree.
