(** The parts of the notation tree of the open nodes of a document. *)
From Verif Require Export PTag SpecOpenWork.

Set Implicit Arguments.

Section PTag2.
Context {pd : PrettyDoc} {env : Env}.

Theorem open_parts_bound o : open_once o -> forall c, parts (oelab o c) <= open_parts o.
Proof.
  induction o as [i s|i ks IH|i] using odoc_ind'; intros H c; cbn [oelab open_parts]; [| |simpl; lia].
  - pose proof (@elab_note_parts _ _ (RText i s) [] (fun _ => 0) ltac:(intros [|m] x c0; discriminate) eq_refl (i_note i) None c 1 (fun _ => 0) (fun _ => 0) (Nat.le_refl _)) as Hp.
    unfold used in Hp. cbn [length seq map list_sum fold_right] in Hp. cbn [forget]. lia.
  - inversion H as [|? ? Hu Hk|]; subst.
    set (kids := map (fun k => Kid (forget k) (oelab k)) ks).
    set (kp := fun m => match nth_error ks m with Some k => open_parts k | None => 0 end).
    assert (Hl : length kids = length ks) by apply map_length.
    pose proof (@elab_note_parts _ _ (forget (OBranch i ks)) kids kp) as Hp.
    specialize (Hp ltac:(intros m x c0 Hx; unfold kids in Hx; rewrite nth_error_map in Hx; unfold kp;
      destruct (nth_error ks m) as [y|] eqn:E; simpl in Hx; [|discriminate]; injection Hx as <-; cbn [k_tree];
      apply nth_error_In in E; auto) I (i_note i) None c 1 (fun _ => 0) (fun _ => 0) (Nat.le_refl _)).
    rewrite Hl in Hp. eapply Nat.le_trans; [exact Hp|]. apply Nat.add_le_mono_l.
    unfold used. rewrite Hl. clear - Hu.
    transitivity (list_sum (map kp (seq 0 (length ks)))).
    + apply list_sum_le. intros m. specialize (Hu m). nia.
    + clear. apply Nat.eq_le_incl. f_equal. unfold kp.
      assert (G : forall pre, map (fun m => match nth_error (pre ++ ks) m with Some k => open_parts k | None => 0 end) (seq (length pre) (length ks)) = map open_parts ks).
      { induction ks as [|k ks IH]; intros pre; simpl; auto. f_equal.
        - rewrite nth_error_app2, Nat.sub_diag by lia. reflexivity.
        - specialize (IH (pre ++ [k])). rewrite <- app_assoc in IH. simpl in IH. rewrite app_length, Nat.add_1_r in IH. exact IH. }
      apply (G []).
Qed.

Lemma root_open o w st path ft ku kd ups downs l r b c a : ft = FStart \/ ft = FEnd ->
  leads (oid_at o) [] (open_layout w o st) path b c a ->
  above (pre_of ft b c) ku ups l -> below (post_of ft c a) kd r downs -> o_open o = true.
Proof.
  intros Hft Hl Ha Hb. destruct o as [| |i]; auto. exfalso.
  change (open_layout w (OClosed i) st) with [@Gap pd GapOther] in Hl.
  inversion Hl as [q l0|q l0 j k m c1 r1 p1 b1 c2 a1 Hj E]; subst; [|discriminate].
  destruct Hft as [->| ->]; cbn [pre_of post_of app] in *.
  - destruct Hb as [(u & all & E & _)|(u & ind & z & E & _)]; destruct u; discriminate.
  - destruct Ha as [(u & all & E & _)|(z & ind & u & E & _)]; [destruct u; discriminate|].
    destruct z as [|x [|y z]]; discriminate.
Qed.
End PTag2.
