(** A concrete case for C75: one document in two panes. *)
From Verif Require Export Properties43 Properties10Ex.
From Coq Require Import String.

Set Implicit Arguments.

Notation wenv := (wide_env true).

(** doc3 with the focus before its text, in its text, and after its second line. *)
Definition text_focus43 (n : nat) (h : f32) : printing_options := PrintingOptions [0] (FText n) h WFull true.
Definition contents43 (l : nat) : option (sdoc * printing_options) :=
  match l with
  | 0 => Some (doc3, half_focus)
  | 1 => Some (doc3, text_focus43 1 f32_zero)
  | 2 => Some (doc3, text_focus43 2 f32_half)
  | 3 => Some (doc3, text_focus43 0 f32_half)
  | _ => None
  end.

Lemma doc3_valid : @valid_doc spd (s_tree doc3).
Proof. apply s_valid_doc. vm_compute. reflexivity. Qed.
Lemma doc3_unique : unique_ids (id_at (s_tree doc3)).
Proof. apply ids_unique. vm_compute. repeat constructor; simpl; intuition discriminate. Qed.
(** Short texts have additive widths. *)
Lemma wide_additive43 (s : str) : (N.of_nat (2 * List.length s) <? U16)%N = true -> @additive wenv s.
Proof.
  intros H a b c ->. apply N.ltb_lt in H. unfold str_width. cbn [usize_width wide_env].
  set (f := fun c0 : N => if (1000 <=? c0)%N then 2%N else 1%N).
  assert (A : forall l1 l2, fold_right N.add 0%N (map f (l1 ++ l2)) = (fold_right N.add 0 (map f l1) + fold_right N.add 0 (map f l2))%N).
  { intros l1 l2. induction l1 as [|y l1 IH]; [reflexivity|]. cbn [app map fold_right]. rewrite IH. lia. }
  assert (B : forall l, (fold_right N.add 0 (map f l) <= N.of_nat (2 * List.length l))%N).
  { induction l as [|y l IH]; [cbn; lia|]. cbn [map fold_right List.length]. unfold f at 1. destruct (1000 <=? y)%N; lia. }
  pose proof (B b) as Bb. pose proof (B c) as Bc. rewrite !app_length in H. rewrite A. clear A B. clearbody f. revert Bb Bc. generalize (fold_right N.add 0%N (map f b)) (fold_right N.add 0%N (map f c)). intros nb nc Bb Bc. change (@List.length char) with (@List.length N) in *. assert (E1 : (nb < U16)%N) by lia. assert (E2 : (nc < U16)%N) by lia. assert (E3 : (nb + nc < U16)%N) by lia. rewrite (N.mod_small _ _ E1), (N.mod_small _ _ E2), (N.mod_small _ _ E3). reflexivity.
Qed.
Lemma doc3_splittable : @splittable spd wenv (s_tree doc3).
Proof.
  intros q i s H. destruct q as [|[|[|k]] q]; try discriminate H.
  - destruct q; [|destruct n; discriminate H]. injection H as _ <-. apply wide_additive43. vm_compute. reflexivity.
Qed.

Definition text_line43 (n : nat) (st : list nat) : @focused_line spd :=
  let stt := (st ++ [107]) ++ [108] in
  {| left_segments := [seg (codes "> ") 2 (st ++ [107]); seg (firstn n [97; 1000; 98]%N) (nth n [0; 1; 3; 4]%N 0%N) stt];
     right_segments := [seg (skipn n [97; 1000; 98]%N) (nth n [4; 3; 1; 0]%N 0%N) stt] |}.

Lemma text_printed43 n h w st : n <= 2 -> @printed_in spd wenv doc3 (text_focus43 n h) w st
  [[seg (codes "first") 5 (st ++ [107])]] (text_line43 n st) [[seg (codes "a longer line") 13 (st ++ [107])]].
Proof.
  intros H. destruct n as [|[|[|n]]]; [| | |lia]; (eapply (@run_printed 200); [intros m; vm_compute; reflexivity|intros m; vm_compute; reflexivity|intros m; vm_compute; reflexivity]).
Qed.

(** A pane on the left, and a lower one on the right. *)
Definition rect43 : rectangle := Rectangle 0 2 0 8.

Ltac shown43 := refine (conj eq_refl (conj _ (conj _ (conj _ (conj _ (conj (fun _ => doc3_splittable) (conj _ _))))))).

Lemma shown43_0 : @shown_in spd wenv nat contents43 size3 (s_tree doc3) doc3 0 half_focus [] rect3
  [[seg (codes "first") 5 [107]]]
  {| left_segments := [seg (codes "> ") 2 [107]]; right_segments := [seg ([97; 1000; 98]%N) 4 [107; 108]] |}
  [[seg (codes "a longer line") 13 [107]]].
Proof.
  shown43; [apply rect3_in|reflexivity|split; [reflexivity|discriminate]|apply half_ok|apply (doc3_printed 8 [])|intros _; vm_compute; reflexivity].
Qed.
Lemma shown43_1 : @shown_in spd wenv nat contents43 size3 (s_tree doc3) doc3 1 (text_focus43 1 f32_zero) [] rect43
  [[seg (codes "first") 5 [107]]] (text_line43 1 []) [[seg (codes "a longer line") 13 [107]]].
Proof.
  shown43; [repeat split; discriminate|reflexivity|split; [reflexivity|discriminate]|apply zero_ok|apply (@text_printed43 1 f32_zero 8 []); lia|intros _; vm_compute; reflexivity].
Qed.
Lemma shown43_text l n : (l, n) = (2, 2) \/ (l, n) = (3, 0) ->
  @shown_in spd wenv nat contents43 size3 (s_tree doc3) doc3 l (text_focus43 n f32_half) [] rect3
  [[seg (codes "first") 5 [107]]] (text_line43 n []) [[seg (codes "a longer line") 13 [107]]].
Proof.
  intros [E|E]; injection E as -> ->;
  (shown43; [apply rect3_in|reflexivity|split; [reflexivity|discriminate]|apply half_ok|apply (@text_printed43 _ f32_half 8 []); lia|intros _; vm_compute; reflexivity]).
Qed.

(** The first pane shows line [0] on row [2] and line [1] on row [3]; the second one
    starts with line [1]. *)
Example C75_case : exists k1 calls1 k2 calls2,
  ev (fun n => @drawn_in spd wenv nat contents43 unit size3 rect3 n (PDoc 0) []) (calls1, Ok tt) /\ rounded_row 6 f32_half k1 /\
  ev (fun n => @drawn_in spd wenv nat contents43 unit size3 rect43 n (PDoc 1) []) (calls2, Ok tt) /\ rounded_row 2 f32_zero k2 /\
  forall i1 i2, i1 < 6 -> i2 < 2 -> (Z.of_nat i1 - Z.of_N k1 = Z.of_nat i2 - Z.of_N k2)%Z ->
    row_picture rect3 calls1 i1 = row_picture rect43 calls2 i2.
Proof.
  destruct (@C75_scroll spd wenv _ nat contents43 unit size3 window3 _ doc3 (s_rep doc3) doc3_valid doc3_unique _ _ _ _ _ _ _ _ _ _ _ _ _ shown43_0 shown43_1 eq_refl eq_refl)
    as (k1 & c1 & k2 & c2 & D1 & K1 & D2 & K2 & _ & H).
  exists k1, c1, k2, c2. refine (conj D1 (conj K1 (conj D2 (conj K2 _)))). intros i1 i2 H1 H2 E. apply H.
  - cbn [min_row max_row rect3]. lia.
  - cbn [min_row max_row rect43]. lia.
  - unfold top_line. cbn [length]. lia.
Qed.

Notation screen43 l r := (@drawn_in spd wenv nat contents43 unit size3 r 1000 (PDoc l) []).
Example C75_run :
  map (row_picture rect3 (fst (screen43 0 rect3))) [3; 4] = map (row_picture rect43 (fst (screen43 1 rect43))) [0; 1] /\
  map (fun p => snd (fst (fst p))) (row_picture rect43 (fst (screen43 1 rect43)) 0) = ([62; 32; 97; 1000; 98; 32; 32]%N : str) /\
  map (fun p => fst (fst (fst p))) (row_picture rect43 (fst (screen43 1 rect43)) 0) = [0; 1; 2; 3; 5; 6; 7]%N.
Proof. vm_compute. repeat split. Qed.

(** The cursor moves in the text: only the reported focus changes. *)
Example C75_case_text : exists k picture, rounded_row 6 f32_half k /\ focus_calls picture = [] /\
  ev (fun n => @drawn_in spd wenv nat contents43 unit size3 rect3 n (PDoc 2) []) (SetFocus (Pos (1 + k) 7) :: picture, Ok tt) /\
  ev (fun n => @drawn_in spd wenv nat contents43 unit size3 rect3 n (PDoc 3) []) (SetFocus (Pos (1 + k) 4) :: picture, Ok tt).
Proof.
  destruct (@C75_same_text spd wenv _ nat contents43 unit size3 window3 _ doc3 (s_rep doc3) doc3_valid doc3_unique _ _ _ _ _ _ _ _ _ _ _ _ [0] 2 0
    (shown43_text (or_introl eq_refl)) (shown43_text (or_intror eq_refl)) eq_refl eq_refl eq_refl eq_refl eq_refl eq_refl)
    as (k & p & K & F & D1 & D2).
  exists k, p. refine (conj K (conj F (conj D1 D2))).
Qed.
