(** Concrete cases for C73. *)
From Verif Require Import Properties41 Properties35Ex Properties18Ex Properties2Ex.
From Coq Require Import String.

Set Implicit Arguments.

#[local] Existing Instance debug_env.

(** A run of the model that ends shows what is printed. *)
Lemma shown_printed n (doc : sdoc) w path ft (P : list line -> focused_line -> list line -> Prop) :
  match pretty_print n (doc : D) w path ft None with
  | Ok (up, fl, down) =>
      match collect n (up_next n) up, collect n (down_next n) down with
      | Ok ups, Ok downs => P ups fl downs
      | _, _ => False
      end
  | Fail _ => False
  end -> exists ups fl downs, printed (doc : D) w path ft None ups fl downs /\ P ups fl downs.
Proof.
  destruct (pretty_print n _ _ _ _ _) as [[[up fl] down]|] eqn:E1; [|contradiction].
  destruct (collect n (up_next n) up) as [ups|] eqn:E2; [|contradiction]. destruct (collect n (down_next n) down) as [downs|] eqn:E3; [|contradiction].
  intros H. exists ups, fl, downs. split; [|exact H]. exists up, down.
  assert (G : forall next p, (forall m p, n <= m -> fle (next n p) (next m p)) -> forall m, n <= m -> fle (collect n (next n) p) (collect m (next m) p)).
  { intros next p Hn m Hm. unfold collect. apply fle_loop; [exact Hm|]. intros [q acc]. unfold collect_body. apply fle_bind; [apply Hn; exact Hm|]. intros. apply fle_refl. }
  split; [|split].
  - exact (fle_ev (fun n => pretty_print n (doc : D) w path ft None) (n := n) (fun m Hm => pretty_print_mono Hm _ _ _ _ _) E1).
  - exact (fle_ev (fun n => collect n (up_next n) up) (n := n) (G up_next up (fun m p Hm => print_prev_line_mono Hm p)) E2).
  - exact (fle_ev (fun n => collect n (down_next n) down) (n := n) (G down_next down (fun m p Hm => print_next_line_mono Hm p)) E3).
Qed.

(** The first "kiwi" of "<kiwi>; <kiwi>". *)
Example C73_case_seek : compares (fun n => assert_pp_seek n (twice : D) 40 [0; 0] [codes "<(kiwi)>; <kiwi>"]) (codes "<(kiwi)>; <kiwi>") (codes "<(kiwi)>; <kiwi>").
Proof. exact (C73_seek twice_rep twice_valid twice_unique 40 twice_layout kiwi_first [codes "<(kiwi)>; <kiwi>"]). Qed.
Example C73_case_seek_passes : ev (fun n => assert_pp_seek n (twice : D) 40 [0; 0] [codes "<(kiwi)>; <kiwi>"]) (Ok tt).
Proof. apply C73_case_seek. reflexivity. Qed.
Example C73_case_seek_second : ev (fun n => assert_pp_seek n (twice : D) 40 [0; 0] [codes "<kiwi>; <(kiwi)>"]) (Panic PAssert).
Proof.
  apply (C73_seek twice_rep twice_valid twice_unique 40 twice_layout kiwi_first [codes "<kiwi>; <(kiwi)>"]). vm_compute. discriminate.
Qed.

(** A child it does not have. *)
Example C73_case_invalid : ev (fun n => assert_pp_seek n (twice : D) 40 [1] []) (Panic PExpect).
Proof.
  refine (C73_seek_invalid twice_rep twice_valid twice_unique 40 twice_layout twice_root (i := 1) [] [] _).
  intros (x & j & y & E & Ho). assert (H : no_enter [] es2 [] 1 = true) by (vm_compute; reflexivity).
  exact (@no_enter_ok _ _ _ _ H x j y E Ho).
Qed.

(** Around the word "kiwi" of
<<
[
  apple,
  [kiwi, fig],
  pear,
  []
]
>> *)
Example kiwi_printed : exists ups fl downs, printed (ex_doc : D) 16 [1; 0] FEnd None ups fl downs /\
  map segs_to_string (rev ups ++ [left_segments fl]) = map codes ["["; "  apple,"; "  [kiwi"]%string /\
  map segs_to_string (right_segments fl :: downs) = map codes [", fig],"; "  pear,"; "  []"; "]"]%string /\
  rev (firstn 2 (map segs_to_string ups)) ++ focused_to_string fl :: firstn 1 (map segs_to_string downs) =
    map codes ["["; "  apple,"; "  [kiwi, fig],"; "  pear,"]%string.
Proof. apply shown_printed with (n := 200). vm_compute. repeat split. Qed.

Example C73_case_focus :
  ev (fun n => assert_pp_focus n (ex_doc : D) 16 [1; 0] FEnd (map codes ["["; "  apple,"; "  [kiwi|, fig],"; "  pear,"; "  []"; "]"]%string)) (Ok tt) /\
  ev (fun n => assert_pp_focus n (ex_doc : D) 16 [1; 0] FEnd (map codes ["["; "  apple,"; "  [|kiwi, fig],"; "  pear,"; "  []"; "]"]%string)) (Panic PAssert).
Proof.
  destruct kiwi_printed as (ups & fl & downs & H & E1 & E2 & E3).
  split; apply (C73_focus H); rewrite E1, E2; vm_compute; [reflexivity|discriminate].
Qed.

(** Four rows: two above, and one below. *)
Example C73_case_region :
  ev (fun n => assert_pp_region n (ex_doc : D) 16 [1; 0] FEnd 4 (map codes ["["; "  apple,"; "  [kiwi, fig],"; "  pear,"]%string)) (Ok tt) /\
  ev (fun n => assert_pp_region n (ex_doc : D) 16 [1; 0] FEnd 4 (map codes ["  apple,"; "  [kiwi, fig],"; "  pear,"; "  []"]%string)) (Panic PAssert).
Proof.
  destruct kiwi_printed as (ups & fl & downs & H & E1 & E2 & E3).
  split; apply (C73_region H); try lia; change (4 / 2) with 2; change (2 - 1) with 1; rewrite E3; vm_compute; [reflexivity|discriminate].
Qed.
Example C73_case_small :
  ev (fun n => assert_pp_region n (ex_doc : D) 16 [1; 0] FEnd 1 []) (Panic POverflow).
Proof. destruct kiwi_printed as (ups & fl & downs & H & _). apply (C73_region_small H); [lia|reflexivity]. Qed.

(** On several lines, by running it. *)
Example C73_case_lines :
  assert_pp_seek 100 (doc52 : D) 5 [] [codes "({}"; codes "abc)"] = Ok tt /\
  assert_pp_seek 100 (doc52 : D) 5 [] [codes "({})"; codes "abc"] = Panic PAssert /\
  assert_pp_focus 100 (doc52 : D) 5 [0] FEnd [codes "{}"; codes "abc|"] = Ok tt /\
  assert_pp_focus 100 (doc52 : D) 5 [0] FStart [codes "{}"; codes "abc|"] = Panic PAssert.
Proof. repeat split; vm_compute; reflexivity. Qed.
