(** Model of src/pane/divvy.rs and of [PaneSize] (src/pane/pane_notation.rs). *)
From Verif Require Export Machine.

Set Implicit Arguments.

(** pane_notation.rs:36-58 [PaneSize]. *)
Inductive pane_size : Type :=
| Fixed (n : N)
| Dynamic
| Proportional (weight : N).

Section Divvy.
Context {X : Type} (ovf : bool).

(** divvy.rs:4-11 [Divvier]. *)
Record divvier : Type := Divvier {
  dv_sizes : list pane_size; dv_alloc : list N; dv_cookies : N }.

(** divvy.rs:62-70 [allocate_fixed]; the subtraction at 66 cannot overflow
    because of the [min] at 65.  [allocations[i]] is position [i] of the second
    list. *)
Fixpoint allocate_fixed (sizes : list pane_size) (alloc : list N) (cookies : N) : list N * N :=
  match sizes, alloc with
  | Fixed hunger :: sizes', _ :: alloc' =>
      let given := N.min cookies hunger in
      let '(al, c) := allocate_fixed sizes' alloc' (cookies - given)%N in
      (given :: al, c)
  | _ :: sizes', a :: alloc' =>
      let '(al, c) := allocate_fixed sizes' alloc' cookies in (a :: al, c)
  | _, _ => (alloc, cookies)
  end.

(** divvy.rs:15-23 [Divvier::new]. *)
Definition divvier_new (available : N) (sizes : list pane_size) : divvier :=
  let '(al, c) := allocate_fixed sizes (repeat 0%N (length sizes)) available in
  Divvier sizes al c.

(** divvy.rs:27-29 [remaining]. *)
Definition remaining (d : divvier) : N := dv_cookies d.

(** divvy.rs:45-51, the [for] loop of [allocate_dynamic].  Returns the
    allocations and what is left of [sizes]. *)
Fixpoint give_dynamic (sizes : list pane_size) (alloc : list N) (given : list N)
  : res X (list N * list N) :=
  match sizes, alloc with
  | Dynamic :: sizes', _ :: alloc' =>
      match given with
      | [] => Panic PExpect
      | g :: given' => '(al, rest) <- give_dynamic sizes' alloc' given' ;; Ok (g :: al, rest)
      end
  | _ :: sizes', a :: alloc' =>
      '(al, rest) <- give_dynamic sizes' alloc' given ;; Ok (a :: al, rest)
  | _, _ => Ok (alloc, given)
  end.

(** divvy.rs:40-57 [allocate_dynamic]. *)
Definition allocate_dynamic (d : divvier) (given : list N) : res X divvier :=
  sum <- sumM USIZE ovf given ;;
  if (sum <=? dv_cookies d)%N then
    '(al, rest) <- give_dynamic (dv_sizes d) (dv_alloc d) given ;;
    match rest with
    | [] => Ok (Divvier (dv_sizes d) al (dv_cookies d - sum)%N)
    | _ => Panic PAssert
    end
  else Panic PAssert.

(** divvy.rs:77-82, collecting the weights. *)
Fixpoint weights (sizes : list pane_size) : list N :=
  match sizes with
  | [] => []
  | Proportional h :: sizes' => h :: weights sizes'
  | _ :: sizes' => weights sizes'
  end.

(** [slice::sort_by] with [r2.cmp(r1)] (divvy.rs:101): a stable sort by
    decreasing second component. *)
Fixpoint insert_desc (x : nat * N) (l : list (nat * N)) : list (nat * N) :=
  match l with
  | [] => [x]
  | y :: l' => if (snd y <=? snd x)%N then x :: l else y :: insert_desc x l'
  end.
Fixpoint sort_desc (l : list (nat * N)) : list (nat * N) :=
  match l with
  | [] => []
  | x :: l' => insert_desc x (sort_desc l')
  end.

(** [v[i] += 1] (divvy.rs:105). *)
Fixpoint increment (i : nat) (v : list N) : res X (list N) :=
  match i, v with
  | _, [] => Panic PIndex
  | O, a :: v' => a <- addM USIZE ovf a 1%N ;; Ok (a :: v')
  | S i', a :: v' => v' <- increment i' v' ;; Ok (a :: v')
  end.
Fixpoint increment_all (is : list nat) (v : list N) : res X (list N) :=
  match is with
  | [] => Ok v
  | i :: is' => v <- increment i v ;; increment_all is' v
  end.

(** divvy.rs:107-114, the last [for] loop. *)
Fixpoint give_proportional (sizes : list pane_size) (alloc : list N) (cookies : N) (given : list N)
  : res X (list N * N) :=
  match sizes, alloc with
  | Proportional _ :: sizes', _ :: alloc' =>
      match given with
      | [] => Panic PExpect
      | g :: given' =>
          cookies <- subM USIZE ovf cookies g ;;
          '(al, c) <- give_proportional sizes' alloc' cookies given' ;;
          Ok (g :: al, c)
      end
  | _ :: sizes', a :: alloc' =>
      '(al, c) <- give_proportional sizes' alloc' cookies given ;; Ok (a :: al, c)
  | _, _ => Ok (alloc, cookies)
  end.

(** divvy.rs:76-115 [allocate_proportional]. *)
Definition allocate_proportional (d : divvier) : res X divvier :=
  let hungers := weights (dv_sizes d) in
  total <- sumM USIZE ovf hungers ;;
  base <- mapM (fun h => x <- mulM USIZE ovf (dv_cookies d) h ;; divM x total) hungers ;;
  allocated <- sumM USIZE ovf base ;;
  leftover <- subM USIZE ovf (dv_cookies d) allocated ;;
  rems <- mapM (fun h => x <- mulM USIZE ovf (dv_cookies d) h ;; modM x total) hungers ;;
  let sorted := sort_desc (combine (seq 0 (length rems)) rems) in
  given <- increment_all (map fst (firstn (N.to_nat leftover) sorted)) base ;;
  '(al, c) <- give_proportional (dv_sizes d) (dv_alloc d) (dv_cookies d) given ;;
  Ok (Divvier (dv_sizes d) al c).

(** divvy.rs:34-38 [finish]. *)
Definition finish (d : divvier) (dynamic_sizes : list N) : res X (list N) :=
  d <- allocate_dynamic d dynamic_sizes ;;
  d <- allocate_proportional d ;;
  Ok (dv_alloc d).

(** Construct, then finish. *)
Definition divvy (available : N) (sizes : list pane_size) (dynamic_sizes : list N) : res X (list N) :=
  finish (divvier_new available sizes) dynamic_sizes.

End Divvy.
