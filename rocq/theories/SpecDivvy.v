(** Vocabulary for dividing space between panes (C28-C30, C37). *)
From Verif Require Export Divvy.

Set Implicit Arguments.

Definition total (l : list N) : N := fold_right N.add 0%N l.

(** The space asked for by the Fixed panes. *)
Fixpoint fixed_total (sizes : list pane_size) : N :=
  match sizes with
  | [] => 0
  | Fixed k :: s => k + fixed_total s
  | _ :: s => fixed_total s
  end%N.

(** The weights of the Proportional panes. *)
Fixpoint weight_total (sizes : list pane_size) : N :=
  match sizes with
  | [] => 0
  | Proportional h :: s => h + weight_total s
  | _ :: s => weight_total s
  end%N.

Fixpoint dynamic_count (sizes : list pane_size) : nat :=
  match sizes with
  | [] => 0
  | Dynamic :: s => S (dynamic_count s)
  | _ :: s => dynamic_count s
  end.

(** What the Fixed panes leave, and what the Dynamic panes then leave. *)
Definition after_fixed (available : N) (sizes : list pane_size) : N := (available - fixed_total sizes)%N.
Definition after_dynamic (available : N) (sizes : list pane_size) (dyn : list N) : N :=
  (after_fixed available sizes - total dyn)%N.

(** The space and the weights are small enough for the 64-bit products, and if
    there are Proportional panes, some weight is positive. *)
Definition divisible (available : N) (sizes : list pane_size) : Prop :=
  (available < USIZE)%N /\ (available * weight_total sizes < USIZE)%N /\ (weight_total sizes < USIZE)%N /\
  ((exists h, In (Proportional h) sizes) -> (0 < weight_total sizes)%N).
