(** Specification of broadened levels.  No model definitions. *)
From Coq Require Import Reals.
From Verif Require Import Prelude.
Local Open Scope R_scope.

Definition tends_up (N : R -> R) (l : R) : Prop := forall eps, 0 < eps -> exists M, forall e, M <= e -> Rabs (N e - l) < eps.
Definition tends_down (N : R -> R) (l : R) : Prop := forall eps, 0 < eps -> exists M, forall e, e <= M -> Rabs (N e - l) < eps.
(** N counts states: its slope is the density, it starts from nothing and ends
    at [total]. *)
Definition counts (d N : R -> R) (total : R) : Prop :=
  (forall e, derivable_pt_lim N e (d e)) /\ tends_down N 0 /\ tends_up N total.
(** Smallest and largest of a list. *)
Definition smallest (m : R) (l : list R) : Prop := In m l /\ forall x, In x l -> m <= x.
Definition largest (m : R) (l : list R) : Prop := In m l /\ forall x, In x l -> x <= m.
(** All levels *)
Definition all_levels (nk nb : nat) (level : nat -> nat -> R) : list R :=
  flat_map (fun i => map (level i) (seq 0 nb)) (seq 0 nk).
