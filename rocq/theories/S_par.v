(** What it means to distribute work and to collect the results. *)
From Verif Require Import Prelude Vec Cx.

(** Consecutive groups that make up the list. *)
Definition cuts {A} (l : list A) (gs : list (list A)) : Prop := concat gs = l.
(** No group is more than one item longer than another. *)
Definition balanced {A} (gs : list (list A)) : Prop :=
  forall a b, In a gs -> In b gs -> (length a <= length b + 1)%nat.

Section Spec.
  Context {E T : Type} {SE : Scalar E} {ST : Scalar T}.
  (** Weight of a state on a list of orbitals. *)
  Definition weight (absq : E -> T) (st : list E) (orbs : list Z) : T :=
    esum (map (fun o => absq (nth (Z.to_nat o) st s0)) orbs).
  (** Density of states of nk x nb levels, level (i, j) with weight w i j, at
      one energy: g_s / (nk nb) sum of the broadened levels. *)
  Definition density (inv : T -> T) (f : T -> T -> T) (nk nb : nat) (level w : nat -> nat -> T) (gs e : T) : T :=
    smul (smul (esum (map (fun i => esum (map (fun j => smul (f e (level i j)) (w i j)) (seq 0 nb))) (seq 0 nk)))
               (inv (sZ (Z.of_nat nk * Z.of_nat nb)))) gs.
End Spec.
