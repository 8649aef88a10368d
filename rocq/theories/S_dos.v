(** Specification of the density of states of a correlation function.  No model
    definitions. *)
From Coq Require Import Reals.
From Verif Require Import Prelude Vec Cx S_prop.
Local Open Scope R_scope.

Definition modulus (z : Cplx) : R := sqrt (fst z * fst z + snd z * snd z).
(** C(tau) for times of both signs: windowed, with C(-tau) the conjugate. *)
Definition two_sided (w : Z -> R) (c : Z -> Cplx) (tau : Z) : Cplx :=
  if (tau =? 0)%Z then c 0%Z
  else if (0 <? tau)%Z then Cmul (Cre (w (tau - 1)%Z)) (c tau)
  else Cmul (Cre (w (- tau - 1)%Z)) (Cconj (c (- tau)%Z)).
(** Times -(n - 1) .. n. *)
Definition times (n : nat) : list Z := map (fun j => Z.of_nat j - (Z.of_nat n - 1))%Z (seq 0 (2 * n)).
(** Sum over all times of C(tau) exp(i E tau 2 pi / range). *)
Definition spectrum (n : nat) (range : R) (w : Z -> R) (c : Z -> Cplx) (e : R) : Cplx :=
  esum (map (fun tau => Cmul (two_sided w c tau) (Ccis (e * IZR tau * (2 * PI / range)))) (times n)).
(** 2n energies from -range/2 in steps of range / 2n. *)
Definition level (n : nat) (range : R) (k : nat) : R := (INR k - INR n) * (range / INR (2 * n)).
