(** Discrete Fourier transform. *)
From Coq Require Import Reals.
From Verif Require Import Prelude Vec Cx S_prop.
Local Open Scope R_scope.

(** Sum over j of x_j exp(sgn 2 pi i j k / n). *)
Definition dft (sgn : Z) (n : nat) (x : nat -> Cplx) (k : nat) : Cplx :=
  sum_to n (fun j => Cmul (x j) (Ccis (IZR sgn * (2 * PI * INR j * INR k / INR n)))).
