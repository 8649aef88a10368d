(** Model of the broadening functions and of the energy grid of calc_dos
    (tbplas/diagonal/base.py) over the exact reals. *)
From Coq Require Import Reals.
From Verif Require Import Prelude Vec Cx M_par L_gersh.
Local Open Scope R_scope.

(** base.py:20-31 gaussian, 34-45 lorentzian, for one x.  A width of 0 divides
    by zero; the theorems assume a positive width. *)
Definition gaussian (sigma x mu : R) : R :=
  let part_a := 1 / (sigma * sqrt (2 * PI)) in
  let part_b := exp (- ((x - mu) * (x - mu)) / (2 * (sigma * sigma))) in
  part_a * part_b.
Definition lorentzian (sigma x mu : R) : R :=
  let part_a := 1 / (PI * sigma) in
  let part_b := sigma * sigma / ((x - mu) * (x - mu) + sigma * sigma) in
  part_a * part_b.
(** base.py:434-439 *)
Inductive basis := Gaussian | Lorentzian | OtherName.
Definition basis_func (b : basis) (sigma : R) : option (R -> R -> R) :=
  match b with Gaussian => Some (gaussian sigma) | Lorentzian => Some (lorentzian sigma) | OtherName => None end.
(** Python int() of a float. *)
Definition Rtrunc (x : R) : Z := if Rleb 0 x then Int_part x else (- Int_part (- x))%Z.
