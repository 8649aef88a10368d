(** Specification of occupations, traces and the Fermi operator.  No model
    definitions. *)
From Coq Require Import Reals.
From Verif Require Import Prelude Vec Cx S_prop.

(** Fermi-Dirac occupation *)
Definition fermi (beta mu e : R) : R := (1 / (1 + exp (beta * (e - mu))))%R.

(** Trace of an operator on vectors of n entries *)
Section Trace.
  Context {E : Type} {SE : Scalar E} (conj : E -> E).
  Definition unit_vec (k : nat) : nat -> E := fun i => if Nat.eqb i k then s1 else s0.
  Definition trace (n : nat) (A : (nat -> E) -> nat -> E) : E := sum_to n (fun k => inner conj n (unit_vec k) (A (unit_vec k))).
End Trace.

(** A Chebyshev series at cos theta: T_k (cos theta) = cos (k theta). *)
Definition cheb_series (c : list R) (theta : R) : R := esum (map (fun k => nth k c 0%R * cos (INR k * theta))%R (seq 0 (length c))).

(** Where the series is cut: after the first of two consecutive terms smaller
    than eps, or not at all. *)
Definition pair_below (eps : R) (c : list R) (i : nat) : Prop :=
  (S i < length c)%nat /\ (Rabs (nth i c 0) < eps)%R /\ (Rabs (nth (S i) c 0) < eps)%R.
Definition cut_at (eps : R) (c : list R) (k : nat) : Prop :=
  (k = length c /\ forall i, ~ pair_below eps c i) \/
  (exists i, k = S i /\ pair_below eps c i /\ forall j, (j < i)%nat -> ~ pair_below eps c j).

(** Chebyshev coefficients of a function on the grid cos(2 pi j / 2n), damped
    with the Jackson kernel; the first one is halved. *)
Definition damping (n k : nat) : R :=
  let q := (PI / INR n)%R in
  if Nat.eqb k 0 then (1 / 2)%R else ((INR (n - k) * cos (q * INR k) + sin (q * INR k) * cos q / sin q) / INR n)%R.
Definition grid_coef (n : nat) (f : R -> R) (k : nat) : R :=
  (damping n k / INR n * esum (map (fun j => let t := 2 * PI * INR j / INR (2 * n) in f (cos t) * cos (INR k * t)) (seq 0 (2 * n))))%R.
