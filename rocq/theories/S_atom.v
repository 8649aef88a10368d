(** Hydrogen-like atoms: the Schroedinger equation, integrals over all radii and
    over the sphere.  Integrals are given by antiderivatives. *)
From Coq Require Import Reals.
Open Scope R_scope.

(** The second derivative of f at t. *)
Definition second (f : R -> R) (t v : R) : Prop :=
  exists g, (exists d, 0 < d /\ forall s, Rabs (s - t) < d -> derivable_pt_lim f s (g s)) /\ derivable_pt_lim g t v.
Definition laplace (psi : R -> R -> R -> R) (x y z v : R) : Prop :=
  exists a b c, second (fun s => psi s y z) x a /\ second (fun s => psi x s z) y b /\ second (fun s => psi x y s) z c /\ v = a + b + c.
Definition dist0 (x y z : R) : R := sqrt (x ^ 2 + y ^ 2 + z ^ 2).
(** In atomic units, at every point except the nucleus of charge Z:
    - 1/2 laplace psi - Z / r psi = e psi *)
Definition bound_state (Z e : R) (psi : R -> R -> R -> R) : Prop :=
  forall x y z, 0 < dist0 x y z -> exists v, laplace psi x y z v /\ - (1 / 2) * v - Z / dist0 x y z * psi x y z = e * psi x y z.

(** The integral of f from 0 to infinity is v. *)
Definition integral_radii (f : R -> R) (v : R) : Prop :=
  exists F, (forall r, derivable_pt_lim F r (f r)) /\ forall eps, 0 < eps -> exists M, forall r, M < r -> Rabs (F r - F 0 - v) < eps.
Definition integral (a b : R) (f : R -> R) (v : R) : Prop :=
  exists F, (forall t, derivable_pt_lim F t (f t)) /\ F b - F a = v.
(** The integral of a function of directions over the unit sphere. *)
Definition integral_sphere (f : R -> R -> R -> R) (v : R) : Prop :=
  exists g, (forall t, integral 0 (2 * PI) (fun p => f (sin t * cos p) (sin t * sin p) (cos t)) (g t)) /\
            integral 0 PI (fun t => sin t * g t) v.
(** The integral over all space, in spherical shells. *)
Definition integral_space (f : R -> R -> R -> R) (v : R) : Prop :=
  exists g, (forall r, 0 < r -> integral_sphere (fun x y z => f (r * x) (r * y) (r * z)) (g r)) /\ integral_radii (fun r => r ^ 2 * g r) v.
