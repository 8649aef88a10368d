(** Specification vocabulary for Cartesian positions: places in space, no
    model definitions. *)
From Coq Require Import Reals ZArith List.
From Verif Require Import Vec S_lat.
Import ListNotations.
Local Open Scope R_scope.

(** The point with the given coordinates in units of [u] nm; two coordinates
    lie in the plane z = 0. *)
Definition point_in (u : R) (p : list R) : point := (u * nth 0 p 0, u * nth 1 p 0, u * nth 2 p 0).
(** Index k of a list of n items names slot i; negative indices count from
    the end. *)
Definition names (n : nat) (k : Z) (i : nat) : Prop :=
  (i < n)%nat /\ (Z.of_nat i = k \/ Z.of_nat i = k + Z.of_nat n)%Z.
(** l' is l except at slot i, which holds x. *)
Definition replaced {A} (l l' : list A) (i : nat) (x : A) : Prop :=
  length l' = length l /\ forall j, (j < length l)%nat -> nth_error l' j = if Nat.eqb j i then Some x else nth_error l j.
(** The image of a point in the unit cell r. *)
Definition image (a0 a1 a2 : point) (r : Z * Z * Z) (p : point) : point :=
  let '(x, y, z) := r in affine a0 a1 a2 p (IZR x, IZR y, IZR z).
Definition times (s : R) (p : point) : point := let '(x, y, z) := p in (s * x, s * y, s * z).
