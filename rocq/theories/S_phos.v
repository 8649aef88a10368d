(** Symmetries which only permute the orbitals, one orbital on each atom. *)
From Coq Require Import Reals.
From Verif Require Import Prelude Vec Cx S_lat S_mat.
Open Scope Z_scope.

(** The matrix taking orbital i to orbital f i. *)
Definition perm_mat {E} {SE : Scalar E} (f : Z -> Z) (k i : Z) : E := if k =? f i then s1 else s0.
(** The motion g is a symmetry permuting the orbitals. *)
Definition permuted_by (c : crystal Cplx) (g : point -> point) : Prop :=
  exists A B shift f, symmetry Cconj c false g A B shift (perm_mat f).
(** Inversion in the middle between two points; the reflection of x; the
    reflection of z which also takes the origin to a point. *)
Definition invert (u v p : point) : point :=
  let '(a, b, c) := u in let '(x, y, z) := v in let '(p1, p2, p3) := p in (a + x - p1, b + y - p2, c + z - p3)%R.
Definition flip_x (p : point) : point := let '(x, y, z) := p in (- x, y, z)%R.
Definition glide (u p : point) : point := let '(a, b, c) := u in let '(x, y, z) := p in (a + x, b + y, c - z)%R.
