(** Specification of twisted bilayers.  No model definitions. *)
From Coq Require Import Reals.
From Verif Require Import Prelude Vec S_lat.
Local Open Scope R_scope.

(** Hexagonal lattice with two vectors of length a at 60 degrees. *)
Definition hexagonal (a c : R) : mat R := ((a, 0, 0), (a / 2, a * sqrt 3 / 2, 0), (0, 0, c)).
(** A lattice turned about the z axis. *)
Definition turned (t : R) (l : mat R) : mat R :=
  let '(a, b, c) := l in (turn Lz t (0, 0, 0) a, turn Lz t (0, 0, 0) b, turn Lz t (0, 0, 0) c).
(** Integer combinations of lattice vectors. *)
Definition combo (x y z : Z) (l : mat R) : point := let '(a, b, c) := l in affine a b c (0, 0, 0) (IZR x, IZR y, IZR z).
Definition combos (m : mat Z) (l : mat R) : mat R :=
  let '((a, b, c), (d, e, f), (g, h, i)) := m in (combo a b c l, combo d e f l, combo g h i l).
(** The coincidence lattice of the pair (n, m), seen from both layers. *)
Definition lower (n m : Z) : mat Z := ((n, m, 0), (- m, n + m, 0), (0, 0, 1))%Z.
Definition upper (n m : Z) : mat Z := ((m, n, 0), (- n, n + m, 0), (0, 0, 1))%Z.
(** Whole numbers *)
Definition whole (v : point) : Prop := exists x y z : Z, v = (IZR x, IZR y, IZR z).
