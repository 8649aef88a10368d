(** Specification vocabulary for lattices, coordinates, rotations and paths:
    plain Euclidean geometry, no model definitions. *)
From Coq Require Import Reals ZArith List.
From Verif Require Import Vec.
Import ListNotations.
Local Open Scope R_scope.

Notation point := (vec R).
Definition inner (u v : point) : R := let '(a, b, c) := u in let '(x, y, z) := v in a * x + b * y + c * z.
Definition len (u : point) : R := sqrt (inner u u).
Definition diff3 (u v : point) : point := let '(a, b, c) := u in let '(x, y, z) := v in (a - x, b - y, c - z).
Definition gap (u v : point) : R := len (diff3 u v).
(** x0 a0 + x1 a1 + x2 a2 + o. *)
Definition affine (a0 a1 a2 o x : point) : point :=
  let '(x0, x1, x2) := x in
  let '(p, q, r) := a0 in let '(s, t, u) := a1 in let '(v, w, y) := a2 in let '(o0, o1, o2) := o in
  (x0 * p + x1 * s + x2 * v + o0, x0 * q + x1 * t + x2 * w + o1, x0 * r + x1 * u + x2 * y + o2).
(** The vectors span space: no non-trivial combination vanishes. *)
Definition independent (a0 a1 a2 : point) : Prop :=
  forall x, affine a0 a1 a2 (0, 0, 0) x = (0, 0, 0) -> x = (0, 0, 0).
(** p + t (q - p). *)
Definition along (p q : point) (t : R) : point :=
  let '(a, b, c) := p in let '(x, y, z) := q in (a + t * (x - a), b + t * (y - b), c + t * (z - c)).

(** Right-handed rotations about a line through [o] along x, y, z. *)
Inductive line := Lx | Ly | Lz.
Definition turn (l : line) (t : R) (o p : point) : point :=
  let '(o0, o1, o2) := o in let '(x, y, z) := diff3 p o in
  match l with
  | Lx => (x + o0, y * cos t - z * sin t + o1, y * sin t + z * cos t + o2)
  | Ly => (z * sin t + x * cos t + o0, y + o1, z * cos t - x * sin t + o2)
  | Lz => (x * cos t - y * sin t + o0, x * sin t + y * cos t + o1, z + o2)
  end.

(** Lengths a, b, c and angles (degrees) alpha = <(a1,a2), beta = <(a2,a0),
    gamma = <(a0,a1). *)
Definition rad (d : R) : R := d / 180 * PI.
Definition has_shape (a b c alpha beta gamma : R) (a0 a1 a2 : point) : Prop :=
  len a0 = a /\ len a1 = b /\ len a2 = c /\
  inner a1 a2 = b * c * cos (rad alpha) /\ inner a2 a0 = c * a * cos (rad beta) /\ inner a0 a1 = a * b * cos (rad gamma).
(** Each component is kept, or is below eps and replaced by zero. *)
Definition rounded1 (eps x' x : R) : Prop := x' = x \/ (x' = 0 /\ Rabs x < eps).
Definition rounded (eps : R) (u v : point) : Prop :=
  let '(a, b, c) := u in let '(x, y, z) := v in rounded1 eps a x /\ rounded1 eps b y /\ rounded1 eps c z.
Definition near (eps : R) (u v : point) : Prop :=
  let '(a, b, c) := u in let '(x, y, z) := v in Rabs (a - x) < eps /\ Rabs (b - y) < eps /\ Rabs (c - z) < eps.

Definition sumZ (l : list Z) : Z := fold_right Z.add 0%Z l.
