(** What pictures of fields show. *)
From Coq Require Import Reals Lra Lia List ZArith.
Import ListNotations.
Local Open Scope R_scope.

(** The smallest and the largest of some numbers. *)
Definition bounds (l : list R) (lo hi : R) : Prop := In lo l /\ In hi l /\ forall x, In x l -> lo <= x <= hi.

(** An image of [m] rows and [n] columns over the box from (x0, y0) to
    (x1, y1), counted from the lower left corner: pixel (r, c) covers the points
    of its rectangle. *)
Definition covers (x0 x1 y0 y1 : R) (m n r c : nat) (p : R * R) : Prop :=
  x0 + INR c * ((x1 - x0) / INR n) <= fst p <= x0 + INR (S c) * ((x1 - x0) / INR n) /\
  y0 + INR r * ((y1 - y0) / INR m) <= snd p <= y0 + INR (S r) * ((y1 - y0) / INR m).
(** Every pixel shows the value of the field at a point which it covers. *)
Definition shows (x0 x1 y0 y1 : R) (rows : list (list (option R))) (m n : nat) (f : R * R -> option R) : Prop :=
  length rows = m /\ (forall row, In row rows -> length row = n) /\
  forall r c v, (r < m)%nat -> (c < n)%nat -> nth c (nth r rows []) None = v -> exists p, covers x0 x1 y0 y1 m n r c p /\ v = f p.

(** The point of the plane at angle [t] and radius [r]. *)
Definition polar_point (q : R * R) : R * R := (snd q * cos (fst q), snd q * sin (fst q)).
