(** Specification of reshaped cells. *)
From Verif Require Import Prelude Vec Qs M_hop M_pc S_pc S_index S_super S_build.

(** Integer combinations of the new lattice vectors. *)
Definition zmat (n : Z * Z * Z) (m : mat Z) : Z * Z * Z := vmat n m.
Definition qmat (m : mat Z) : mat Qc := let '(a, b, c) := m in (vZ a, vZ b, vZ c).
Definition zdet (m : mat Z) : Z :=
  let '((a, b, c), (d, e, f), (g, h, i)) := m in
  a * (e * i - f * h) - b * (d * i - f * g) + c * (d * h - e * g).
Definition plus3 (u v : Z * Z * Z) : Z * Z * Z := let '(a, b, c) := u in let '(x, y, z) := v in (a + x, b + y, c + z).
Definition minus3 (u v : Z * Z * Z) : Z * Z * Z := let '(a, b, c) := u in let '(x, y, z) := v in (a - x, b - y, c - z).

(** Sites in the same translational class of the new lattice. *)
Definition equiv (m : mat Z) (s s' : site) : Prop :=
  orb_at s' = orb_at s /\ exists n, cell_at s = plus3 (cell_at s') (zmat n m).

(** Each class has exactly one representative. *)
Definition representatives (m : mat Z) (norb : Z) (sites : list site) : Prop :=
  NoDup sites /\ (forall s, In s sites -> 0 <= orb_at s < norb) /\
  (forall s, 0 <= orb_at s < norb -> exists s', In s' sites /\ equiv m s s') /\
  (forall s s', In s sites -> In s' sites -> equiv m s s' -> s = s').

(** Cell index, in the original crystal, of the ket at [s'] of repetition [n]. *)
Definition unfold_mat (m : mat Z) (n : Z * Z * Z) (s s' : site) : Z * Z * Z :=
  minus3 (plus3 (cell_at s') (zmat n m)) (cell_at s).
