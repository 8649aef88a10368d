(** Bloch waves of a crystal, in Cartesian wave vectors, and what a symmetry of
    the crystal does to them. *)
From Coq Require Import Reals.
From Verif Require Import Prelude Vec Cx M_hop M_pc M_sync S_pc S_lat S_mat.
Open Scope Z_scope.

Definition osum (c : crystal Cplx) (f : Z -> Cplx) : Cplx := esum (map f (zrange (Z.to_nat (x_num c)))).
(** [Rs] lists each cell once and all those with an amplitude from cell 0. *)
Definition range_of (c : crystal Cplx) (Rs : list cell) : Prop :=
  NoDup Rs /\ forall r i j, orbital_of c i -> orbital_of c j -> x_amp c r i j <> Cre 0 -> In r Rs.
(** The cells are translates of each other. *)
Definition lattice_periodic (c : crystal Cplx) : Prop :=
  forall s r r' i j, orbital_of c i -> orbital_of c j -> diff3 (x_place c (cplus s r) i) (x_place c (cplus s r') j) = diff3 (x_place c r i) (x_place c r' j).
(** <i| H |j> in Bloch waves with wave vector q. *)
Definition bloch_of (c : crystal Cplx) (Rs : list cell) (q : point) (i j : Z) : Cplx :=
  esum (map (fun r => Cmul (x_amp c r i j) (Ccis (inner q (diff3 (x_place c r j) (x_place c (0, 0, 0) i))))) Rs).
(** q' is q turned by the motion g. *)
Definition turned (g : point -> point) (q q' : point) : Prop := forall u v, inner q' (diff3 (g u) (g v)) = inner q (diff3 u v).
Definition opposite (q : point) : point := let '(x, y, z) := q in (- x, - y, - z)%R.
(** H v = e v *)
Definition eigen_of (c : crystal Cplx) (H : Z -> Z -> Cplx) (v : Z -> Cplx) (e : Cplx) : Prop :=
  forall i, orbital_of c i -> osum c (fun j => Cmul (H i j) (v j)) = Cmul e (v i).
Definition product (c : crystal Cplx) (v w : Z -> Cplx) : Cplx := osum c (fun i => Cmul (Cconj (v i)) (w i)).
(** The image of a wave under a symmetry with or without conjugation. *)
Definition image (c : crystal Cplx) (anti : bool) (D : Z -> Z -> Cplx) (v : Z -> Cplx) (i : Z) : Cplx :=
  osum c (fun j => Cmul (D i j) (if anti then Cconj (v j) else v j)).
(** q has the products 2 pi k with the lattice vectors. *)
Definition wave (lat : mat R) (k q : point) : Prop :=
  let '(a0, a1, a2) := lat in let '(k0, k1, k2) := k in (inner q a0 = 2 * PI * k0 /\ inner q a1 = 2 * PI * k1 /\ inner q a2 = 2 * PI * k2)%R.
(** Every wave of energy e of H has a partner of the same energy and norm,
    orthogonal to it. *)
Definition paired (c : crystal Cplx) (H : Z -> Z -> Cplx) : Prop :=
  forall v e, eigen_of c H v e -> exists w, eigen_of c H w e /\ product c v w = Cre 0 /\ product c w w = product c v v.
(** H and H' have the same energies. *)
Definition level (c : crystal Cplx) (H : Z -> Z -> Cplx) (e : Cplx) : Prop :=
  exists v, (exists i, orbital_of c i /\ v i <> Cre 0) /\ eigen_of c H v e.
Definition same_levels (c : crystal Cplx) (H H' : Z -> Z -> Cplx) : Prop := forall e, level c H e <-> level c H' e.
Definition coord3 {T} (coord : T -> R) (k : vec T) : point := let '(x, y, z) := k in (coord x, coord y, coord z).
(** The arrays of the cell [p] are up to date (C06). *)
Definition arrays_of {E X W L} (p : pc E X W L) (s : cached E X W L) : Prop :=
  c_pc s = p /\ c_orb s = map (fun o => (position o, energy o)) (orbs p) /\ c_hop s = flatten (hop p).
