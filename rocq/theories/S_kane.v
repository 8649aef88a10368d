(** The Kane-Mele model with Rashba coupling, from the positions of the atoms;
    rotations of space and spin. *)
From Coq Require Import Reals.
From Verif Require Import Prelude Vec Cx S_lat S_mat.
Open Scope Z_scope.

(** Rotation by a third of a turn about the z axis; reflection of y. *)
Definition rot3 (p : point) : point :=
  let '(x, y, z) := p in (- (1 / 2) * x - sqrt 3 / 2 * y, sqrt 3 / 2 * x - 1 / 2 * y, z)%R.
Definition flip_y (p : point) : point := let '(x, y, z) := p in (x, - y, z)%R.

(** Orbitals 2s and 2s+1 are spin up and spin down on site s. *)
Definition site_of (i : Z) : Z := i / 2.
Definition down (i : Z) : bool := Z.odd i.
Definition on_spin (u : bool -> bool -> Cplx) (k i : Z) : Cplx := if site_of k =? site_of i then u (down k) (down i) else Cre 0.
Definition spin_mat (uu ud du dd : Cplx) (a b : bool) : Cplx := if a then (if b then dd else du) else (if b then ud else uu).
(** i times the second Pauli matrix *)
Definition i_sigma_y := spin_mat (Cre 0) (Cre 1) (Cre (-1)) (Cre 0).
(** rotation of a spin by the angle t about z: exp(- i t sigma_z / 2) *)
Definition spin_rot (t : R) := spin_mat (Ccis (- (t / 2))) (Cre 0) (Cre 0) (Ccis (t / 2)).

Definition unit_s := spin_mat (Cre 1) (Cre 0) (Cre 0) (Cre 1).
Definition sigma_x := spin_mat (Cre 0) (Cre 1) (Cre 1) (Cre 0).
Definition sigma_y := spin_mat (Cre 0) (0, -1)%R (0, 1)%R (Cre 0).
Definition sigma_z := spin_mat (Cre 1) (Cre 0) (Cre 0) (Cre (-1)).
Definition times_i (r : R) : Cplx := (0, r)%R.

Definition vx (p : point) : R := let '(x, _, _) := p in x.
Definition vy (p : point) : R := let '(_, y, _) := p in y.
(** z component of the cross product *)
Definition cross_z (p q : point) : R := (vx p * vy q - vy p * vx q)%R.

(** On-site [nu] on one sublattice and [-nu] on the other; between neighbours
    at distance [a] with displacement d: t + i lr (sigma x d)_z / a; between
    second neighbours reached by steps d1 and then d2: i lso 2/sqrt 3
    (d1 x d2)_z sigma_z / a^2; nothing else. *)
Definition kane_mele (c : crystal Cplx) (a t lso lr nu : R) : Prop :=
  forall r i j, orbital_of c i -> orbital_of c j ->
  let p := x_place c (0, 0, 0) i in let q := x_place c r j in
  let amp := x_amp c r i j in
  let pauli (s : bool -> bool -> Cplx) := s (down i) (down j) in
  (p = q -> amp = Cmul (Cre (if site_of i =? 0 then nu else - nu)%R) (pauli unit_s)) /\
  (gap p q = a -> amp = Cadd (Cmul (Cre t) (pauli unit_s))
     (Cmul (times_i (lr / a)) (Csub (Cmul (Cre (vy (diff3 q p))) (pauli sigma_x)) (Cmul (Cre (vx (diff3 q p))) (pauli sigma_y))))) /\
  (forall s k, orbital_of c k -> let m := x_place c s k in gap p m = a -> gap m q = a -> p <> q ->
     amp = Cmul (times_i (lso * (2 / sqrt 3) * cross_z (diff3 m p) (diff3 q m) / (a * a))%R) (pauli sigma_z)) /\
  (p <> q -> gap p q <> a -> (forall s k, orbital_of c k -> ~ (gap p (x_place c s k) = a /\ gap (x_place c s k) q = a)) ->
     amp = Cre 0).
