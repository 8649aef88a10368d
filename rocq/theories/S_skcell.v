(** Cells of s, p and d orbitals with two-centre hoppings between neighbours,
    and what it means that orbitals move like atomic orbitals. *)
From Coq Require Import Reals.
From Verif Require Import Prelude Vec Cx S_lat S_mat S_neigh S_sk.
Open Scope Z_scope.

(** The unit vector along w. *)
Definition direction (w : point) : point := let '(x, y, z) := w in (x / len w, y / len w, z / len w)%R.
(** Orbital i of the crystal is of the kind os i.  The amplitudes are the
    energies on site, and the two-centre integrals between different places not
    farther apart than [cut], in cells within [m]; all others vanish. *)
Definition sk_crystal (c : crystal Cplx) (os : Z -> orb) (eng : Z -> Cplx) (V : R -> sk_par) (m : Z * Z * Z) (cut : R) : Prop :=
  forall r i j, orbital_of c i -> orbital_of c j ->
    let w := diff3 (x_place c r j) (x_place c (0, 0, 0) i) in
    let bonded := within m r /\ (0 < len w <= cut)%R in
    (r = (0, 0, 0) /\ i = j -> x_amp c r i j = eng i) /\
    (bonded -> x_amp c r i j = two_centre (os i) (os j) (direction w) (V (len w))) /\
    (~ (r = (0, 0, 0) /\ i = j) -> ~ bonded -> x_amp c r i j = Cre 0).
(** The angular part of an orbital. *)
Definition value (o : orb) (v : point) : R := match o with OS => 1%R | OP e => dot3 e v | OD D => quad D v end.
(** The turn Q takes orbital i to the combination of orbitals in column i of d. *)
Definition moves_like (n : Z) (os : Z -> orb) (Q : nat -> nat -> R) (d : Z -> Z -> R) : Prop :=
  forall i v, 0 <= i < n -> value (rot_orb Q (os i)) v = esum (map (fun k => d k i * value (os k) v)%R (zrange (Z.to_nat n))).
(** The motion of space with linear part Q. *)
Definition motion_of (Q : nat -> nat -> R) (t : point) (p : point) : point :=
  let '(x, y, z) := rot Q p in let '(a, b, c) := t in (x + a, y + b, z + c)%R.
(** The motion takes places to places, d tells where each orbital goes. *)
Definition places_move (c : crystal Cplx) (g : point -> point) (A B : cell -> cell) (shift : Z -> cell) (d : Z -> Z -> R) : Prop :=
  (forall r q, A (cplus r q) = cplus (A r) (A q)) /\ (forall r, A (B r) = r /\ B (A r) = r) /\
  (forall r i k, orbital_of c i -> orbital_of c k -> d k i <> 0%R -> g (x_place c r i) = x_place c (cplus (A r) (shift i)) k) /\
  (forall i j, orbital_of c i -> orbital_of c j -> esum (map (fun k => d k i * d k j)%R (zrange (Z.to_nat (x_num c)))) = if i =? j then 1%R else 0%R).
(** The cells that are searched are taken to such cells. *)
Definition range_kept (c : crystal Cplx) (A : cell -> cell) (shift : Z -> cell) (m : Z * Z * Z) (cut : R) : Prop :=
  forall r i j, orbital_of c i -> orbital_of c j -> (0 < gap (x_place c r j) (x_place c (0, 0, 0)%Z i) <= cut)%R ->
    (within m r <-> within m (cplus (A r) (cminus (shift j) (shift i)))).
(** Different translations are different. *)
Definition translations (c : crystal Cplx) : Prop :=
  (forall s r i, orbital_of c i -> x_place c r i = x_place c s i -> r = s) /\
  (forall s r r' i j, orbital_of c i -> orbital_of c j -> diff3 (x_place c (cplus s r) i) (x_place c (cplus s r') j) = diff3 (x_place c r i) (x_place c r' j)).

(** ** Honeycomb sheets of atoms with one s and three p orbitals *)
(** Orbitals 4a, ..., 4a+3 are s, px, py, pz of the atom a. *)
Definition sp_kind (i : Z) : orb :=
  match i mod 4 with 0 => OS | 1 => OP (1, 0, 0)%R | 2 => OP (0, 1, 0)%R | _ => OP (0, 0, 1)%R end.
Definition sp_block (Q : nat -> nat -> R) (k i : Z) : R :=
  match k, i with 0, 0 => 1%R | 0, _ | _, 0 => 0%R | _, _ => Q (Z.to_nat (k - 1)) (Z.to_nat (i - 1)) end.
(** The s and p orbitals turn with Q; the two atoms are exchanged or not. *)
Definition sp_turn (swap : bool) (Q : nat -> nat -> R) (k i : Z) : R :=
  if k / 4 =? (if swap then 1 - i / 4 else i / 4) then sp_block Q (k mod 4) (i mod 4) else 0%R.
Definition diagonal (a b c : R) (i j : nat) : R :=
  match i, j with O, O => a | 1%nat, 1%nat => b | 2%nat, 2%nat => c | _, _ => 0%R end.
(** A third of a turn about the z axis. *)
Definition third (i j : nat) : R :=
  match i, j with
  | O, O => - (1 / 2) | O, 1%nat => - (sqrt 3 / 2) | 1%nat, O => sqrt 3 / 2 | 1%nat, 1%nat => - (1 / 2)
  | 2%nat, 2%nat => 1 | _, _ => 0
  end%R.
(** Places of a honeycomb sheet with lattice constant a, repeated with the
    period c; two atoms in the cell, the second at the centre of a triangle of
    the lattice. *)
Definition honeycomb_at (a c : R) (r : cell) (second : bool) : point :=
  let '(x, y, z) := r in let e := if second then (1 / 3)%R else 0%R in
  (a * ((IZR x + e) + (IZR y + e) / 2), a * sqrt 3 / 2 * (IZR y + e), c * IZR z)%R.
(** The parameters of the sp model of carbon, nearest and next nearest neighbours. *)
Definition sp_near (V1 V2 : R * R * R * R) (l : R) : sk_par :=
  let '(sss, sps, pps, ppp) := if Rlt_dec l (2 / 10) then V1 else V2 in
  {| v_sss := Cre sss; v_sps := Cre sps; v_sds := Cre 0; v_pps := Cre pps; v_ppp := Cre ppp;
     v_pds := Cre 0; v_pdp := Cre 0; v_dds := Cre 0; v_ddp := Cre 0; v_ddd := Cre 0 |}.
Definition sp_one : R * R * R * R := (-5729 / 1000, 5618 / 1000, 6050 / 1000, -3070 / 1000)%R.
Definition sp_two : R * R * R * R := (102 / 1000, -171 / 1000, -377 / 1000, 70 / 1000)%R.
(** How the cells move: inversion, a third of a turn about an atom, the
    reflections of x and of z; the second atom may move to another cell. *)
Definition turn3 (r : cell) : cell := let '(x, y, z) := r in (- x - y, x, z).
Definition turn3_back (r : cell) : cell := let '(x, y, z) := r in (y, - x - y, z).
Definition mirror_x (r : cell) : cell := let '(x, y, z) := r in (- x - y, y, z).
Definition mirror_z (r : cell) : cell := let '(x, y, z) := r in (x, y, - z).
Definition second_by (q : cell) (i : Z) : cell := if i <? 4 then (0, 0, 0) else q.
