(** Crystals: where the orbitals are and the amplitudes between them.  What it
    means that two descriptions give the same crystal, and that a motion of
    space is a symmetry of the Hamiltonian. *)
From Verif Require Import Prelude Vec Cx M_hop M_pc S_pc S_lat.
From Coq Require Import Reals.
Open Scope Z_scope.

Definition cell := (Z * Z * Z)%type.
Definition cplus (a b : cell) : cell := let '(x, y, z) := a in let '(u, v, w) := b in (x + u, y + v, z + w).
Definition cminus (a b : cell) : cell := let '(x, y, z) := a in let '(u, v, w) := b in (x - u, y - v, z - w).

Section Spec.
  Context {E : Type} {SE : Scalar E} (conj : E -> E).
  (** [x_place R i]: Cartesian position of orbital i in cell R;
      [x_amp R i j]: <i, 0| H |j, R>, on-site energies included. *)
  Record crystal := { x_num : Z; x_place : cell -> Z -> point; x_amp : cell -> Z -> Z -> E }.

  (** The crystal of a primitive cell with given lattice vectors: amplitudes
      that were never set vanish. *)
  Definition crystal_of {X L : Type} (coord : X -> R) (lat : mat R) (s : acell E X E L) : crystal :=
    let '(a0, a1, a2) := lat in
    {| x_num := a_num s;
       x_place := fun r i => match nth_error (a_orbs s) (Z.to_nat i) with
                             | Some o => let '(x, y, z) := position o in let '(a, b, c) := r in
                               affine a0 a1 a2 (0, 0, 0)%R ((coord x + IZR a)%R, (coord y + IZR b)%R, (coord z + IZR c)%R)
                             | None => (0, 0, 0)%R
                             end;
       x_amp := fun r i j =>
         let '(a, b, c) := r in
         if (a =? 0) && (b =? 0) && (c =? 0) && (i =? j)
         then match nth_error (a_orbs s) (Z.to_nat i) with Some o => energy o | None => s0 end
         else match a_hop s r i j with Some e => e | None => s0 end |}.

  Definition orbital_of (c : crystal) (i : Z) : Prop := 0 <= i < x_num c.

  (** A one-to-one correspondence of all orbitals of the two infinite crystals
      which keeps positions and amplitudes. *)
  Definition same_crystal (c c' : crystal) : Prop :=
    exists f : cell -> Z -> cell * Z,
      (forall r i, orbital_of c i -> orbital_of c' (snd (f r i)) /\ x_place c' (fst (f r i)) (snd (f r i)) = x_place c r i) /\
      (forall r i r' j, orbital_of c i -> orbital_of c j -> f r i = f r' j -> (r, i) = (r', j)) /\
      (forall q k, orbital_of c' k -> exists r i, orbital_of c i /\ f r i = (q, k)) /\
      (forall r i r' j, orbital_of c i -> orbital_of c j ->
         x_amp c' (cminus (fst (f r' j)) (fst (f r i))) (snd (f r i)) (snd (f r' j)) = x_amp c (cminus r' r) i j).

  (** [g] is a motion of space, it takes cells to cells by [A] (with inverse
      [B]) up to a shift depending on the orbital, and orbital j to the
      combination of orbitals given by column j of [D]; [anti] marks a symmetry
      with complex conjugation. *)
  Definition isometry (g : point -> point) : Prop := forall p q, gap (g p) (g q) = gap p q.
  Definition cstar (anti : bool) (e : E) : E := if anti then conj e else e.
  Definition overlap (c : crystal) (D : Z -> Z -> E) (i j : Z) : E :=
    esum (map (fun k => smul (conj (D k i)) (D k j)) (zrange (Z.to_nat (x_num c)))).
  Definition moved (c : crystal) (A : cell -> cell) (shift : Z -> cell) (D : Z -> Z -> E) (r : cell) (i j : Z) : E :=
    esum (map (fun k => esum (map (fun l =>
      smul (smul (conj (D k i)) (x_amp c (cplus (A r) (cminus (shift j) (shift i))) k l)) (D l j))
      (zrange (Z.to_nat (x_num c))))) (zrange (Z.to_nat (x_num c)))).
  Definition symmetry (c : crystal) (anti : bool) (g : point -> point) (A B : cell -> cell)
             (shift : Z -> cell) (D : Z -> Z -> E) : Prop :=
    isometry g /\
    (forall r q, A (cplus r q) = cplus (A r) (A q)) /\ (forall r, A (B r) = r /\ B (A r) = r) /\
    (forall r i k, orbital_of c i -> orbital_of c k -> D k i <> s0 ->
       g (x_place c r i) = x_place c (cplus (A r) (shift i)) k) /\
    (forall i j, orbital_of c i -> orbital_of c j -> overlap c D i j = if i =? j then s1 else s0) /\
    (forall r i j, orbital_of c i -> orbital_of c j -> moved c A shift D r i j = cstar anti (x_amp c r i j)).
End Spec.
Arguments crystal : clear implicits.
