(** Atomic orbitals by name and how a motion of space acts on them. *)
From Coq Require Import String Reals.
From Verif Require Import Prelude Vec Cx S_lat S_mat.
Open Scope Z_scope.

(** The angular part of a p or d orbital, as a polynomial in the coordinates. *)
Definition shape (name : string) (v : point) : R :=
  (let '(x, y, z) := v in
   if String.eqb name "px" then x else if String.eqb name "py" then y else if String.eqb name "pz" then z else
   if String.eqb name "dxy" then sqrt 3 * (x * y) else if String.eqb name "dyz" then sqrt 3 * (y * z) else if String.eqb name "dxz" then sqrt 3 * (x * z) else
   if String.eqb name "dx2-y2" then sqrt 3 / 2 * (x * x - y * y) else if String.eqb name "dz2" then z * z - (x * x + y * y) / 2 else 0)%R.
(** The linear motion G turns orbital i into the combination of the orbitals
    given by column i of D: the values before the motion are those of the
    combination after it. *)
Definition acts_on (names : list string) (G : point -> point) (D : Z -> Z -> Cplx) : Prop :=
  forall i v, 0 <= i < Z.of_nat (Datatypes.length names) ->
    Cre (shape (nth (Z.to_nat i) names ""%string) v) =
    esum (map (fun k => Cmul (D k i) (Cre (shape (nth (Z.to_nat k) names ""%string) (G v)))) (zrange (Datatypes.length names))).
(** The orbitals of a layer of a transition metal and two chalcogens. *)
Definition metal_orbs : list string := ["dz2"; "dxy"; "dx2-y2"; "dxz"; "dyz"]%string.
Definition chalcogen_orbs : list string := ["px"; "py"; "pz"]%string.
Definition layer_orbs : list string := metal_orbs ++ chalcogen_orbs ++ chalcogen_orbs.
(** The motion t, with linear part G, is a symmetry under which the orbitals
    move like atomic orbitals. *)
Definition orbital_symmetry (c : crystal Cplx) (names : list string) (t G : point -> point) : Prop :=
  exists A B shift D, symmetry Cconj c false t A B shift D /\ acts_on names G D.
Definition flip_z (p : point) : point := let '(x, y, z) := p in (x, y, - z)%R.
(** Reflection in the plane at half the height d. *)
Definition flip_at (d : R) (p : point) : point := let '(x, y, z) := p in (x, y, d - z)%R.
