(** Spin-orbit coupling L.S between tensor orbitals, and the algebra of angular
    momentum on coefficient functions.  No model definitions. *)
From Coq Require Import Reals String.
From Verif Require Import Prelude Vec Cx S_sk.
Local Open Scope R_scope.

(** Levi-Civita symbol of 0, 1, 2 and the generator of rotations about axis k:
    (gen k) v is the cross product of the unit vector k with v. *)
Definition eps (i j k : nat) : R :=
  match i, j, k with
  | O, 1%nat, 2%nat | 1%nat, 2%nat, O | 2%nat, O, 1%nat => 1
  | O, 2%nat, 1%nat | 2%nat, 1%nat, O | 1%nat, O, 2%nat => -1
  | _, _, _ => 0
  end.
Definition gen (k i j : nat) : R := eps i k j.
(** L_k acts on an orbital as i times the derivative of its rotation: i gen k e on
    a vector, i (gen k D - D gen k) on a matrix, 0 on a number. *)
Definition turn (k : nat) (o : orb) : orb :=
  match o with
  | OS => OP (0, 0, 0)
  | OP e => OP (app3 (gen k) e)
  | OD D => OD (fun i j => sum3 (fun l => gen k i l * D l j - D i l * gen k l j))
  end.
(** The inner product in which the nine orbitals are orthonormal. *)
Definition pair (o o' : orb) : R :=
  match o, o' with
  | OS, OS => 1
  | OP e, OP e' => dot3 e e'
  | OD D, OD D' => 2 / 3 * tr2 D D'
  | _, _ => 0
  end.
(** Spin: true is up. *)
Definition spin (label : string) : option bool := if String.eqb label "up" then Some true else if String.eqb label "down" then Some false else None.
Definition half_pauli (k : nat) (s s' : bool) : Cplx :=
  match k with
  | O => if Bool.eqb s s' then Cre 0 else Cre (1 / 2)
  | 1%nat => if Bool.eqb s s' then Cre 0 else if s then (0, - (1 / 2)) else (0, 1 / 2)
  | _ => if Bool.eqb s s' then (if s then Cre (1 / 2) else Cre (- (1 / 2))) else Cre 0
  end.
Definition l_s (o : orb) (s : bool) (o' : orb) (s' : bool) : Cplx :=
  let t k := Cmul (0, pair o (turn k o')) (half_pauli k s s') in Cadd (t 0%nat) (Cadd (t 1%nat) (t 2%nat)).
(** Orbital angular momentum of a label. *)
Definition ang_mom (o : orb) : Z := match o with OS => 0 | OP _ => 1 | OD _ => 2 end%Z.
