(** Model of make_hetero_layer (tbplas/builder/advanced.py) and of the functions
    with which examples/advanced/tbg.py builds the layers of twisted bilayer
    graphene (tests/test_hetero.py contains the same).  Real numbers are exact. *)
From Coq Require Import Reals QArith Qcanon.
From Verif Require Import Prelude Vec Qs M_hop M_pc M_super M_build M_reshape M_lat L_gersh.
Local Open Scope R_scope.

(** math.acos *)
Definition py_acos (x : R) : res R := if Rleb (-1) x && Rleb x 1 then Ok (acos x) else Err ValueError.
(** tbg.py:19-27 calc_twist_angle *)
Definition twist_angle (i : Z) : res R :=
  let d := (3 * i ^ 2 + 3 * i + 1)%Z in
  if (d =? 0)%Z then Err ZeroDivisionError else py_acos ((IZR (3 * i ^ 2 + 3 * i) + 1 / 2) / IZR d).
(** tbg.py:30-39 calc_twist_angle2 *)
Definition twist_angle2 (n m : Z) : res R :=
  let d := (2 * (n ^ 2 + n * m + m ^ 2))%Z in
  if (d =? 0)%Z then Err ZeroDivisionError else py_acos (IZR (n ^ 2 + 4 * n * m + m ^ 2) / IZR d).
Definition real3 (v : Z * Z * Z) : vec R := let '(x, y, z) := v in (IZR x, IZR y, IZR z).
(** tbg.py:42-56 calc_hetero_lattice, 59-75 calc_hetero_lattice2 *)
Definition hetero_lattice (i : Z) (lat : mat R) : res (list (vec R)) :=
  frac2cart lat (Array (map real3 [(i, i + 1, 0)%Z; (- (i + 1), 2 * i + 1, 0)%Z; (0, 0, 1)%Z])) (0, 0, 0).
Definition hetero_lattice2 (n m : Z) (lat : mat R) : res (list (vec R)) :=
  frac2cart lat (Array (map real3 [(n, m, 0)%Z; (- m, n + m, 0)%Z; (0, 0, 1)%Z])) (0, 0, 0).

Section Layer.
  Context {E W L : Type} (conj : E -> E) (to_q : R -> Qc).
  (** advanced.py:289-306 make_hetero_layer of a cell with real lattice vectors
      [lat].  reshape_prim_cell is modelled over the rational numbers, with
      coordinates in the basis of the cell; [to_q] reads an entry of the
      matrix. *)
  Definition hetero_layer (c : gcell E Qc W L) (lat : mat R) (hetero : list (vec R)) (delta tol : Qc) : res (gcell E Qc W L) :=
    bind (cart2frac lat hetero (0, 0, 0)) (fun rows =>
    match rows with
    | [a; b; d] => let q (v : vec R) : vec Qc := let '(x, y, z) := v in (to_q x, to_q y, to_q z) in
                   reshape conj c (q a, q b, q d) delta tol
    | _ => Err LatVecError
    end).
End Layer.

(** tbg.py:150: the angle that aligns the layers; math.atan(y / x). *)
Definition align_angle (hetero : list (vec R)) : res R :=
  match hetero with
  | (x, y, _) :: _ => if Reqb x 0 then Err ZeroDivisionError else Ok (- atan (y / x))
  | [] => Err IndexError
  end.
