(** Specification of Bloch sums of atomic functions and of the cube format. *)
From Coq Require Import Reals String.
From Verif Require Import Prelude Vec Cx M_cube.
Local Open Scope R_scope.

(** ** Bloch sums
    An orbital: coefficient, function around its nucleus, position. *)
Definition point := (R * R * R)%type.
Definition at_cell (lat : point * point * point) (p : point) (n : Z * Z * Z) : point :=
  let '((a1, a2, a3), (b1, b2, b3), (c1, c2, c3)) := lat in let '(x, y, z) := p in let '(i, j, k) := n in
  (x + (IZR i * a1 + IZR j * b1 + IZR k * c1), y + (IZR i * a2 + IZR j * b2 + IZR k * c2), z + (IZR i * a3 + IZR j * b3 + IZR k * c3)).
Definition dot3 (k : point) (r : point) : R := let '(a, b, c) := k in let '(x, y, z) := r in a * x + b * y + c * z.
Definition whole (n : Z * Z * Z) : point := let '(i, j, k) := n in (IZR i, IZR j, IZR k).
Definition away (r p : point) : point := let '(a, b, c) := r in let '(x, y, z) := p in (a - x, b - y, c - z).
Definition length3 (d : point) : R := let '(x, y, z) := d in sqrt (x ^ 2 + y ^ 2 + z ^ 2).
Definition shifted (n m : Z * Z * Z) : Z * Z * Z := let '(a, b, c) := n in let '(x, y, z) := m in (a + x, b + y, c + z)%Z.
(** One orbital repeated over the cells of a box, with the phase of a wave k. *)
Definition wave_sum (k : point) (lat : point * point * point) (box : list (Z * Z * Z)) (phi : point -> R) (p : point) (r : point) : Cplx :=
  esum (map (fun n => Cmul (Ccis (2 * PI * dot3 k (whole n))) (Cre (phi (away r (at_cell lat p n))))) box).
(** The state: orbitals with coefficients, per square root of the number of cells. *)
Definition state (k : point) (lat : point * point * point) (box : list (Z * Z * Z)) (os : list (Cplx * (point -> R) * point)) (r : point) : Cplx :=
  Cmul (Cre (/ sqrt (INR (length box)))) (esum (map (fun o => let '(c, phi, p) := o in Cmul c (wave_sum k lat box phi p r)) os)).
(** All cells with indices between -m and m *)
Definition box_of (m : Z * Z * Z) (box : list (Z * Z * Z)) : Prop :=
  let '(a, b, c) := m in NoDup box /\ forall i j k, In (i, j, k) box <-> (- a <= i <= a /\ - b <= j <= b /\ - c <= k <= c)%Z.

(** ** The format *)
Record contents := {
  f_origin : point;
  f_axes : (Z * point) * (Z * point) * (Z * point);
  f_atoms : list (Z * R * point);
  f_data : list R }.
(** Lines of a text; the last one need not be ended. *)
Fixpoint lines (l cur : list item) : list (list item) :=
  match l with [] => match cur with [] => [] | _ => [cur] end | NL :: r => cur :: lines r [] | x :: r => lines r (cur ++ [x]) end.
Definition fields (n : Z) (p : point) : list item := let '(x, y, z) := p in [I5 n; F12 x; F12 y; F12 z].
Definition atom_line (a : Z * R * point) : list item := let '(n, c, (x, y, z)) := a in [I5 n; F12 c; F12 x; F12 y; F12 z].
(** Two comments, number of atoms and origin, three axes, atoms, and the values
    with at most six on a line. *)
Definition cube_format (text : list item) (f : contents) : Prop :=
  exists s1 s2 rest, let '((n1, v1), (n2, v2), (n3, v3)) := f_axes f in
    lines text [] = [Txt s1] :: [Txt s2] :: fields (Z.of_nat (length (f_atoms f))) (f_origin f) ::
                    fields n1 v1 :: fields n2 v2 :: fields n3 v3 :: map atom_line (f_atoms f) ++ rest /\
    concat rest = map E13 (f_data f) /\ (forall l, In l rest -> (0 < length l <= 6)%nat) /\
    (0 <= n1 /\ 0 <= n2 /\ 0 <= n3)%Z /\ Z.of_nat (length (f_data f)) = (n1 * n2 * n3)%Z.
(** The point and the value of a triple of indices. *)
Definition grid_point (f : contents) (i j k : Z) : point :=
  let '((_, (a1, a2, a3)), (_, (b1, b2, b3)), (_, (c1, c2, c3))) := f_axes f in let '(x, y, z) := f_origin f in
  (x + (IZR i * a1 + IZR j * b1 + IZR k * c1), y + (IZR i * a2 + IZR j * b2 + IZR k * c2), z + (IZR i * a3 + IZR j * b3 + IZR k * c3)).
Definition in_grid (f : contents) (i j k : Z) : Prop :=
  let '((n1, _), (n2, _), (n3, _)) := f_axes f in (0 <= i < n1 /\ 0 <= j < n2 /\ 0 <= k < n3)%Z.
Definition value (f : contents) (i j k : Z) : R :=
  let '((n1, _), (n2, _), (n3, _)) := f_axes f in nth (Z.to_nat ((i * n2 + j) * n3 + k)) (f_data f) 0.
(** What is drawn *)
Definition aspect (kind : string) (c : Cplx) : R :=
  if String.eqb kind "real" then fst c else if String.eqb kind "imag" then snd c else fst c ^ 2 + snd c ^ 2.
