(** Model of base/lattice.py and base/kpoints.py, of spiral_prim_cell
    (builder/advanced.py:246-286) and of reset_lattice (primitive.py:496-545),
    over the real numbers.  3x3 linear systems are solved exactly (Cramer);
    numpy raises LinAlgError, a ValueError, for a singular matrix. *)
From Verif Require Import Prelude Vec Cx M_super M_sample M_hop M_pc M_index M_build L_gersh.
From Coq Require Import Reals.
Local Open Scope R_scope.

Notation V := (vec R).
Notation M := (mat R).

(** ** Products, as numpy.cross, numpy.dot, numpy.linalg.norm. *)
Definition np_dot (u v : V) : R := let '(a, b, c) := u in let '(x, y, z) := v in a * x + b * y + c * z.
Definition np_cross (u v : V) : V :=
  let '(a, b, c) := u in let '(x, y, z) := v in (b * z - c * y, c * x - a * z, a * y - b * x).
Definition np_norm (u : V) : R := let '(a, b, c) := u in sqrt (a * a + b * b + c * c).
(** Determinant of a matrix given by its rows. *)
Definition np_det (m : M) : R := let '(a0, a1, a2) := m in np_dot (np_cross a0 a1) a2.
Definition Reqb (x y : R) : bool := Rleb x y && Rleb y x.
(** numpy.linalg.solve(m, y). *)
Definition np_solve (m : M) (y : V) : res V :=
  let '(a0, a1, a2) := m in let '(y0, y1, y2) := y in
  if Reqb (np_det m) 0 then Err ValueError else
  Ok (vscale (/ np_det m) (vadd (vadd (vscale y0 (np_cross a1 a2)) (vscale y1 (np_cross a2 a0))) (vscale y2 (np_cross a0 a1)))).
(** numpy.matmul(numpy.linalg.inv(m.T), r): the x with x0 a0 + x1 a1 + x2 a2 = r. *)
Definition np_unmul (m : M) (r : V) : res V :=
  let '(a0, a1, a2) := m in
  if Reqb (np_det m) 0 then Err ValueError else
  Ok (vscale (/ np_det m) (np_dot r (np_cross a1 a2), np_dot r (np_cross a2 a0), np_dot r (np_cross a0 a1))).

(** ** lattice.py *)
(** 13-50 gen_lattice_vectors; math.sqrt of a negative number and division by
    zero raise. *)
Definition clean (x : R) : R := if negb (Rleb (/ 10 ^ 15) (Rabs x)) then 0 else x.
Definition cleanv (v : V) : V := let '(x, y, z) := v in (clean x, clean y, clean z).
Definition gen_lattice_vectors (a b c alpha beta gamma : R) : res M :=
  let alpha := alpha / 180 * PI in
  let beta := beta / 180 * PI in
  let gamma := gamma / 180 * PI in
  let sq := 1 + 2 * cos alpha * cos beta * cos gamma - cos alpha ^ 2 - cos beta ^ 2 - cos gamma ^ 2 in
  if Reqb (sin gamma) 0 then Err ZeroDivisionError
  else if negb (Rleb 0 sq) then Err ValueError
  else Ok (cleanv (a, 0, 0), cleanv (b * cos gamma, b * sin gamma, 0),
           cleanv (c * cos beta, c * (cos alpha - cos beta * cos gamma) / sin gamma, c * sqrt sq / sin gamma)).

(** 53-71 gen_reciprocal_vectors. *)
Definition gen_reciprocal_vectors (m : M) : res M :=
  bind (np_solve m (2 * PI, 0, 0)) (fun b0 =>
  bind (np_solve m (0, 2 * PI, 0)) (fun b1 =>
  bind (np_solve m (0, 0, 2 * PI)) (fun b2 => Ok (b0, b1, b2)))).

(** 74-98 cart2frac.  The inverse is taken before the loop. *)
Definition cart2frac (m : M) (coords : list V) (origin : V) : res (list V) :=
  if Reqb (np_det m) 0 then Err ValueError else mapM (fun r => np_unmul m (vsub r origin)) coords.
(** 101-124 frac2cart; the coordinates are an array, or a list of rows for
    which numpy.ndarray(rows) raises TypeError. *)
Inductive coords := Array (l : list V) | Rows (l : list V).
Definition frac2cart (m : M) (c : coords) (origin : V) : res (list V) :=
  match c with
  | Rows _ => Err TypeError
  | Array l => Ok (map (fun r => vadd (vmat r m) origin) l)
  end.

(** 127-178 rotate_coord.  The result has the element type of the input:
    integers are truncated. *)
Inductive axis := AX | AY | AZ | ANone.
Definition rot_mat (u : V) (ang : R) : M :=
  let '(ux, uy, uz) := u in let c := cos ang in let s := sin ang in
  ((c * 1 + s * 0 + (1 - c) * (ux * ux), c * 0 + s * (- uz) + (1 - c) * (ux * uy), c * 0 + s * uy + (1 - c) * (ux * uz)),
   (c * 0 + s * uz + (1 - c) * (uy * ux), c * 1 + s * 0 + (1 - c) * (uy * uy), c * 0 + s * (- ux) + (1 - c) * (uy * uz)),
   (c * 0 + s * (- uy) + (1 - c) * (uz * ux), c * 0 + s * ux + (1 - c) * (uz * uy), c * 1 + s * 0 + (1 - c) * (uz * uz))).
Definition mv (m : M) (v : V) : V := let '(r0, r1, r2) := m in (np_dot r0 v, np_dot r1 v, np_dot r2 v).
Definition vmap3 {A B} (f : A -> B) (m : A * A * A) : B * B * B := let '(a, b, c) := m in (f a, f b, f c).
Definition trunc (x : R) : Z := if Rleb 0 x then Int_part x else (- Int_part (- x))%Z.
Definition store (int : bool) (v : V) : V :=
  if int then let '(x, y, z) := v in (IZR (trunc x), IZR (trunc y), IZR (trunc z)) else v.
Definition rotate_coord (int : bool) (coords : list V) (ang : R) (ax : axis) (center : list R) : res (list V) :=
  match center with
  | [x; y; z] =>
      let go u := Ok (map (fun c => store int (vadd (mv (rot_mat u ang) (vsub c (x, y, z))) (x, y, z))) coords) in
      match ax with
      | AX => go (1, 0, 0) | AY => go (0, 1, 0) | AZ => go (0, 0, 1) | ANone => Err ValueError
      end
  | _ => Err ValueError
  end.

(** 181-218. *)
Inductive dirn := DA | DB | DC | DNone.
Definition get_lattice_area (m : M) (d : dirn) : res R :=
  let '(a0, a1, a2) := m in
  match d with
  | DA => Ok (np_norm (np_cross a1 a2))
  | DB => Ok (np_norm (np_cross a2 a0))
  | DC => Ok (np_norm (np_cross a0 a1))
  | DNone => Err ValueError
  end.
Definition get_lattice_volume (m : M) : R := let '(a0, a1, a2) := m in Rabs (np_dot (np_cross a0 a1) a2).

(** ** kpoints.py *)
(** 13-42 gen_kpath. *)
Definition kpath_segment (k0 k1 : V) (nk : Z) : list V :=
  map (fun j => vadd k0 (vscale (IZR j * 1 / IZR nk) (vsub k1 k0))) (zrange (Z.to_nat nk)).
Definition gen_kpath (hs : list V) (num : list Z) : res (list V * list Z) :=
  if negb (Z.of_nat (length hs) =? Z.of_nat (length num) + 1)%Z then Err ValueError else
  bind (mapM (fun i => bind (rd hs i) (fun k0 => bind (rd hs (i + 1)%Z) (fun k1 => bind (rd num i) (fun nk =>
          Ok (kpath_segment k0 k1 nk))))) (zrange (length num))) (fun segs =>
  bind (rd hs (Z.of_nat (length hs) - 1)%Z) (fun last =>
  Ok (concat segs ++ [last], map (fun k => zsum (firstn k num)) (seq 0 (length num + 1))))).

(** 45-62 gen_kdist: the loop carries the last distance. *)
Fixpoint kdist_from (d : R) (k : V) (rest : list V) : list R :=
  match rest with
  | [] => []
  | k' :: r => let d' := d + np_norm (vsub k' k) in d' :: kdist_from d' k' r
  end.
Definition gen_kdist (lat : M) (kpts : list V) : res (list R) :=
  bind (gen_reciprocal_vectors lat) (fun g =>
  bind (frac2cart g (Array kpts) (0, 0, 0)) (fun cart =>
  match cart with [] => Ok [] | k :: r => Ok (0 :: kdist_from 0 k r) end)).

(** 65-81 gen_kmesh, with the three numpy.linspace(0, 1 - 1./n, n); a zero
    size is a division by zero, a negative one is refused by linspace.  The
    inner iterables are evaluated for each outer element only. *)
Definition kline (n : Z) : res (list R) :=
  if (n =? 0)%Z then Err ZeroDivisionError
  else if (n <? 0)%Z then Err ValueError
  else Ok (map (fun i => 0 + IZR i * ((1 - 1 / IZR n - 0) / IZR (n - 1))) (zrange (Z.to_nat n))).
Definition gen_kmesh (size : list Z) : res (list V) :=
  match size with
  | [na; nb; nc] =>
      bind (kline na) (flatM (fun kx => bind (kline nb) (flatM (fun ky => bind (kline nc) (mapM (fun kz => Ok (kx, ky, kz)))))))
  | _ => Err ValueError
  end.

(** ** Primitive cells *)
Section Cell.
  Context {E W L : Type}.
  Notation cell := (gcell E R W L).
  (** primitive.py:1057-1066 orb_pos_nm; 547-560 the arrays are synchronised
      with the list of orbitals. *)
  Definition orb_pos_nm (c : cell) : list V :=
    map (fun o => vadd (vmat (position o) (g_lat c)) (g_org c)) (orbs (g_pc c)).
  (** primitive.py:249-284 set_orbital(i, position=pos), for all orbitals of
      an unlocked cell; also 536-541. *)
  Definition set_positions (ps : list V) (c : cell) : cell :=
    {| g_pc := set_orbs (g_pc c) (map (fun q : orbital R W L * V =>
         {| position := snd q; energy := energy (fst q); label := label (fst q) |}) (combine (orbs (g_pc c)) ps));
       g_lat := g_lat c; g_org := g_org c; g_ext := g_ext c |}.
  Definition set_lattice (lat : M) (org : V) (c : cell) : cell :=
    {| g_pc := g_pc c; g_lat := lat; g_org := org; g_ext := g_ext c |}.
  (** primitive.py:496-545 reset_lattice, with 3x3 lattices and origins of
      length 3; None keeps the old value. *)
  Definition reset_lattice (lat : option M) (org : option V) (unit : R) (fix_orb : bool) (c : cell) : cell * res Datatypes.unit :=
    if locked (g_pc c) then (c, Err LockError) else
    let lat' := match lat with None => g_lat c | Some m => vmap3 (vscale unit) m end in
    let org' := match org with None => g_org c | Some o => vscale unit o end in
    if fix_orb && negb (match orbs (g_pc c) with [] => true | _ => false end) then
      match cart2frac lat' (orb_pos_nm c) org' with
      | Err x => (c, Err x)
      | Ok ps => (set_lattice lat' org' (set_positions ps c), Ok tt)
      end
    else (set_lattice lat' org' c, Ok tt).

  (** advanced.py:246-286 spiral_prim_cell, in place.  For a cell without
      orbitals the shift is added to an array of shape (0,), a ValueError. *)
  Definition spiral (ang : R) (center : list R) (shift : R) (c : cell) : cell * res Datatypes.unit :=
    let '(a0, a1, a2) := g_lat c in
    match rotate_coord false (map (fun v => vadd v (g_org c)) [(0, 0, 0); a0; a1; a2]) ang AZ center with
    | Ok [e0; e1; e2; e3] =>
        let lat := (vsub e1 e0, vsub e2 e0, vsub e3 e0) in
        match reset_lattice (Some lat) (Some e0) 1 false c with
        | (c', Err x) => (c', Err x)
        | (c', Ok _) =>
            match orbs (g_pc c') with
            | [] => (c', Err ValueError)
            | _ => match cart2frac lat (map (fun p => vadd p (0, 0, shift)) (orb_pos_nm c')) e0 with
                   | Err x => (c', Err x)
                   | Ok ps => (set_positions ps c', Ok tt)
                   end
            end
        end
    | Ok _ => (c, Err ValueError)
    | Err x => (c, Err x)
    end.
End Cell.
