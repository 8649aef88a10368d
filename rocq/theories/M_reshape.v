(** Model of reshape_prim_cell (tbplas/builder/advanced.py:143-243) in exact
    rational arithmetic. *)
From Verif Require Import Prelude Vec Qs M_hop M_pc M_index M_super M_build.
From Coq Require Import Qround.

Definition qfloor (x : Qc) : Z := Qfloor (this x).
Definition qceil (x : Qc) : Z := Qceiling (this x).
Definition qleb (x y : Qc) : bool := Qle_bool (this x) (this y).

(** Determinant and inverse of a 3x3 matrix (np.linalg.inv, exact). *)
Definition qdet (m : mat Qc) : Qc :=
  let '((a, b, c), (d, e, f), (g, h, i)) := m in
  (a * (e * i - f * h) - b * (d * i - f * g) + c * (d * h - e * g))%Qc.
Definition qinv (m : mat Qc) : mat Qc :=
  let '((a, b, c), (d, e, f), (g, h, i)) := m in
  let D := qdet m in
  (((e * i - f * h) / D, (c * h - b * i) / D, (b * f - c * e) / D),
   ((f * g - d * i) / D, (a * i - c * g) / D, (c * d - a * f) / D),
   ((d * h - e * g) / D, (b * g - a * h) / D, (a * e - b * d) / D))%Qc.

(** 186-198: searching range along one axis from the three entries of the
    column. *)
Definition rs_range (a b c : Qc) : Z * Z :=
  let s0 := (a + b + c - a)%Qc in let s1 := (a + b + c - b)%Qc in let s2 := (a + b + c - c)%Qc in
  (Z.min (Z.min (Z.min 0 (qfloor s0)) (qfloor s1)) (qfloor s2) - 1,
   Z.max (Z.max (Z.max 0 (qceil s0)) (qceil s1)) (qceil s2) + 1).
(** range(lo, hi + 1) *)
Definition rs_seq (r : Z * Z) : list Z := map (fun k => fst r + k) (crange (snd r - fst r + 1)).

(** 201-202 _get_cell_index. *)
Definition cell_index (v : vec Qc) : Z * Z * Z :=
  let '(x, y, z) := v in (qfloor x, qfloor y, qfloor z).

Section Reshape.
  Context {E W L : Type} (conj : E -> E).
  Definition shift3 (d : Qc) (v : vec Qc) : vec Qc := let '(x, y, z) := v in ((x + d)%Qc, (y + d)%Qc, (z + d)%Qc).

  (** 211-213: position in the reshaped cell, and its cell index. *)
  Definition rs_pos (lf : mat Qc) (rn : Z * Z * Z) (pos : vec Qc) : vec Qc := vmat (vadd (vZ rn) pos) (qinv lf).

  (** 207-218: candidate sites, in the order of the nested loops. *)
  Definition rs_cands (lf : mat Qc) (os : list (orbital Qc W L)) : list (id4 * orbital Qc W L) :=
    let '((a, b, c), (d, e, f), (g, h, i)) := lf in
    flat_map (fun ia => flat_map (fun ib => flat_map (fun ic =>
      map (fun q : Z * orbital Qc W L => ((ia, ib, ic, fst q), snd q)) (enum os))
      (rs_seq (rs_range c f i))) (rs_seq (rs_range b e h))) (rs_seq (rs_range a d g)).
  Definition rs_in (lf : mat Qc) (delta : Qc) (q : id4 * orbital Qc W L) : bool :=
    let '((ia, ib, ic, _), o) := q in
    rn_eqb (cell_index (shift3 delta (rs_pos lf (ia, ib, ic) (position o)))) (0, 0, 0).
  (** 214-218: one orbital found. *)
  Definition rs_orb (lf : mat Qc) (acc : res (pc E Qc W L * omap)) (q : id4 * orbital Qc W L) : res (pc E Qc W L * omap) :=
    bind acc (fun a : pc E Qc W L * omap =>
      let '(p, m) := a in
      let '((ia, ib, ic, io), o) := q in
      let '(x, y, z) := rs_pos lf (ia, ib, ic) (position o) in
      bind (lift1 (add_orbital s0 p [x; y; z] (energy o) (label o)))
           (fun p' => Ok (p', om_add m (ia, ib, ic, io)))).

  (** KDTree.query_ball_point (here in increasing order). *)
  Definition dist2 (u v : vec Qc) : Qc := let '(x, y, z) := vsub u v in (x * x + y * y + z * z)%Qc.
  Definition ball (os : list (orbital Qc W L)) (x : vec Qc) (tol : Qc) : list Z :=
    map fst (filter (fun q => qleb (dist2 (position (snd q)) x) (tol * tol)%Qc) (enum os)).

  (** 225-243: one (orbital, hopping) pair.  [os0]: orbitals of the original
      cell (orb_pos), [os]: orbitals of the reshaped cell. *)
  Definition rs_hop (lf : mat Qc) (delta tol : Qc) (os0 os : list (orbital Qc W L)) (m : omap)
             (acc : res (pc E Qc W L)) (q : Z * (rn3 * pair2 * E)) : res (pc E Qc W L) :=
    bind acc (fun p =>
    bind (om_sc2pc m (fst q)) (fun t =>
      let '(ia, ib, ic, io) := t in
      let '((ra, rb, rc), (oi, oj), e) := snd q in
      if io =? oi then
        match py_nth os0 oj with
        | None => Err IndexError
        | Some o =>
          let x := rs_pos lf (ia + ra, ib + rb, ic + rc) (position o) in
          let '(na, nb, nc) := cell_index (shift3 delta x) in
          let y := vsub x (vZ (na, nb, nc)) in
          fold_left (fun acc j => bind acc (fun p => bind (om_sc2pc m j) (fun t' =>
             let '(_, _, _, io') := t' in
             if io' =? oj then lift1 (add_hopping conj p [na; nb; nc] (fst q) j e) else Ok p))) (ball os y tol) (Ok p)
        end
      else Ok p)).

  Definition qabs (x : Qc) : Qc := if qleb (Q2Qc 0) x then x else (- x)%Qc.

  (** 143-243 reshape_prim_cell; lf is given as a 3x3 matrix. *)
  Definition reshape (c : gcell E Qc W L) (lf : mat Qc) (delta tol : Qc) : res (gcell E Qc W L) :=
    let '(l1, l2, l3) := lf in
    bind (fold_left (rs_orb lf) (filter (rs_in lf delta) (rs_cands lf (orbs (g_pc c)))) (Ok (pc_empty, om_empty)))
      (fun s : pc E Qc W L * omap =>
    bind (fold_left (rs_hop lf delta tol (orbs (g_pc c)) (orbs (fst s)) (snd s))
            (flat_map (fun k => map (fun t => (k, t)) (flatten (hop (g_pc c)))) (zrange (length (orbs (fst s)))))
            (Ok (fst s)))
      (fun p => Ok {| g_pc := p; g_lat := (vmat l1 (g_lat c), vmat l2 (g_lat c), vmat l3 (g_lat c));
                      g_org := g_org c; g_ext := (g_ext c * qabs (qdet lf))%Qc |})).
End Reshape.
