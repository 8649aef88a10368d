(** Model of tbplas/builder/advanced.py:402-474 find_neighbors. *)
From Verif Require Import Prelude Vec M_super.

Section Neigh.
  (** D: distances; [near]: KDTree(p).sparse_distance_matrix(KDTree(q), d).items() *)
  Context {T D : Type} {ST : Scalar T} (leb : D -> D -> bool) (dzero : D).
  Context (near : list (vec T) -> list (vec T) -> D -> list ((Z * Z) * D)).

  (** What find_neighbors reads of a PrimitiveCell (prim = true) or SuperCell:
      orb_pos_nm / get_orb_pos() and lat_vec / sc_lat_vec. *)
  Record cell := { prim : bool; c_pos : list (vec T); c_lat : mat T }.
  Record term := { t_rn : Z * Z * Z; t_pair : Z * Z; t_rij : vec T; t_dist : D }.

  (** primitive.py:587-596 verify_orbitals; a SuperCell has no such method *)
  Definition verify_orbitals (c : cell) : res unit :=
    if prim c then match c_pos c with [] => Err PCOrbEmptyError | _ => Ok tt end else Err AttributeError.
  (** Python range(-m, m+1) *)
  Definition sym_range (m : Z) : list Z := map (fun k => k - m) (zrange (Z.to_nat (2 * m + 1))).
  (** advanced.py:452-455 *)
  Definition neighbor_rn (a_max b_max c_max : Z) : list (Z * Z * Z) :=
    flat_map (fun ia => flat_map (fun ib => map (fun ic => (ia, ib, ic)) (sym_range c_max)) (sym_range b_max)) (sym_range a_max).
  (** advanced.py:460-472: one cell *)
  Definition one_cell (pos_bra pos_ket : list (vec T)) (lat : mat T) (cut : D) (rn : Z * Z * Z) : res (list term) :=
    let pos_ket_rn := map (fun p => vadd p (vmat (vZ rn) lat)) pos_ket in
    flatM (fun pd => let '((i, j), d) := pd in
      if negb (leb d dzero) then
        bind (rd pos_ket_rn j) (fun q => bind (rd pos_bra i) (fun p => Ok [{| t_rn := rn; t_pair := (i, j); t_rij := vsub q p; t_dist := d |}]))
      else Ok []) (near pos_bra pos_ket_rn cut).
  (** Python sorted(..., key=distance): stable *)
  Fixpoint tinsert (x : term) (l : list term) : list term :=
    match l with [] => [x] | y :: r => if leb (t_dist x) (t_dist y) then x :: l else y :: tinsert x r end.
  Definition tsort (l : list term) : list term := fold_right tinsert [] l.

  (** advanced.py:402-474; [ket] is None when cell_ket is not given *)
  Definition find_neighbors (bra : cell) (ket : option cell) (a_max b_max c_max : Z) (cut : D) : res (list term) :=
    let ket := match ket with Some k => k | None => bra end in
    bind (if prim bra then bind (verify_orbitals bra) (fun _ => verify_orbitals ket)
          else if prim ket then Err AttributeError else Ok tt) (fun _ =>
    bind (flatM (one_cell (c_pos bra) (c_pos ket) (c_lat ket) cut) (neighbor_rn a_max b_max c_max)) (fun l =>
    Ok (tsort l))).
End Neigh.
Arguments cell : clear implicits.
Arguments term : clear implicits.
