(** What a list of neighbours is. *)
From Verif Require Import Prelude Vec.

Section Neigh.
  Context {T D : Type} {ST : Scalar T} (leb : D -> D -> bool) (dzero : D) (norm : vec T -> D).
  (** Displacement from orbital i of one cell to orbital j of the other in
      cell R. *)
  Definition displacement (bra ket : list (vec T)) (lat : mat T) (R : Z * Z * Z) (i j : Z) (v : vec T) : Prop :=
    exists p q, 0 <= i /\ 0 <= j /\ nth_error bra (Z.to_nat i) = Some p /\ nth_error ket (Z.to_nat j) = Some q /\ v = vsub (vadd q (vmat (vZ R) lat)) p.
  Definition within (m R : Z * Z * Z) : Prop :=
    let '(a, b, c) := m in let '(x, y, z) := R in (- a <= x <= a) /\ (- b <= y <= b) /\ (- c <= z <= c).
  Definition neighbour (bra ket : list (vec T)) (lat : mat T) (m : Z * Z * Z) (cut : D) (R : Z * Z * Z) (i j : Z) (v : vec T) (d : D) : Prop :=
    within m R /\ displacement bra ket lat R i j v /\ d = norm v /\ leb d dzero = false /\ leb d cut = true.
  (** Search order of the cells. *)
  Definition before (R R' : Z * Z * Z) : Prop :=
    let '(a, b, c) := R in let '(x, y, z) := R' in a < x \/ (a = x /\ (b < y \/ (b = y /\ c <= z))).
  (** What scipy.spatial.KDTree promises: [near p q cut] lists the pairs of
      points not farther than [cut], each once, with their distance.  Pairs of
      coinciding points may or may not be listed. *)
  Definition kd_tree (near : list (vec T) -> list (vec T) -> D -> list ((Z * Z) * D)) : Prop :=
    forall p q cut, NoDup (map fst (near p q cut)) /\
      forall i j d, leb d dzero = false ->
        (In ((i, j), d) (near p q cut) <-> exists x y, 0 <= i /\ 0 <= j /\ nth_error p (Z.to_nat i) = Some x /\ nth_error q (Z.to_nat j) = Some y /\ d = norm (vsub y x) /\ leb d cut = true).
  Definition total_order : Prop := (forall a b, leb a b = true \/ leb b a = true) /\ (forall a b c, leb a b = true -> leb b c = true -> leb a c = true).
End Neigh.
