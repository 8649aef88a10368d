(** Bloch waves on a periodic supercell. *)
From Verif Require Import Prelude Vec Cx S_index S_bloch.

Section Fold.
  Context {E T : Type} {SE : Scalar E} {ST : Scalar T} (cis : T -> E) (tau : T).
  (** The vector [u] on one cell, continued over the sites with the phases
      exp(2 pi i g.(cell + tau)). *)
  Definition continued (g : vec T) (taus : list (vec T)) (u : Z -> E) (sites : list site) (m : Z) : E :=
    match nth_error sites (Z.to_nat m) with
    | Some (a, b, c, o) => match nth_error taus (Z.to_nat o) with
                           | Some t => smul (phase cis tau g (vadd (vZ (a, b, c)) t)) (u o)
                           | None => s0
                           end
    | None => s0
    end.
  (** k and k' are the same point of the supercell: n (k - k') is an integer
      along periodic directions. *)
  Definition same_folded (d : Z * Z * Z) (pb : bool * bool * bool) (k k' : vec T) : Prop :=
    let '(na, nb, nc) := d in let '(pa, pb, pc) := pb in let '(x, y, z) := vsub k k' in
    (pa = true -> exists m, smul x (sZ na) = sZ m) /\ (pb = true -> exists m, smul y (sZ nb) = sZ m) /\ (pc = true -> exists m, smul z (sZ nc) = sZ m).
  (** Hoppings do not leave the supercell along open directions. *)
  Definition stays (pb : bool * bool * bool) (amp : Z * Z * Z -> Z -> Z -> option E) : Prop :=
    forall a b c i j e, amp (a, b, c) i j = Some e -> let '(pa, pb, pc) := pb in (pa = false -> a = 0) /\ (pb = false -> b = 0) /\ (pc = false -> c = 0).
  (** The Cartesian wave vector K is 2 pi k in the coordinates of the lattice. *)
  Definition cartesian (lat : mat T) (K k : vec T) : Prop := forall v, dot3 K (vmat v lat) = smul tau (dot3 k v).
End Fold.
