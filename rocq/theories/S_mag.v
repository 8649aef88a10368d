(** Specification of magnetic fields: vector potentials, Peierls phases,
    closed walks and the flux they enclose. *)
From Verif Require Import Prelude Vec Cx S_sample.

Section Potential.
  Context {T : Type} {ST : Scalar T} (half : T).
  (** The vector potentials of a field b along -z that set_magnetic_field
      documents: 0 for (By, 0, 0), 1 for (0, -Bx, 0), 2 for (By/2, -Bx/2, 0). *)
  Definition potential (gauge : Z) (b : T) (p : vec T) : T * T :=
    let '(x, y, _) := p in
    if gauge =? 0 then (smul b y, s0)
    else if gauge =? 1 then (s0, sopp (smul b x))
    else (smul half (smul b y), sopp (smul half (smul b x))).
  (** c (R_j - R_i) . (A_j + A_i). *)
  Definition peierls (c : T) (A : vec T -> T * T) (p q dr : vec T) : T :=
    let '(dx, dy, _) := dr in
    smul c (sadd (smul dx (sadd (fst (A q)) (fst (A p)))) (smul dy (sadd (snd (A q)) (snd (A p))))).
End Potential.

Section Walk.
  Context {E T Row : Type} {SE : Scalar E} {ST : Scalar T} (conj : E -> E) (ri rj : Row -> Z) (rv : Row -> E) (rdr : Row -> vec T).

  (** No hopping leaves through a periodic boundary. *)
  Definition open (pos : list (vec T)) (rows : list Row) : Prop :=
    forall r p q, In r rows -> nth_error pos (Z.to_nat (ri r)) = Some p -> nth_error pos (Z.to_nat (rj r)) = Some q ->
      rdr r = vsub q p.

  (** A walk along hoppings, each followed forwards (true) or backwards; the
      hoppings are given by their numbers, [ps] are the positions reached. *)
  Inductive walk (pos : list (vec T)) (rows : list Row) : Z -> list (bool * nat) -> list (vec T) -> Z -> Prop :=
  | walk_stay i : walk pos rows i [] [] i
  | walk_step (f : bool) k r p steps ps j :
      nth_error rows k = Some r ->
      nth_error pos (Z.to_nat (if f then rj r else ri r)) = Some p ->
      walk pos rows (if f then rj r else ri r) steps ps j ->
      walk pos rows (if f then ri r else rj r) ((f, k) :: steps) (p :: ps) j.
  (** Product of the hopping energies along a walk. *)
  Definition amplitude (rows : list Row) (steps : list (bool * nat)) : E :=
    fold_right (fun (q : bool * nat) acc =>
      match nth_error rows (snd q) with
      | Some r => smul (if fst q then rv r else conj (rv r)) acc
      | None => s0
      end) s1 steps.
End Walk.
