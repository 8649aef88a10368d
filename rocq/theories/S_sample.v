(** Specification of samples: block arrays, Hamiltonians from hopping rows,
    compressed sparse rows, magnetic fluxes. *)
From Verif Require Import Prelude Vec Cx.
From Coq Require Import Permutation Sorted.

(** ** Blocks *)
Definition total (ns : list Z) : Z := fold_right Z.add 0 ns.
(** Number of orbitals before block k. *)
Definition before (ns : list Z) (k : nat) : Z := total (firstn k ns).
(** [l] consists of the blocks [ls] of the given sizes: item o of block k has
    number before k + o, and there is nothing else. *)
Definition blocks {A} (ns : list Z) (ls : list (list A)) (l : list A) : Prop :=
  map (fun b => Z.of_nat (length b)) ls = ns /\ Z.of_nat (length l) = total ns /\
  forall k o b x, nth_error ls k = Some b -> nth_error b o = Some x ->
    nth_error l (Z.to_nat (before ns k) + o) = Some x.

(** ** Hamiltonians *)
Section Ham.
  Context {E T Row : Type} {SE : Scalar E} {ST : Scalar T} (conj : E -> E) (inj : T -> E).
  Context (ri rj : Row -> Z) (rv : Row -> E) (rdr : Row -> vec T).

  Definition inside (n : Z) (rows : list Row) : Prop :=
    Forall (fun r => 0 <= ri r < n /\ 0 <= rj r < n) rows.

  (** Each hopping contributes its energy and, reversed, the conjugate. *)
  Definition hop_part (val : Row -> E) (rows : list Row) (i j : Z) : E :=
    esum (map (fun r => sadd (if (ri r =? i) && (rj r =? j) then val r else s0)
                             (if (rj r =? i) && (ri r =? j) then conj (val r) else s0)) rows).
  Definition site (eng : list T) (i j : Z) : E :=
    if (i =? j) && (0 <=? i) then match nth_error eng (Z.to_nat i) with Some w => inj w | None => s0 end else s0.
  Definition ham (val : Row -> E) (eng : list T) (rows : list Row) (i j : Z) : E :=
    sadd (site eng i j) (hop_part val rows i j).

  (** The antisymmetric matrix of displacements. *)
  Definition shift_part (comp : Row -> T) (rows : list Row) (i j : Z) : T :=
    esum (map (fun r => ssub (if (ri r =? i) && (rj r =? j) then comp r else s0)
                             (if (rj r =? i) && (ri r =? j) then comp r else s0)) rows).

  (** ** Compressed sparse rows *)
  (** What row i should hold: column, energy, dx, dy. *)
  Context (keep : T -> bool) (rx ry : Row -> T).
  Definition row_entries (eng : list T) (rows : list Row) (i : Z) : list (Z * E * T * T) :=
    match nth_error eng (Z.to_nat i) with
    | Some w => if keep w then [(i, inj w, s0, s0)] else []
    | None => []
    end ++
    flat_map (fun r => (if ri r =? i then [(rj r, rv r, rx r, ry r)] else []) ++
                       (if rj r =? i then [(ri r, conj (rv r), sopp (rx r), sopp (ry r))] else [])) rows.
End Ham.

Section Csr.
  Context {E T : Type} {SE : Scalar E} {ST : Scalar T}.
  Definition well_formed (n : nat) (indptr : list Z) (len : nat) : Prop :=
    length indptr = S n /\ nth_error indptr 0 = Some 0 /\ nth_error indptr n = Some (Z.of_nat len) /\
    forall i a b, nth_error indptr i = Some a -> nth_error indptr (S i) = Some b -> a <= b.
  (** The slots of row i. *)
  Definition csr_row (indptr indices : list Z) (hop : list E) (dx dy : list T) (i : Z) : list (Z * E * T * T) :=
    match nth_error indptr (Z.to_nat i), nth_error indptr (S (Z.to_nat i)) with
    | Some a, Some b =>
      firstn (Z.to_nat b - Z.to_nat a) (skipn (Z.to_nat a) (combine (combine (combine indices hop) dx) dy))
    | _, _ => []
    end.
  (** The matrix represented by rows of entries. *)
  Definition represented {A} {SA : Scalar A} (val : Z * E * T * T -> A) (row : Z -> list (Z * E * T * T)) (i j : Z) : A :=
    esum (map (fun e => let '(c, _, _, _) := e in if c =? j then val e else s0) (row i)).
  Definition e_hop (e : Z * E * T * T) : E := let '(_, v, _, _) := e in v.
  Definition e_dx (e : Z * E * T * T) : T := let '(_, _, x, _) := e in x.
  Definition e_dy (e : Z * E * T * T) : T := let '(_, _, _, y) := e in y.
  Definition e_col (e : Z * E * T * T) : Z := let '(c, _, _, _) := e in c.
End Csr.

(** A sorting permutation of positions. *)
Definition sorts (argsort : list Z -> list Z) : Prop :=
  forall l, Permutation (argsort l) (zrange (length l)) /\
    StronglySorted Z.le (map (fun k => nth (Z.to_nat k) l 0) (argsort l)).

(** ** Magnetic fields *)
Section Flux.
  Context {T : Type} {ST : Scalar T}.
  (** Twice the signed area of a closed polygon p0, p1, ..., p0 in the xy-plane
      (shoelace formula). *)
  Fixpoint shoelace (p : vec T) (ps : list (vec T)) : T :=
    match ps with
    | [] => s0
    | q :: r => let '(xi, yi, _) := p in let '(xj, yj, _) := q in
                sadd (ssub (smul xi yj) (smul xj yi)) (shoelace q r)
    end.
  Definition area2 (p0 : vec T) (ps : list (vec T)) : T := shoelace p0 (ps ++ [p0]).
End Flux.

(** Real numbers inside the complex numbers. *)
Record RealLaws {E T : Type} {SE : Scalar E} {ST : Scalar T} (conj : E -> E) (inj : T -> E) (inv : T -> T) : Prop := {
  inj_real : forall x, conj (inj x) = inj x;
  inj_mul : forall x y, inj (smul x y) = smul (inj x) (inj y);
  inj_0 : inj s0 = s0;
  inj_1 : inj s1 = s1;
  mul_inv : forall x, x <> s0 -> smul x (inv x) = s1 }.

(** A row after adding offsets to its indices. *)
Definition moved {E T Row : Type} (ri rj : Row -> Z) (rv : Row -> E) (rdr : Row -> vec T) (di dj : Z) (r r' : Row) : Prop :=
  ri r' = ri r + di /\ rj r' = rj r + dj /\ rv r' = rv r /\ rdr r' = rdr r.

(** Position of the first occurrence. *)
Definition first_at (l : list Z) (x : Z) (k : nat) : Prop :=
  nth_error l k = Some x /\ forall m, (m < k)%nat -> nth_error l m <> Some x.
