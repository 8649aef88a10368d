(** Specification of linear response: Fermi function, Lindhard polarization,
    Kubo-Greenwood conductivity, k-meshes.  No model definitions. *)
From Verif Require Import Prelude Vec Cx S_lat.
From Coq Require Import Reals.
Local Open Scope R_scope.

Definition fermi (beta mu e : R) : R := / (exp (beta * (e - mu)) + 1).
(** 1 / z *)
Definition crecip (z : Cplx) : Cplx :=
  (fst z / (fst z * fst z + snd z * snd z), - snd z / (fst z * fst z + snd z * snd z)).
Definition abs2 (z : Cplx) : R := fst z * fst z + snd z * snd z.
Definition sum_to (n : nat) (f : nat -> Cplx) : Cplx := esum (map f (seq 0 n)).
(** exp(i x) *)
Definition cexp_i (x : R) : Cplx := (cos x, sin x).

(** Eigenvalues and eigenvectors that a solver returns for a k-point. *)
Definition diag (sol : point -> res (list R * list (list Cplx))) (no : nat) (k : point)
    (E : nat -> R) (U : nat -> nat -> Cplx) : Prop :=
  exists es vs, sol k = Ok (es, vs) /\ length es = no /\ length vs = no /\ (forall v, In v vs -> length v = no) /\
    (forall j, (j < no)%nat -> E j = nth j es 0) /\
    forall j b, (j < no)%nat -> (b < no)%nat -> U j b = nth b (nth j vs []) (0, 0).

(** <k+q, l| exp(i q.r) |k, j> *)
Definition overlap (no : nat) (phase : nat -> Cplx) (u' u : nat -> Cplx) : Cplx :=
  sum_to no (fun b => Cmul (Cmul (Cconj (u' b)) (u b)) (phase b)).
(** sum over k, j, l of (f_kj - f_k'l) |<k'l|e^iqr|kj>|^2 / (E_kj - E_k'l + w + i delta) *)
Definition chi {K} (no : nat) (beta mu delta : R) (phase : nat -> Cplx) (ks : list K)
    (E E' : K -> nat -> R) (U U' : K -> nat -> nat -> Cplx) (w : R) : Cplx :=
  esum (map (fun k => sum_to no (fun j => sum_to no (fun l =>
    Cmul (Cre ((fermi beta mu (E k j) - fermi beta mu (E' k l)) * abs2 (overlap no phase (U' k l) (U k j))))
         (crecip (E k j - E' k l + w, delta))))) ks).

(** <u'| V |u> *)
Definition melem (no : nat) (Vm : nat -> nat -> Cplx) (u' u : nat -> Cplx) : Cplx :=
  sum_to no (fun a => sum_to no (fun b => Cmul (Cmul (Cconj (u' a)) (Vm a b)) (u b))).
(** sum over k and the pairs of bands further apart than tol of
    (f_m - f_n)/(E_m - E_n) <n|v1|m> <m|v2|n> / (E_m - E_n - w - i delta) *)
Definition kubo {K} (no : nat) (beta mu delta tol : R) (ks : list K) (V1 V2 : K -> nat -> nat -> Cplx)
    (E : K -> nat -> R) (U : K -> nat -> nat -> Cplx) (w : R) : Cplx :=
  esum (map (fun k => sum_to no (fun m => sum_to no (fun n =>
    if Rlt_dec (Rabs (E k m - E k n)) tol then Cre 0 else
    Cmul (Cmul (Cre ((fermi beta mu (E k m) - fermi beta mu (E k n)) / (E k m - E k n)))
               (Cmul (melem no (V1 k) (U k n) (U k m)) (melem no (V2 k) (U k m) (U k n))))
         (crecip (E k m - E k n - w, - delta))))) ks).

(** Displacements along x, y, z. *)
Definition coord (l : line) (d : point) : R := let '(x, y, z) := d in match l with Lx => x | Ly => y | Lz => z end.
Definition step_along (l : line) (k : point) (t : R) : point :=
  let '(x, y, z) := k in match l with Lx => (x + t, y, z) | Ly => (x, y + t, z) | Lz => (x, y, z + t) end.
(** Bloch sum of the off-diagonal terms: each hopping t from i to j at
    displacement d gives t exp(i k.d) at (i, j) and the conjugate at (j, i). *)
Notation hop_term := (Z * Z * Cplx * point)%type.
Definition bloch_sum (hops : list hop_term) (k : point) (a b : Z) : Cplx :=
  esum (map (fun h : hop_term => let '(i, j, t, d) := h in
    Cadd (if (a =? i)%Z && (b =? j)%Z then Cmul t (cexp_i (inner k d)) else Cre 0)
         (if (a =? j)%Z && (b =? i)%Z then Cconj (Cmul t (cexp_i (inner k d))) else Cre 0)) hops).
(** Derivative of a complex function of a real variable. *)
Definition cderiv (f : R -> Cplx) (x : R) (d : Cplx) : Prop :=
  derivable_pt_lim (fun t => fst (f t)) x (fst d) /\ derivable_pt_lim (fun t => snd (f t)) x (snd d).

(** Integer meshes. *)
Notation pt3 := (Z * Z * Z)%type.
Definition on_mesh (n k : pt3) : Prop :=
  let '(na, nb, nc) := n in let '(a, b, c) := k in (0 <= a < na /\ 0 <= b < nb /\ 0 <= c < nc)%Z.
Definition is_mesh (n : pt3) (ks : list pt3) : Prop := NoDup ks /\ forall k, In k ks <-> on_mesh n k.
Definition sizes_pos (n : pt3) : Prop := let '(na, nb, nc) := n in (0 < na /\ 0 < nb /\ 0 < nc)%Z.
(** Equal modulo the mesh, i.e. up to reciprocal lattice vectors. *)
Definition same_k (n k k' : pt3) : Prop :=
  let '(na, nb, nc) := n in let '(a, b, c) := k in let '(a', b', c') := k' in
  exists x y z, (a' = a + x * na /\ b' = b + y * nb /\ c' = c + z * nc)%Z.
Definition add3 (k q : pt3) : pt3 := let '(a, b, c) := k in let '(x, y, z) := q in (a + x, b + y, c + z)%Z.
Definition frac_of (n k : pt3) : point :=
  let '(na, nb, nc) := n in let '(a, b, c) := k in (IZR a / IZR na, IZR b / IZR nb, IZR c / IZR nc).

(** b0, b1, b2 is the reciprocal basis of a0, a1, a2. *)
Definition dual (a0 a1 a2 b0 b1 b2 : point) : Prop :=
  (inner a0 b0 = 2 * PI /\ inner a1 b0 = 0 /\ inner a2 b0 = 0) /\
  (inner a0 b1 = 0 /\ inner a1 b1 = 2 * PI /\ inner a2 b1 = 0) /\
  (inner a0 b2 = 0 /\ inner a1 b2 = 0 /\ inner a2 b2 = 2 * PI).
(** |a0 . (a1 x a2)| and |a0 x a1|. *)
Definition volume (a0 a1 a2 : point) : R :=
  let '(x0, y0, z0) := a0 in let '(x1, y1, z1) := a1 in let '(x2, y2, z2) := a2 in
  Rabs (x0 * (y1 * z2 - z1 * y2) + y0 * (z1 * x2 - x1 * z2) + z0 * (x1 * y2 - y1 * x2)).
Definition area (a0 a1 : point) : R := sqrt (inner a0 a0 * inner a1 a1 - inner a0 a1 * inner a0 a1).
(** Volume (3d) or volume per height (2d) of the cell. *)
Definition measure (dim : Z) (a0 a1 a2 : point) : R :=
  if (dim =? 2)%Z then volume a0 a1 a2 / len a2 else volume a0 a1 a2.
