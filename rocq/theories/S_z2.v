(** Specification of Wilson loops, phase tracking and crossings.  No model
    definitions. *)
From Verif Require Import Prelude Cx.
From Coq Require Import Reals Permutation.
Local Open Scope R_scope.

Notation cmatrix := (nat -> nat -> Cplx).
Definition sum_n (n : nat) (f : nat -> Cplx) : Cplx := esum (map f (seq 0 n)).
Definition delta (i j : nat) : Cplx := if Nat.eqb i j then (1, 0) else (0, 0).
(** Product of n x n matrices, Hermitian conjugate, unitarity g g* = 1. *)
Definition mul (n : nat) (a b : cmatrix) : cmatrix := fun i j => sum_n n (fun k => Cmul (a i k) (b k j)).
Definition adj (a : cmatrix) : cmatrix := fun i j => Cconj (a j i).
Definition unitary (n : nat) (g : cmatrix) : Prop := forall i j, (i < n)%nat -> (j < n)%nat -> mul n g (adj g) i j = delta i j.
Definition meq (n : nat) (a b : cmatrix) : Prop := forall i j, (i < n)%nat -> (j < n)%nat -> a i j = b i j.
(** Columns v' are the unitary mixtures of the columns v. *)
Definition mixed (norb n : nat) (g v v' : cmatrix) : Prop :=
  unitary n g /\ forall b j, (b < norb)%nat -> (j < n)%nat -> v' b j = sum_n n (fun i => Cmul (v b i) (g i j)).

(** q continues the phases p0: it is the row p1 in another order and up to
    multiples of 2 pi (at most one), it is close to p0, and no other choice is. *)
Definition shift_ok (n : Z) : Prop := n = (-2)%Z \/ n = 0%Z \/ n = 2%Z.
Definition continues (thr : R) (p0 p1 q : list R) : Prop :=
  length p1 = length p0 /\ length q = length p0 /\
  exists (s : nat -> nat) (n : nat -> Z),
    (forall j, (j < length p0)%nat -> (s j < length p0)%nat) /\
    (forall j j', (j < length p0)%nat -> (j' < length p0)%nat -> s j = s j' -> j = j') /\
    forall j, (j < length p0)%nat -> shift_ok (n j) /\ nth j q 0 = nth (s j) p1 0 + IZR (n j) * PI /\ Rabs (nth j p0 0 - nth j q 0) < thr /\
      forall m k, (m < length p0)%nat -> shift_ok k -> (m, k) <> (s j, n j) -> thr < Rabs (nth j p0 0 - (nth m p1 0 + IZR k * PI)).
Fixpoint continuation (thr : R) (p0 : list R) (raw out : list (list R)) : Prop :=
  match raw, out with
  | [], [] => True
  | p1 :: raw', q :: out' => continues thr p0 p1 q /\ continuation thr q raw' out'
  | _, _ => False
  end.

(** Number of bands that are on different sides of ref in two rows. *)
Definition opposite (ref x y : R) : Prop := (x < ref /\ ref < y) \/ (y < ref /\ ref < x).
Fixpoint n_opposite (ref : R) (p q : list R) (n : nat) : Prop :=
  match p, q with
  | x :: p', y :: q' => (opposite ref x y /\ exists m, n = S m /\ n_opposite ref p' q' m) \/ (~ opposite ref x y /\ n_opposite ref p' q' n)
  | _, _ => n = O
  end.

(** The Wilson loop: product of the overlaps of the occupied states along a
    closed line of k-points. *)
Definition overlap (norb : nat) (v w : cmatrix) : cmatrix := fun i j => sum_n norb (fun b => Cmul (Cconj (v b i)) (w b j)).
Fixpoint chain (norb n : nat) (v : cmatrix) (vs : list cmatrix) (last : cmatrix) : cmatrix :=
  match vs with
  | [] => overlap norb v last
  | w :: r => mul n (overlap norb v w) (chain norb n w r last)
  end.
Definition wilson (norb n : nat) (v : cmatrix) (vs : list cmatrix) : cmatrix := chain norb n v vs v.
(** An eigenvalue routine: n values, the same for similar matrices. *)
Definition spectrum (n : nat) (eig : cmatrix -> list Cplx) : Prop :=
  (forall a, length (eig a) = n) /\ (forall a b, meq n a b -> Permutation (eig a) (eig b)) /\
  forall a b g, unitary n g -> meq n b (mul n (adj g) (mul n a g)) -> Permutation (eig a) (eig b).
(** Ascending list. *)
Definition ascending (l : list R) : Prop := forall i j, (i <= j < length l)%nat -> nth i l 0 <= nth j l 0.
(** Phase of an eigenvalue; 0 if its modulus is below 1e-14. *)
Definition phase_of (angle : Cplx -> R) (x : Cplx) : R :=
  if Rlt_dec (fst x * fst x + snd x * snd x) (/ 10 ^ 14 * / 10 ^ 14) then 0 else angle x.
