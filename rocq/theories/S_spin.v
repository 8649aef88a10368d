(** Expectation values of the Pauli matrices.  No model definitions. *)
From Verif Require Import Prelude Vec Cx.
From Coq Require Import Reals.
Local Open Scope R_scope.

(** Components x, y, z of the spin; pauli c s s' is the matrix element between
    spin s and s' (false: up, true: down). *)
Inductive axis := Sx | Sy | Sz.
Definition pauli (c : axis) (s s' : bool) : Cplx :=
  match c, s, s' with
  | Sx, false, true | Sx, true, false => (1, 0)
  | Sy, false, true => (0, -1)
  | Sy, true, false => (0, 1)
  | Sz, false, false => (1, 0)
  | Sz, true, true => (-1, 0)
  | _, _, _ => (0, 0)
  end.
(** Amplitude of orbital i (of n) with spin s. *)
Definition amp (spin_major : bool) (n : nat) (psi : list Cplx) (i : nat) (s : bool) : Cplx :=
  nth (if spin_major then (i + (if s then n else 0))%nat else (2 * i + (if s then 1 else 0))%nat) psi (0, 0).
Definition total (n : nat) (f : nat -> Cplx) : Cplx := esum (map f (seq 0 n)).
(** <psi| sigma_c |psi> *)
Definition spin (c : axis) (n : nat) (a : nat -> bool -> Cplx) : Cplx :=
  total n (fun i => esum (map (fun ss => Cmul (Cmul (Cconj (a i (fst ss))) (pauli c (fst ss) (snd ss))) (a i (snd ss)))
                              [(false, false); (false, true); (true, false); (true, true)])).
(** <psi|psi>, the sum of squared moduli. *)
Definition norm2 (psi : list Cplx) : R := fold_right (fun z x => fst z * fst z + snd z * snd z + x) 0 psi.
