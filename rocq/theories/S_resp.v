(** Specification of response functions.  No model definitions. *)
From Coq Require Import Reals.
From Verif Require Import Prelude Vec Cx S_prop S_tbpm S_ana.
Local Open Scope R_scope.

(** Orthonormal and complete: a basis of the vectors of n entries. *)
Definition basis (n : nat) (v : nat -> nat -> Cplx) : Prop :=
  (forall a b, (a < n)%nat -> (b < n)%nat -> inner Cconj n (v a) (v b) = if Nat.eqb a b then s1 else s0) /\
  (forall i j, (i < n)%nat -> (j < n)%nat -> sum_to n (fun a => Cmul (v a i) (Cconj (v a j))) = if Nat.eqb i j then s1 else s0).
Definition eigenbasis (n : nat) (h : nat -> nat -> Cplx) (e : nat -> R) (v : nat -> nat -> Cplx) : Prop :=
  basis n v /\ forall a i, (a < n)%nat -> (i < n)%nat -> mv n h (v a) i = Cmul (Cre (e a)) (v a i).
(** Sum over the states of the original basis *)
Definition full (n : nat) (f : (nat -> Cplx) -> Cplx) : Cplx := sum_to n (fun k => f (unit_vec k)).
(** < v_a | A | v_b > *)
Definition element (n : nat) (A : (nat -> Cplx) -> nat -> Cplx) (x y : nat -> Cplx) : Cplx := inner Cconj n x (A y).

(** Terms of the expansion of delta(e - H) and of the Green's function, as
    functions of the energy: T_n(e) and exp(i n acos e), over sqrt(1 - e^2). *)
Definition delta_term (n : nat) (e : R) : R := cos (INR n * acos e) / sqrt (1 - e * e).
Definition green_re (n : nat) (e : R) : R := cos (INR n * acos e) / sqrt (1 - e * e).
Definition green_im (n : nat) (e : R) : R := sin (INR n * acos e) / sqrt (1 - e * e).
(** dG n e is the derivative with respect to energy. *)
Definition green_slope (dG : nat -> R -> Cplx) : Prop := forall n e, -1 < e < 1 ->
  derivable_pt_lim (green_re n) e (fst (dG n e)) /\ derivable_pt_lim (green_im n) e (snd (dG n e)).
(** The points cos x, x = (k+1) pi / n, and their lengths on the energy axis. *)
Definition node (n k : nat) : R := cos (INR (S k) * PI / INR n).
Definition node_width (n k : nat) : R := PI / INR n * sqrt (1 - node n k * node n k).
(** delta_i(e) G_j'(e) + conj(G_i'(e)) delta_j(e) *)
Definition bastin (dG : nat -> R -> Cplx) (i j : nat) (e : R) : Cplx :=
  Cadd (Cmul (Cre (delta_term i e)) (dG j e)) (Cmul (Cconj (dG i e)) (Cre (delta_term j e))).
(** Expansions of delta(e - a) and G'(e - a) for a level a, with damping g. *)
Definition level_delta (g : nat -> R) (nk : nat) (a e : R) : R := sum_to nk (fun i => g i * cheb_val a i * delta_term i e).
Definition level_slope (dG : nat -> R -> Cplx) (g : nat -> R) (nk : nat) (a e : R) : Cplx := sum_to nk (fun i => Cmul (Cre (g i * cheb_val a i)) (dG i e)).

(** Discrete Hilbert transform of N values at the point j. *)
Definition hilbert_at (N : nat) (s : nat -> R) (j : nat) : R :=
  / INR N * sum_to N (fun m => if Nat.eqb j m then 0 else
     s m * ((1 - (-1) ^ (j + m)) * (cos (PI * (INR j - INR m) / INR N) / sin (PI * (INR j - INR m) / INR N)))).
(** The even continuation of f over the frequencies -n, ..., n-1; the value at
    -n is zero. *)
Definition even_side (n : nat) (f : nat -> R) (m : nat) : R := if Nat.eqb m 0 then 0 else if (n <=? m)%nat then f (m - n)%nat else f (n - m)%nat.
