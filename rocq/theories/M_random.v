(** Model of fortran/random.f90.  Default integers have 32 bits and wrap around
    (the standard leaves overflow open; this is what common compilers do).  The
    generator of the run-time library is a parameter: [draw sd k] is the k-th
    number that RANDOM_NUMBER returns after RANDOM_SEED(put=sd). *)
From Coq Require Import Reals.
From Verif Require Import Prelude Vec Cx.

Local Open Scope Z_scope.

Definition int32 (x : Z) : Z := (x + 2 ^ 31) mod 2 ^ 32 - 2 ^ 31.
(** random.f90:14-33 init_seed: the seed array of length n *)
Definition init_seed (n : nat) (idum : Z) : list Z :=
  map (fun i => int32 (int32 (Z.of_nat i * idum) * 74231) mod 104717) (seq 1 n).

Section Random.
  Context (n_seed : nat) (draw : list Z -> nat -> R).
  (** 57-60: the variables of orbital i *)
  Definition raw (sd : list Z) (i : nat) : R * Cplx :=
    let f := draw sd (2 * i) in
    let g := draw sd (2 * i + 1) in
    let abs_z_sq := (-1 * ln (1 - f))%R in
    (abs_z_sq, Cmul (Cre (sqrt abs_z_sq)) (Ccis (2 * PI * g))).
  (** 36-69 random_state; None: division by zero fills the array with NaN *)
  Definition random_state (n_wf : nat) (iseed : Z) : option (list Cplx) :=
    let iseed0 := int32 (int32 iseed * 49741) in
    let sd := init_seed n_seed iseed0 in
    let st := fold_left (fun a i => let '(wf, s) := a in let '(z, w) := raw sd i in (wf ++ [w], (s + z)%R)) (seq 0 n_wf) ([], 0%R) in
    if Req_EM_T (snd st) 0 then None else Some (map (fun w => Cmul (Cre (/ sqrt (snd st))) w) (fst st)).
End Random.
