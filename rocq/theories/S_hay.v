(** Specification of the Haydock (Lanczos) recursion and of the resolvent.  No
    model definitions. *)
From Coq Require Import Reals.
From Verif Require Import Prelude Vec Cx S_prop.

Section Spec.
  Context {E : Type} {SE : Scalar E} (conj : E -> E).
  Notation vector := (nat -> E).
  Definition before {A} (d : A) (f : nat -> A) (i : nat) : A := match i with O => d | S i => f i end.
  (** v_0 .. v_(d-1) are orthonormal, A is tridiagonal in them with diagonal a
      and off-diagonal b, and what is left of A v_(d-1) has length b_(d-1). *)
  Definition tridiagonal (n : nat) (A : vector -> vector) (d : nat) (v : nat -> vector) (a b : nat -> E) : Prop :=
    (forall i j, (i < d)%nat -> (j < d)%nat -> inner conj n (v i) (v j) = if Nat.eqb i j then s1 else s0) /\
    (forall i, (i < d)%nat -> a i = inner conj n (v i) (A (v i)) /\ conj (a i) = a i /\ conj (b i) = b i) /\
    (forall i t, (S i < d)%nat -> (t < n)%nat ->
       A (v i) t = sadd (sadd (smul (before s0 b i) (before (fun _ => s0) v i t)) (smul (a i) (v i t))) (smul (b i) (v (S i) t))) /\
    (forall i, S i = d -> let r := fun t => ssub (ssub (A (v i) t) (smul (a i) (v i t))) (smul (before s0 b i) (before (fun _ => s0) v i t)) in
       inner conj n r r = smul (b i) (b i)).
End Spec.

(** g is the first entry of the solution of (z - T) x = (1, 0, 0, ...), T the
    tridiagonal matrix of size d. *)
Definition resolvent00 (d : nat) (a : nat -> Cplx) (b : nat -> Cplx) (z g : Cplx) : Prop :=
  exists x : nat -> Cplx, x 0%nat = g /\
  forall i, (i < d)%nat ->
    ssub (ssub (smul (ssub z (a i)) (x i)) (if Nat.eqb (S i) d then s0 else smul (b i) (x (S i))))
         (match i with O => s0 | S i' => smul (b i') (x i') end) = if Nat.eqb i 0 then s1 else s0.
