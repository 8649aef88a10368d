(** Specification of the correlation functions of the DC conductivity.  No model
    definitions. *)
From Coq Require Import Reals Sorted.
From Verif Require Import Prelude Vec Cx S_prop S_tbpm S_dos.

Section Spec.
  Context {E : Type} {SE : Scalar E} (conj : E -> E) (img : E) (inv : E -> E) (is0 : E -> bool) (re sqrt abs : E -> E) (bad : E -> E -> bool).
  Notation vector := (nat -> E).
  Context (n : nat) (h : nat -> nat -> E) (bes : list E) (wdw : Z -> E) (ph : list (Z -> E)).
  Notation U := (evolved img n h bes).
  (** The normalised quasi-eigenstate of one energy. *)
  Definition quasi_state (nt : nat) (x : vector) (p : Z -> E) : vector :=
    scaled (inv (quasi_norm conj img re sqrt n h bes wdw nt x p)) (quasi conj img n h bes wdw nt x p).
  (** |<x|q>| *)
  Definition weight (nt : nat) (x : vector) (p : Z -> E) : E := abs (inner conj n x (quasi_state nt x p)).
  (** < (J x)(t) | J q > / |<x|q>| *)
  Definition dc_value (J : vector -> vector) (nt : nat) (x : vector) (p : Z -> E) (t : nat) : E :=
    inner conj n (U t (J x)) (J (scaled (inv (weight nt x p)) (quasi_state nt x p))).
  (** A sample fails in the norm check, or if a quasi-eigenstate vanishes or is
      orthogonal to the state. *)
  Definition dc_fail (nt : nat) (chk : Z) (x : vector) : option exn :=
    match quasi_fail conj img is0 re sqrt bad n h bes wdw ph (Z.of_nat nt) chk x with
    | Some e => Some e
    | None => if existsb (fun p => is0 (weight nt x p)) ph then Some ZeroDivisionError else None
    end.
  (** Both correlation functions; entries of the second beyond the number of
      energies are zero.  The first starts at time 1. *)
  Definition dc_entry (jx jy : nat -> nat -> E) (nt : nat) (x : vector) (i : Z + Z * Z * Z) : E :=
    match i with
    | inl t => dos_value conj img n h bes x (S (Z.to_nat t))
    | inr (d, e, t) => match nth_error ph (Z.to_nat e) with
                       | Some p => dc_value (mv n (if d =? 0 then jx else jy)) nt x p (Z.to_nat t)
                       | None => s0
                       end
    end.
  Definition dc_index (nt : nat) (n_energies : nat) (i : Z + Z * Z * Z) : Prop :=
    match i with
    | inl t => 0 <= t < Z.of_nat nt
    | inr (d, e, t) => 0 <= d < 2 /\ 0 <= e < Z.of_nat n_energies /\ 0 <= t < Z.of_nat nt
    end.
End Spec.

(** Numbers of the energies -range/2 + k range/(2n) within the limits, in
    ascending order. *)
Definition selected (n : nat) (range lo hi : R) (sel : list nat) : Prop :=
  StronglySorted lt sel /\ forall k, In k sel <-> (k < 2 * n)%nat /\ (lo <= level n range k <= hi)%R.
(** An entry of a nested list *)
Definition entry3 {A} (l : list (list (list A))) (d j t : nat) (v : A) : Prop :=
  exists a b, nth_error l d = Some a /\ nth_error a j = Some b /\ nth_error b t = Some v.
Definition shape3 {A} (l : list (list (list A))) (nd nj nt : nat) (c : nat -> nat -> nat -> A) : Prop :=
  forall d j t, (d < nd)%nat -> (j < nj)%nat -> (t < nt)%nat -> entry3 l d j t (c d j t).

(** Windowed correlation in the rotating frame of the energy e. *)
Definition rotating (w : Z -> R) (dt e : R) (c : nat -> Cplx) (t : nat) : R :=
  (w (Z.of_nat t + 1)%Z * fst (Cmul (Ccis (- (INR t * dt * e))) (c t)))%R.
(** Response of the energy filter of n steps to a level at distance e: the sum
    over both signs of time of the window times exp(i e t dt). *)
Definition response (nt : nat) (dt e : R) : R :=
  (1 + 2 * esum (map (fun k => (1 + cos (PI * INR (S k) / INR nt)) / 2 * cos (e * INR (S k) * dt)) (seq 0 nt)))%R.
(** Window over time of the filter and phases of the selected energies. *)
Definition hann (nt : nat) (t : Z) : Cplx := Cre (1 / 2 * (1 + cos (PI * IZR t / IZR (Z.of_nat nt))))%R.
Definition rotation (dt e : R) (t : Z) : Cplx := Ccis (e * IZR t * dt)%R.
(** The propagator multiplies an eigenvector of the value a by exp(-i e dt) in
    a step forward, and by the inverse in a step back. *)
Definition evolves (img : Cplx) (bes : list Cplx) (dt e : R) (a : Cplx) : Prop :=
  sum_to (length bes) (fun k => smul (evol img true bes k) (cheb_val a k)) = Ccis (- (e * dt))%R /\
  sum_to (length bes) (fun k => smul (evol img false bes k) (cheb_val a k)) = Ccis (e * dt)%R.
