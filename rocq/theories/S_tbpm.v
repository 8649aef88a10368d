(** Specification of averages over random states.  No model definitions. *)
From Verif Require Import Prelude Vec Cx S_prop.

Section Spec.
  Context {E : Type} {SE : Scalar E} (conj : E -> E) (img : E) (inv : E -> E).
  Notation vector := (nat -> E).
  (** The state after t steps of the Chebyshev propagator. *)
  Definition evolved (n : nat) (h : nat -> nat -> E) (bes : list E) (t : nat) (x : vector) : vector :=
    iter (series n h (evol img true bes) (length bes)) t x.
  Definition evolved_back (n : nat) (h : nat -> nat -> E) (bes : list E) (t : nat) (x : vector) : vector :=
    iter (series n h (evol img false bes) (length bes)) t x.
  (** The mean of f over the samples 1, ..., total. *)
  Definition mean (total : Z) (f : Z -> E) : E :=
    smul (sum_to (Z.to_nat total) (fun k => f (Z.of_nat k + 1))) (inv (sZ total)).
  (** The number of samples is raised to the next multiple of the size. *)
  Definition rounded (n size total : Z) : Prop := n <= total < n + size /\ total mod size = 0.

  (** Outcome of a calculation with seeds seed * 1, ..., seed * total on [size]
      processes: either some sample fails, or every process has the mean. *)
  Definition averaged {I} (size n seed : Z) (fail : Z -> option exn) (val : Z -> I -> E) (ok : I -> Prop) (r : res (Z * list (I -> E))) : Prop :=
    exists total, rounded n size total /\
    ((exists s e, 1 <= s <= total /\ fail (seed * s) = Some e /\ r = Err e) \/
     ((forall s, 1 <= s <= total -> fail (seed * s) = None) /\
      exists l, r = Ok (total, l) /\ Z.of_nat (length l) = size /\
      forall a i, In a l -> ok i -> a i = mean total (fun s => val (seed * s) i))).

  Section Values.
  Context (n : nat) (h : nat -> nat -> E) (bes : list E).
  Notation U := (evolved n h bes).
  (** <x|x(t)> *)
  Definition dos_value (x : vector) (t : nat) : E := inner conj n x (U t x).
  (** The norm before step chk, if a loop from step a to nt checks it, compared
      with the reference. *)
  Definition norm_bad (bad : E -> E -> bool) (a nt chk : Z) (x : nat -> vector) (ref : vector) : bool :=
    (a <=? chk) && (chk <=? nt) &&
    bad (inner conj n (x (Z.to_nat (chk - 1))) (x (Z.to_nat (chk - 1)))) (inner conj n ref ref).
  (** The components on the given sites. *)
  Definition on_sites (sites : list Z) (x : vector) : vector := fun i => if zmem (Z.of_nat i) sites then x i else s0.
  Definition scaled (c : E) (x : vector) : vector := fun i => smul (x i) c.
  (** <x F(H) U(t)'| B U(t) (1-F(H)) A x>, with the coefficients of F and 1-F. *)
  Definition op_series (coef : list E) (x : vector) : vector := series n h (fun k => nth k coef s0) (length coef) x.
  Definition two_time (cF cO : list E) (A B : vector -> vector) (x : vector) (t : nat) : E :=
    inner conj n (U t (op_series cF x)) (B (U t (op_series cO (A x)))).
  (** T_i(H) A x and B T_j(H) x *)
  Definition moment (A B : vector -> vector) (x : vector) (i j : nat) : E :=
    inner conj n (cheb n h i (A x)) (B (cheb n h j x)).
  (** x + sum over t = 1, ..., nt of w(t) (p(t) x(t) + conj p(t) x(-t)) *)
  Definition filtered (w p : Z -> E) (nt : nat) (x : vector) : vector := fun i =>
    sadd (x i) (sum_to nt (fun k => let t := Z.of_nat (S k) in
      smul (w t) (sadd (smul (p t) (U (S k) x i)) (smul (conj (p t)) (evolved_back n h bes (S k) x i))))).
  End Values.
End Spec.

(** Values and failures of one sample in each calculation. *)
Section Samples.
  Context {E : Type} {SE : Scalar E} (conj : E -> E) (img : E) (inv : E -> E) (is0 : E -> bool) (re im sqrt : E -> E) (bad : E -> E -> bool).
  Notation vector := (nat -> E).
  Context (n : nat) (h : nat -> nat -> E) (bes : list E).
  Notation U := (evolved img n h bes).
  Notation Ub := (evolved_back img n h bes).
  (** The norm check fails. *)
  Definition one_fail (a nt chk : Z) (x : nat -> vector) (ref : vector) : option exn :=
    if norm_bad conj n bad a nt chk x ref then Some RuntimeError else None.

  (** Local DOS: the normalised part on the sites. *)
  Definition site_norm (sites : list Z) (x : vector) : E := sqrt (inner conj n (on_sites sites x) (on_sites sites x)).
  Definition site_state (sites : list Z) (x : vector) : vector := scaled (inv (site_norm sites x)) (on_sites sites x).
  Definition ldos_fail (sites : list Z) (nt chk : Z) (x : vector) : option exn :=
    if is0 (site_norm sites x) then Some ZeroDivisionError
    else one_fail 1 nt chk (fun t => U t (site_state sites x)) (site_state sites x).

  (** Entries of the current operator: i r H_jk d_jk. *)
  Definition current_values (resc : E) (values dr : list E) : list E :=
    map (fun p => smul (smul (smul img resc) (fst p)) (snd p)) (combine values dr).
  (** Components xx, xy, yx, yy: first the operator on the state, then the one
      measured.  Time 0 is not stored. *)
  Definition ac_value (jx jy : nat -> nat -> E) (cF cO : list E) (x : vector) (t c : nat) : E :=
    match t with
    | O => s0
    | _ => two_time conj img n h bes cF cO (mv n (if (c <? 2)%nat then jx else jy)) (mv n (if Nat.even c then jx else jy)) x t
    end.
  Definition times (r x : vector) : vector := fun i => smul (r i) (x i).
  Definition pol_value (cF cO : list E) (rho rhom x : vector) (t : nat) : E := im (two_time conj img n h bes cF cO (times rhom) (times rho) x t).
  Definition kb_value (jx jd : nat -> nat -> E) (g : nat -> E) (x : vector) (p : nat * nat) : E :=
    smul (smul (g (fst p)) (g (snd p))) (moment conj n h (mv n jx) (mv n jd) x (fst p) (snd p)).

  (** Quasi-eigenstates: Fourier sums of the evolved state. *)
  Context (wdw : Z -> E) (ph : list (Z -> E)).
  Definition quasi (nt : nat) (x : vector) (p : Z -> E) : vector := filtered conj img n h bes wdw p nt x.
  Definition quasi_norm (nt : nat) (x : vector) (p : Z -> E) : E := sqrt (re (inner conj n (quasi nt x p) (quasi nt x p))).
  Definition quasi_fail (nt chk : Z) (x : vector) : option exn :=
    match one_fail 1 nt chk (fun t => U t x) x with
    | Some e => Some e
    | None => match one_fail 1 nt chk (fun t => Ub t x) x with
              | Some e => Some e
              | None => if existsb (fun p => is0 (quasi_norm (Z.to_nat nt) x p)) ph then Some ZeroDivisionError else None
              end
    end.
End Samples.
