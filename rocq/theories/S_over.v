(** Overlaps as seen through their API, and generalised eigenvalues. *)
From Verif Require Import Prelude Vec Cx M_hop M_pc M_sync M_bloch M_over S_pc S_bloch.

Section Spec.
  Context {E T W L : Type} {SE : Scalar E} (conj : E -> E).
  (** The on-site overlap set last, with Python's reading of negative indices;
      refused calls do not count. *)
  Fixpoint last_onsite (n : Z) (os : list (oop E W)) (rs : list (res (out E T W L))) (i : Z) (now : W) : W :=
    match os, rs with
    | OnSite k w :: os', Ok _ :: rs' => last_onsite n os' rs' i (if (k =? i) || (k + n =? i) then w else now)
    | _ :: os', _ :: rs' => last_onsite n os' rs' i now
    | _, _ => now
    end.
  (** The off-site overlap written last to <i,0|j,R>, or the conjugate of the one
      written to <j,0|i,-R>. *)
  Fixpoint last_offsite (os : list (oop E W)) (rs : list (res (out E T W L))) (r : Z * Z * Z) (i j : Z) (now : option E) : option E :=
    match os, rs with
    | OffSite rn a b e :: os', Ok _ :: rs' =>
        last_offsite os' rs' r i j (if key_eqb (full rn, a, b) (r, i, j) then Some e else if key_eqb (full rn, a, b) (opp r, j, i) then Some (conj e) else now)
    | _ :: os', _ :: rs' => last_offsite os' rs' r i j now
    | _, _ => now
    end.

  (** The calls that are accepted for a model of n orbitals. *)
  Definition legal (n : Z) (o : oop E W) : Prop :=
    match o with
    | OnSite i _ => - n <= i < n
    | OffSite rn i j _ => (length rn = 2%nat \/ length rn = 3%nat) /\ 0 <= i < n /\ 0 <= j < n /\ ~ (full rn = (0, 0, 0) /\ i = j)
    end.

  Definition apply (n : nat) (H : Z -> Z -> E) (v : Z -> E) (i : Z) : E := esum (map (fun j => smul (H i j) (v j)) (zrange n)).
  (** H v = e S v *)
  Definition gen_eigen (n : nat) (H S : Z -> Z -> E) (v : Z -> E) (e : E) : Prop :=
    forall i, 0 <= i < Z.of_nat n -> apply n H v i = smul e (apply n S v i).
  (** <v| S |w> *)
  Definition overlap_form (n : nat) (S : Z -> Z -> E) (v w : Z -> E) : E := esum (map (fun i => smul (conj (v i)) (apply n S w i)) (zrange n)).
  (** Contract of lapack.zhegv for Hermitian matrices: the energies and the
      S-orthonormal states, one for each orbital. *)
  Definition zhegv_ok {A : Type} (inj : T -> E) (zhegv : Z -> (Z -> Z -> E) -> (Z -> Z -> E) -> option A) (vals : A -> list T) (vecs : A -> nat -> Z -> E) : Prop :=
    forall n H S a, zhegv (Z.of_nat n) H S = Some a -> hermitian conj (Z.of_nat n) H -> hermitian conj (Z.of_nat n) S ->
    length (vals a) = n /\ forall b e, nth_error (vals a) b = Some e -> gen_eigen n H S (vecs a b) (inj e) /\
      forall c, (c < n)%nat -> overlap_form n S (vecs a b) (vecs a c) = if Nat.eqb b c then s1 else s0.
  (** A solver whose matrices are not made yet or have n rows. *)
  Definition usable (n : Z) (d : solver (E := E)) : Prop :=
    (forall k m, h_mat d = Some (k, m) -> k = n) /\ (forall k m, s_mat d = Some (k, m) -> k = n).
  (** The orbitals of two cells are at the same places. *)
  Definition same_places (s t : pc E T W L) : Prop := map position (orbs s) = map position (orbs t).
End Spec.
