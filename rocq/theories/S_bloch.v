(** Specification of Bloch Hamiltonians. *)
From Verif Require Import Prelude Vec Cx S_super.

Section Bloch.
  Context {E T : Type} {SE : Scalar E} {ST : Scalar T} (conj : E -> E) (cis : T -> E) (tau : T).

  Definition dot3 (k v : vec T) : T :=
    let '(a, b, c) := k in let '(x, y, z) := v in sadd (sadd (smul a x) (smul b y)) (smul c z).

  (** exp(2 pi i k.d) *)
  Definition phase (k d : vec T) : E := cis (smul tau (dot3 k d)).

  (** The distance entering the phase: convention 1 uses the displacement of
      the orbitals, convention 2 the lattice vector. *)
  Definition disp (conv : Z) (R : Z * Z * Z) (ti tj : vec T) : vec T :=
    if conv =? 1 then vsub (vadd (vZ R) tj) ti else vZ R.

  Definition amp_or_0 (a : option E) : E := match a with Some e => e | None => s0 end.

  (** Matrix element: on-site energy plus the sum over the lattice vectors [Rs]
      of the amplitudes times phases. *)
  Definition bloch (conv : Z) (k : vec T) (amp : Z * Z * Z -> option E) (ti tj : vec T) (onsite : E)
             (Rs : list (Z * Z * Z)) : E :=
    sadd onsite (esum (map (fun R => smul (amp_or_0 (amp R)) (phase k (disp conv R ti tj))) Rs)).

  (** [Rs] lists each lattice vector once and all those with an amplitude. *)
  Definition covers (amp : Z * Z * Z -> option E) (Rs : list (Z * Z * Z)) : Prop :=
    NoDup Rs /\ forall R e, amp R = Some e -> In R Rs.

  Definition hermitian (n : Z) (H : Z -> Z -> E) : Prop :=
    forall i j, 0 <= i < n -> 0 <= j < n -> H i j = conj (H j i).

  (** H v = lam v *)
  Definition eigen (n : nat) (H : Z -> Z -> E) (v : Z -> E) (lam : E) : Prop :=
    forall i, 0 <= i < Z.of_nat n ->
      esum (map (fun j => smul (H i j) (v j)) (zrange n)) = smul lam (v i).
End Bloch.

(** A cell with synchronised arrays, after any history of calls (C06 says when
    sync_array achieves this). *)
From Verif Require Import M_hop M_pc M_sync S_pc.
Definition synced {E X W L} (conj : E -> E) (zero : X) (os : list (op E X W L)) (s : cached E X W L) : Prop :=
  hist_ok conj zero pc_empty os /\ c_pc s = fst (run conj zero pc_empty os) /\
  c_orb s = map (fun o => (position o, energy o)) (orbs (c_pc s)) /\ c_hop s = flatten (hop (c_pc s)).
