(** Components of a sample: reachable supercells with the energies of their
    primitive cells. *)
From Verif Require Import Prelude Vec M_hop M_pc M_index M_super S_pc S_reach.

Definition component {E T X L} {ST : Scalar T} (conj : E -> E) (zero : X) (frac_of : X * X * X -> vec T) (L0 : L)
           (q : sc E T * list T) : Prop :=
  exists (os : list (op E X T L)) lat org dim pbc vacs pmod s sos,
    builds conj zero frac_of os lat org dim pbc vacs pmod s /\ fst q = sc_run conj s sos /\
    snd q = map energy (orbs (fst (run conj zero pc_empty os))).

From Verif Require Import M_inter M_sample.
(** A sample made from components in a heap of supercells. *)
Definition built {E T X L} {SE : Scalar E} {ST : Scalar T} (conj : E -> E) (zero : X) (frac_of : X * X * X -> vec T) (L0 : L)
           (h : heap E T) (args : list (arg E)) (s : sample E T) : Prop :=
  make_sample args = Ok s /\ forall i, In i (m_sc s) -> component conj zero frac_of L0 (h i).
