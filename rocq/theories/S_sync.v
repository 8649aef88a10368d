(** When synchronised arrays are right: vocabulary for property C06. *)
From Verif Require Import Prelude M_hop M_index M_sync.

Section SyncSC.
  Context {P : Type} (n_orb n_hop : P -> Z) (hash_pc : P -> Z) (hash_vac : list id4 -> Z).

  (** No synchronisation of the history fails because of a bad vacancy. *)
  Definition syncs_ok (s : cset P) (os : list (kop P)) : Prop :=
    forall k f x, nth_error os k = Some (KSync f) ->
      snd (kstep n_orb n_hop hash_pc hash_vac (krun n_orb n_hop hash_pc hash_vac s (firstn k os)) (KSync f)) = Err x ->
      x = PCOrbEmptyError \/ x = PCHopEmptyError.
End SyncSC.
