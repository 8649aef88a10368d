(** Model of class InterHopping of tbplas/builder/base.py (and its base class
    IntraHopping): the container shared by PCInterHopping and SCInterHopping. *)
From Verif Require Import Prelude M_hop.

Section Inter.
  Context {E : Type}.

  (** base.py:98-120 (lock flag) and 188-190 (dict of dicts). *)
  Record inter := { i_locked : bool; i_hops : @hops E }.
  Definition inter0 : inter := {| i_locked := false; i_hops := [] |}.
  Definition with_hops (x : inter) (d : @hops E) : inter := {| i_locked := i_locked x; i_hops := d |}.

  Inductive iop :=
  | IAdd (rn : list Z) (i j : Z) (e : E)
  | IGet (rn : list Z) (i j : Z)
  | IRemove (rn : list Z) (i j : Z)
  | IRemoveRn (rn : list Z)
  | IRemoveOrbs (idx : list Z)
  | ILock | IUnlock.

  Inductive iout := INone | IEnergy (e : option E) | IFlag (b : bool).

  (** base.py:448-473 _norm_keys: only the length of rn is checked and no
      conjugation takes place; 475-489 add_hopping (the only method that checks
      the lock); 246-268 get_hopping, 270-287 remove_hopping, 299-331
      remove_orbitals and 333-346 remove_rn are inherited from IntraHopping. *)
  Definition istep (x : inter) (o : iop) : inter * res iout :=
    match o with
    | IAdd rn i j e =>
      if i_locked x then (x, Err LockError) else
      match check_rn rn with
      | None => (x, Err CellIndexLenError)
      | Some r => (with_hops x (put_hop (i_hops x) r (i, j) e), Ok INone)
      end
    | IGet rn i j =>
      match check_rn rn with
      | None => (x, Err CellIndexLenError)
      | Some r => (x, Ok (IEnergy (look_hop (i_hops x) r (i, j))))
      end
    | IRemove rn i j =>
      match check_rn rn with
      | None => (x, Err CellIndexLenError)
      | Some r => let '(d, b) := pop_hop (i_hops x) r (i, j) in (with_hops x d, Ok (IFlag b))
      end
    | IRemoveRn rn =>
      match check_rn rn with
      | None => (x, Err CellIndexLenError)
      | Some r =>
        match aget rn_eqb (i_hops x) r with
        | Some _ => (with_hops x (adel rn_eqb (i_hops x) r), Ok (IFlag true))
        | None => (x, Ok (IFlag false))
        end
      end
    | IRemoveOrbs idx => (with_hops x (ih_remove_orbitals (i_hops x) idx), Ok INone)
    | ILock => ({| i_locked := true; i_hops := i_hops x |}, Ok INone)
    | IUnlock => ({| i_locked := false; i_hops := i_hops x |}, Ok INone)
    end.

  Definition irun (x : inter) (os : list iop) : inter := fold_left (fun x o => fst (istep x o)) os x.

  (** base.py:358-393 to_list / to_array. *)
  Definition iterms (x : inter) : list (rn3 * pair2 * E) := flatten (purge (i_hops x)).
End Inter.
Arguments inter : clear implicits.
Arguments iop : clear implicits.
Arguments iout : clear implicits.
