(** Specification of an inter-hopping container: a finite map from (cell index,
    bra orbital, ket orbital) to energies, and of the table made from it. *)
From Verif Require Import Prelude Vec M_inter.

Definition istore (E : Type) := Z * Z * Z -> Z -> Z -> option E.
Definition cell (rn : list Z) : Z * Z * Z := (nth 0 rn 0, nth 1 rn 0, nth 2 rn 0).
Definition cell_ok (rn : list Z) : bool := Nat.eqb (length rn) 2 || Nat.eqb (length rn) 3.

(** Place of orbital i after the orbitals idx have gone. *)
Definition below (idx : list Z) (i : Z) : Z := Z.of_nat (length (filter (fun k => k <? i) (nodup Z.eq_dec idx))).

Section Spec.
  Context {E : Type}.

  Definition i_err (locked : bool) (o : iop E) : option exn :=
    match o with
    | IAdd rn _ _ _ => if locked then Some LockError else if cell_ok rn then None else Some CellIndexLenError
    | IGet rn _ _ | IRemove rn _ _ | IRemoveRn rn => if cell_ok rn then None else Some CellIndexLenError
    | _ => None
    end.

  Definition i_effect (f : istore E) (o : iop E) (f' : istore E) : Prop :=
    match o with
    | IAdd rn i j e => forall r a b,
        ((r, a, b) = (cell rn, i, j) -> f' r a b = Some e) /\ ((r, a, b) <> (cell rn, i, j) -> f' r a b = f r a b)
    | IRemove rn i j => forall r a b,
        ((r, a, b) = (cell rn, i, j) -> f' r a b = None) /\ ((r, a, b) <> (cell rn, i, j) -> f' r a b = f r a b)
    | IRemoveRn rn => forall r a b,
        (r = cell rn -> f' r a b = None) /\ (r <> cell rn -> f' r a b = f r a b)
    | IRemoveOrbs idx => forall r a b e,
        f' r a b = Some e <-> exists i j, f r i j = Some e /\ ~ In i idx /\ ~ In j idx /\
                                a = i - below idx i /\ b = j - below idx j
    | _ => f' = f
    end.

  Definition i_answer (f : istore E) (o : iop E) (r : iout E) : Prop :=
    match o with
    | IGet rn i j => r = IEnergy (f (cell rn) i j)
    | IRemove rn i j => exists b, r = IFlag b /\ (b = true <-> f (cell rn) i j <> None)
    | IRemoveRn rn => exists b, r = IFlag b /\ (b = false -> forall i j, f (cell rn) i j = None)
    | _ => r = INone
    end.

  Definition lock_after (b : bool) (o : iop E) : bool :=
    match o with ILock => true | IUnlock => false | _ => b end.

  Definition i_call (b : bool) (f : istore E) (o : iop E) (r : res (iout E)) (f' : istore E) : Prop :=
    match i_err b o with
    | Some x => r = Err x /\ f' = f
    | None => exists a, r = Ok a /\ i_answer f o a /\ i_effect f o f'
    end.

  (** A sequence of calls with their answers. *)
  Fixpoint i_session (b : bool) (f : istore E) (os : list (iop E)) (rs : list (res (iout E))) (f' : istore E) : Prop :=
    match os, rs with
    | [], [] => f' = f
    | o :: os, r :: rs => exists f1, i_call b f o r f1 /\ i_session (lock_after b o) f1 os rs f'
    | _, _ => False
    end.
End Spec.

(** The table of an inter-hopping container: one row per stored term. *)
Section Table.
  Context {E T Row : Type} {ST : Scalar T}.
  Context (ri rj : Row -> Z) (rv : Row -> E) (rdr : Row -> vec T).
  Definition inter_table (f : istore E) (pos_bra pos_ket : list (vec T)) (lat_ket : mat T) (rows : list Row) : Prop :=
    exists keys : list (Z * Z * Z * Z * Z),
      NoDup keys /\
      (forall r i j, In (r, i, j) keys <-> f r i j <> None) /\
      Forall2 (fun k w => let '(r, i, j) := k in
        ri w = i /\ rj w = j /\ f r i j = Some (rv w) /\ 0 <= i /\ 0 <= j /\
        exists pb pk, nth_error pos_bra (Z.to_nat i) = Some pb /\ nth_error pos_ket (Z.to_nat j) = Some pk /\
          rdr w = vadd (vsub pk pb) (vmat (vZ r) lat_ket)) keys rows.

  Definition in_bounds (f : istore E) (nb nk : nat) : Prop :=
    forall r i j, f r i j <> None -> 0 <= i < Z.of_nat nb /\ 0 <= j < Z.of_nat nk.

  Definition duplicated (f : istore E) : Prop :=
    exists r r' i j, r <> r' /\ f r i j <> None /\ f r' i j <> None.
End Table.
