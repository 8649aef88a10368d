(** Properties C01-C05, C49, C50 of the primitive cell.  Specification: S_pc.v. *)
From Verif Require Import Prelude M_hop M_pc S_pc L_pc L_pc2.

(** A concrete instance for the examples: Gaussian integers as energies. *)
Definition cj (e : Z * Z) : Z * Z := (fst e, - snd e).
Lemma cj_cj e : cj (cj e) = e.
Proof. destruct e as [a b]. unfold cj. cbn [fst snd]. f_equal. apply Z.opp_involutive. Qed.
Definition xop := op (Z * Z) Z Z Z.
Definition xrun (os : list xop) := run cj 0 pc_empty os.

(** Full behaviour: whatever calls are made on a fresh cell (orbitals being
    removed by valid numbers), all answers are the ones specified in S_pc. *)
Theorem C01_cell_refines_spec :
  forall (E X W L : Type) (conj : E -> E) (zero : X),
  (forall e, conj (conj e) = e) ->
  forall os : list (op E X W L),
  hist_ok conj zero pc_empty os ->
  session conj zero (abs conj pc_empty) os (snd (run conj zero pc_empty os))
          (abs conj (fst (run conj zero pc_empty os))).
Proof.
  intros E X W L conj zero Hcc os Hh.
  exact (proj2 (run_refines conj zero Hcc os pc_empty Inv_empty Hh)).
Qed.
Print Assumptions C01_cell_refines_spec.

(** get_hopping returns the most recent write, directly or conjugated. *)
Theorem C01_get_hopping_latest :
  forall (E X W L : Type) (conj : E -> E) (zero : X),
  (forall e, conj (conj e) = e) ->
  forall (os : list (op E X W L)) (rn : list Z) (i j : Z),
  Forall plain os ->
  let s := fst (run conj zero pc_empty os) in
  let rs := snd (run conj zero pc_empty os) in
  hop_err (abs conj s) rn i j = None ->
  snd (step conj zero s (OpGetHop rn i j)) =
  match latest conj os rs (full rn) i j None with
  | Some e => Ok (OEnergy e)
  | None => Err PCHopNotFoundError
  end.
Proof. exact (@get_latest). Qed.
Print Assumptions C01_get_hopping_latest.

Theorem C01_hermitian :
  forall (E X W L : Type) (conj : E -> E) (zero : X),
  (forall e, conj (conj e) = e) ->
  forall (os : list (op E X W L)) (rn : Z * Z * Z) (i j : Z),
  hist_ok conj zero pc_empty os ->
  let s := fst (run conj zero pc_empty os) in
  ~ (rn = (0, 0, 0) /\ i = j) ->
  a_hop (abs conj s) (opp rn) j i = option_map conj (a_hop (abs conj s) rn i j).
Proof. exact (@get_hermitian). Qed.
Print Assumptions C01_hermitian.

(** Two orbitals, a term added in one orientation, overwritten in the other,
    read back in the first; then removed. *)
Definition ex1 : list xop :=
  [OpAddOrb [0; 0] 5 0; OpAddOrb [1; 0; 0] 6 0;
   OpAddHop [-1; 0] 0 1 (2, 3); OpAddHop [1; 0; 0] 1 0 (7, 4)].
Example C01_example :
  Forall plain ex1 /\
  hop_err (abs cj (fst (xrun ex1))) [-1; 0; 0] 0 1 = None /\
  snd (step cj 0 (fst (xrun ex1)) (OpGetHop [-1; 0; 0] 0 1)) = Ok (OEnergy (7, -4)) /\
  snd (xrun (ex1 ++ [OpRemoveHop [-1; 0] 0 1; OpGetHop [1; 0] 1 0])) =
  [Ok ONone; Ok ONone; Ok ONone; Ok ONone; Ok ONone; Err PCHopNotFoundError].
Proof. repeat split; try reflexivity. repeat constructor. Qed.

Theorem C02_arrays :
  forall (E X W L : Type) (conj : E -> E) (zero : X),
  (forall e, conj (conj e) = e) ->
  forall os : list (op E X W L),
  hist_ok conj zero pc_empty os ->
  let s := fst (run conj zero pc_empty os) in
  let ind := fst (snd (ih_to_array (hop s))) in
  let eng := snd (snd (ih_to_array (hop s))) in
  length ind = num_hop (hop s) /\ length eng = num_hop (hop s) /\
  NoDup ind /\
  (forall rn i j, In (rn, (i, j)) ind ->
     0 <= i < num_orb s /\ 0 <= j < num_orb s /\ ~ (rn = (0, 0, 0) /\ i = j) /\
     ~ In (opp rn, (j, i)) ind) /\
  (forall rn i j e, a_hop (abs conj s) rn i j = Some e <->
     In (rn, (i, j), e) (combine ind eng) \/
     exists e', In (opp rn, (j, i), e') (combine ind eng) /\ e = conj e').
Proof. exact (@arrays_ok). Qed.
Print Assumptions C02_arrays.

(** A history with renumbering, refused calls and an open boundary. *)
Definition ex2 : list xop :=
  [OpAddOrb [0; 0] 5 0; OpAddOrb [1; 0; 0] 6 0; OpAddOrb [1; 1] 7 0; OpAddOrb [2] 8 0;
   OpAddHop [0; 0] 2 0 (1, 1); OpAddHop [1; 0] 1 2 (2, 1); OpAddHop [0; 1] 2 2 (3, 1);
   OpAddHop [0; 0] 1 1 (9, 9); OpAddHop [0; 0] 1 3 (9, 9);
   OpLock; OpRemoveOrbs [17]; OpUnlock;
   OpRemoveOrbs [1; 1]; OpSync].
Example C02_example :
  hist_ok cj 0 pc_empty ex2 /\
  snd (ih_to_array (hop (fst (xrun ex2)))) =
  ([(0, 0, 0, (0, 1)); (0, 1, 0, (1, 1))], [(1, -1); (3, 1)]) /\
  snd (xrun ex2) =
  [Ok ONone; Ok ONone; Ok ONone; Err OrbPositionLenError; Ok ONone; Ok ONone; Ok ONone;
   Err PCHopDiagonalError; Err PCOrbIndexError; Ok ONone; Err LockError; Ok ONone; Ok ONone; Ok ONone].
Proof.
  split; [|split; reflexivity]. cbn [hist_ok ex2]. repeat split; try exact I.
  - left; reflexivity.
  - right. repeat constructor; vm_compute; intuition discriminate.
Qed.

Theorem C03_remove_orbitals :
  forall (E X W L : Type) (conj : E -> E) (zero : X),
  (forall e, conj (conj e) = e) ->
  forall (os : list (op E X W L)) (idx : list Z),
  hist_ok conj zero pc_empty os ->
  let s := fst (run conj zero pc_empty os) in
  locked s = false ->
  (forall x, In x idx -> 0 <= x < num_orb s) ->
  snd (step conj zero s (OpRemoveOrbs idx)) = Ok ONone /\
  without (abs conj s) (fun x => In x idx) (abs conj (fst (step conj zero s (OpRemoveOrbs idx)))).
Proof. exact (@remove_orbitals_spec). Qed.
Print Assumptions C03_remove_orbitals.

Theorem C03_order_and_multiplicity :
  forall (E X W L : Type) (conj : E -> E) (zero : X) (s : pc E X W L) (idx idx' : list Z),
  (forall x, In x idx <-> In x idx') ->
  step conj zero s (OpRemoveOrbs idx) = step conj zero s (OpRemoveOrbs idx').
Proof. exact (@remove_orbitals_set). Qed.
Print Assumptions C03_order_and_multiplicity.

Example C03_example :
  let s := fst (xrun (firstn 7 ex2)) in
  locked s = false /\ num_orb s = 3 /\
  a_hop (abs cj s) (0, 0, 0) 0 2 = Some (1, -1) /\
  a_hop (abs cj (fst (step cj 0 s (OpRemoveOrbs [1])))) (0, 0, 0) 0 1 = Some (1, -1) /\
  a_hop (abs cj (fst (step cj 0 s (OpRemoveOrbs [1])))) (1, 0, 0) 0 1 = None.
Proof. repeat split. Qed.

(** With a negative number (accepted by remove_orbital, which pops from a
    Python list) the last orbital disappears but every hopping index is
    shifted: the amplitude between the two remaining orbitals is lost. *)
Theorem C03_negative_index_refuted :
  exists (os : list xop) (k : Z),
    let s := fst (xrun os) in
    let s' := fst (step cj 0 s (OpRemoveOrbs [k])) in
    hist_ok cj 0 pc_empty os /\ locked s = false /\ - num_orb s <= k < 0 /\
    snd (step cj 0 s (OpRemoveOrbs [k])) = Ok ONone /\
    num_orb s = 3 /\ num_orb s' = 2 /\
    a_hop (abs cj s) (0, 0, 0) 0 1 = Some (1, 0) /\
    a_hop (abs cj s') (0, 0, 0) 0 1 = None /\
    a_hop (abs cj s') (0, 0, 0) (-1) 0 = Some (1, 0).
Proof.
  exists [OpAddOrb [0; 0] 0 0; OpAddOrb [1; 0] 0 0; OpAddOrb [2; 0] 0 0; OpAddHop [0; 0] 0 1 (1, 0)], (-1).
  cbv zeta. split; [cbn; repeat split|]. split; [reflexivity|]. split; [vm_compute; intuition discriminate|].
  repeat split.
Qed.
Print Assumptions C03_negative_index_refuted.

Theorem C04_rejected_calls_change_nothing :
  forall (E X W L : Type) (conj : E -> E) (zero : X),
  (forall e, conj (conj e) = e) ->
  forall (os : list (op E X W L)) (o : op E X W L) (x : exn),
  hist_ok conj zero pc_empty os ->
  let s := fst (run conj zero pc_empty os) in
  op_ok s o -> snd (step conj zero s o) = Err x ->
  a_eq (abs conj s) (abs conj (fst (step conj zero s o))).
Proof. exact (@rejected_unchanged). Qed.
Print Assumptions C04_rejected_calls_change_nothing.

Example C04_example :
  let s := fst (xrun ex2) in
  hist_ok cj 0 pc_empty ex2 /\ op_ok s (OpAddHop [0; 0] 0 0 (1, 0)) /\
  snd (step cj 0 s (OpAddHop [0; 0] 0 0 (1, 0))) = Err PCHopDiagonalError.
Proof. split; [apply C02_example|]. repeat split. Qed.

(** remove_orbitals with one number out of range raises, but the orbitals
    popped before the bad one are gone while the hoppings still use the old
    numbering. *)
Theorem C04_remove_orbitals_refuted :
  exists (os : list xop) (idx : list Z),
    let s := fst (xrun os) in
    let s' := fst (step cj 0 s (OpRemoveOrbs idx)) in
    hist_ok cj 0 pc_empty os /\
    snd (step cj 0 s (OpRemoveOrbs idx)) = Err PCOrbIndexError /\
    num_orb s = 2 /\ num_orb s' = 1 /\
    a_hop (abs cj s') (0, 0, 0) 0 1 = Some (1, 0) /\
    ~ a_eq (abs cj s) (abs cj s').
Proof.
  exists [OpAddOrb [0; 0] 0 0; OpAddOrb [1; 0] 0 0; OpAddHop [0; 0] 0 1 (1, 0)], [0; 5].
  cbv zeta. split; [cbn; repeat split|]. repeat split. intros (_ & H & _). vm_compute in H. discriminate.
Qed.
Print Assumptions C04_remove_orbitals_refuted.

Theorem C05_locked_cell_cannot_change :
  forall (E X W L : Type) (conj : E -> E) (zero : X),
  (forall e, conj (conj e) = e) ->
  forall os1 os2 : list (op E X W L),
  hist_ok conj zero pc_empty os1 -> ~ In OpUnlock os2 ->
  let s := fst (run conj zero pc_empty os1) in
  locked s = true ->
  a_eq (abs conj s) (abs conj (fst (run conj zero s os2))) /\
  length (snd (run conj zero s os2)) = length os2 /\
  forall k o, nth_error os2 k = Some o -> is_mutator o ->
              nth_error (snd (run conj zero s os2)) k = Some (Err LockError).
Proof. exact (@locked_history). Qed.
Print Assumptions C05_locked_cell_cannot_change.

Example C05_example :
  let s := fst (xrun (ex1 ++ [OpLock])) in
  hist_ok cj 0 pc_empty (ex1 ++ [OpLock]) /\ locked s = true /\
  snd (run cj 0 s [OpTrim; OpGetHop [1; 0] 1 0; OpApplyPbc [false; true; true]]) =
  [Err LockError; Ok (OEnergy (7, 4)); Err LockError].
Proof. split; [cbn; repeat split|]. repeat split. Qed.

Theorem C49_trim :
  forall (E X W L : Type) (conj : E -> E) (zero : X),
  (forall e, conj (conj e) = e) ->
  forall os : list (op E X W L),
  hist_ok conj zero pc_empty os ->
  let s := fst (run conj zero pc_empty os) in
  locked s = false ->
  snd (step conj zero s OpTrim) = Ok ONone /\
  without (abs conj s) (dangling (abs conj s)) (abs conj (fst (step conj zero s OpTrim))).
Proof. exact (@trim_spec). Qed.
Print Assumptions C49_trim.

(** A ring of three orbitals with a tail of two: trim takes the end of the
    tail only, so that a second trim would remove more. *)
Definition ex3 : list xop :=
  map (fun k => OpAddOrb [k; 0] 0 0) [0; 1; 2; 3; 4] ++
  [OpAddHop [0; 0] 0 1 (1, 0); OpAddHop [0; 0] 1 2 (1, 0); OpAddHop [1; 0] 2 0 (1, 0);
   OpAddHop [0; 0] 2 3 (1, 0); OpAddHop [0; 0] 3 4 (1, 0)].
Example C49_example :
  hist_ok cj 0 pc_empty ex3 /\ locked (fst (xrun ex3)) = false /\
  num_orb (fst (xrun (ex3 ++ [OpTrim]))) = 4 /\
  num_orb (fst (xrun (ex3 ++ [OpTrim; OpTrim]))) = 3 /\
  num_orb (fst (xrun (ex3 ++ [OpTrim; OpTrim; OpTrim]))) = 3.
Proof. split; [cbn; repeat split|]. repeat split. Qed.

Theorem C50_apply_pbc :
  forall (E X W L : Type) (conj : E -> E) (zero : X),
  (forall e, conj (conj e) = e) ->
  forall (os : list (op E X W L)) (pa pb pc0 : bool),
  hist_ok conj zero pc_empty os ->
  let s := fst (run conj zero pc_empty os) in
  locked s = false ->
  let s' := fst (step conj zero s (OpApplyPbc [pa; pb; pc0])) in
  snd (step conj zero s (OpApplyPbc [pa; pb; pc0])) = Ok ONone /\
  a_orbs (abs conj s') = a_orbs (abs conj s) /\
  forall a b c i j, a_hop (abs conj s') (a, b, c) i j =
    if (negb pa && negb (a =? 0)) || (negb pb && negb (b =? 0)) || (negb pc0 && negb (c =? 0))
    then None else a_hop (abs conj s) (a, b, c) i j.
Proof. exact (@apply_pbc_spec). Qed.
Print Assumptions C50_apply_pbc.

Example C50_example :
  let s := fst (xrun (ex3 ++ [OpApplyPbc [false; true; true]])) in
  hist_ok cj 0 pc_empty ex3 /\
  a_hop (abs cj (fst (xrun ex3))) (-1, 0, 0) 0 2 = Some (1, 0) /\
  a_hop (abs cj s) (-1, 0, 0) 0 2 = None /\ a_hop (abs cj s) (0, 0, 0) 2 3 = Some (1, 0).
Proof. split; [cbn; repeat split|]. repeat split. Qed.
