(** Specification of a primitive cell as seen through its API, independent of
    how hoppings are stored: a list of orbitals plus a function giving the
    hopping amplitude <i,0|H|j,R> for every R, i, j. *)
From Verif Require Import Prelude M_hop M_pc.

Section Spec.
  Context {E X W L : Type} (conj : E -> E) (zero : X).

  Record acell := {
    a_locked : bool;
    a_orbs : list (orbital X W L);
    a_hop : Z * Z * Z -> Z -> Z -> option E }.

  (** Two abstract cells are the same if nobody can tell them apart. *)
  Definition a_eq (s t : acell) : Prop :=
    a_locked s = a_locked t /\ a_orbs s = a_orbs t /\
    forall r i j, a_hop s r i j = a_hop t r i j.

  Definition a_empty : acell :=
    {| a_locked := false; a_orbs := []; a_hop := fun _ _ _ => None |}.

  Definition a_num (s : acell) : Z := Z.of_nat (length (a_orbs s)).

  Definition opp (r : Z * Z * Z) : Z * Z * Z :=
    let '(a, b, c) := r in (- a, - b, - c).

  (** Amplitude function after writing <i,0|H|j,R> = v (and hence
      <j,0|H|i,-R> = conj v); [None] deletes the pair. *)
  Definition written (f : Z * Z * Z -> Z -> Z -> option E)
             (r : Z * Z * Z) (i j : Z) (v : option E)
             (f' : Z * Z * Z -> Z -> Z -> option E) : Prop :=
    f' r i j = v /\
    f' (opp r) j i = option_map conj v /\
    forall r' i' j', (r', i', j') <> (r, i, j) -> (r', i', j') <> (opp r, j, i) ->
                     f' r' i' j' = f r' i' j'.

  (** Which orbitals survive a removal, in order. *)
  Definition survivors (n : nat) (gone : Z -> Prop) (l : list Z) : Prop :=
    (forall x, In x l <-> 0 <= x < Z.of_nat n /\ ~ gone x) /\
    (forall p q x y, (p < q)%nat -> nth_error l p = Some x -> nth_error l q = Some y -> x < y).

  (** The cell in which the orbitals of [gone] have been taken out: orbital k
      of the new cell is the k-th survivor, and amplitudes between survivors
      are those they had before. *)
  Definition without (s : acell) (gone : Z -> Prop) (s' : acell) : Prop :=
    exists l, survivors (length (a_orbs s)) gone l /\
      a_locked s' = a_locked s /\
      (forall k, nth_error (a_orbs s') k =
                 match nth_error l k with
                 | Some x => nth_error (a_orbs s) (Z.to_nat x)
                 | None => None
                 end) /\
      (forall r i j, a_hop s' r i j =
                 if (i <? 0) || (j <? 0) then None else
                 match nth_error l (Z.to_nat i), nth_error l (Z.to_nat j) with
                 | Some x, Some y => a_hop s r x y
                 | _, _ => None
                 end).

  (** Dangling orbital: it does not have two different hopping ends. *)
  Definition dangling (s : acell) (o : Z) : Prop :=
    forall r j r' j', a_hop s r o j <> None -> a_hop s r' o j' <> None ->
                      (r, j) = (r', j').

  (** Documented errors of a hopping index (primitive.py docstrings). *)
  Definition hop_err (s : acell) (rn : list Z) (i j : Z) : option exn :=
    if negb (Nat.eqb (length rn) 2 || Nat.eqb (length rn) 3) then Some CellIndexLenError
    else if negb ((0 <=? i) && (i <? a_num s) && (0 <=? j) && (j <? a_num s))
         then Some PCOrbIndexError
    else if (forallb (Z.eqb 0) rn) && (i =? j) then Some PCHopDiagonalError
    else None.

  (** Cell index completed to three components. *)
  Definition full (rn : list Z) : Z * Z * Z :=
    (nth 0 rn 0, nth 1 rn 0, nth 2 rn 0).

  Definition full_pos (p : list X) : X * X * X :=
    (nth 0 p zero, nth 1 p zero, nth 2 p zero).
  Definition pos_ok (p : list X) : Prop := length p = 2%nat \/ length p = 3%nat.

  (** Python's reading of a list position. *)
  Definition slot (n : Z) (k : Z) (m : nat) : Prop :=
    (0 <= k < n /\ Z.of_nat m = k) \/ (- n <= k < 0 /\ Z.of_nat m = k + n).

  Definition refused (s : acell) (s' : acell) (x : exn)
             (r : res (out E X W L)) : Prop := a_eq s s' /\ r = Err x.

  (** A mutator is refused on a locked cell. *)
  Definition guarded (s s' : acell) (r : res (out E X W L)) (P : Prop) : Prop :=
    if a_locked s then refused s s' LockError r else P.

  Definition spec (s : acell) (o : op E X W L) (s' : acell)
             (r : res (out E X W L)) : Prop :=
    match o with
    | OpLock => r = Ok ONone /\
        a_eq s' {| a_locked := true; a_orbs := a_orbs s; a_hop := a_hop s |}
    | OpUnlock => r = Ok ONone /\
        a_eq s' {| a_locked := false; a_orbs := a_orbs s; a_hop := a_hop s |}
    | OpSync => r = Ok ONone /\ a_eq s s'
    | OpGetOrb k =>
        a_eq s s' /\
        ((exists m v, slot (a_num s) k m /\ nth_error (a_orbs s) m = Some v /\ r = Ok (OOrb v))
         \/ (~ (- a_num s <= k < a_num s) /\ r = Err PCOrbIndexError))
    | OpGetHop rn i j =>
        a_eq s s' /\
        r = match hop_err s rn i j with
            | Some x => Err x
            | None => match a_hop s (full rn) i j with
                      | Some e => Ok (OEnergy e)
                      | None => Err PCHopNotFoundError
                      end
            end
    | OpAddOrb p w l => guarded s s' r (
        (~ pos_ok p /\ refused s s' OrbPositionLenError r) \/
        (pos_ok p /\ r = Ok ONone /\ a_locked s' = a_locked s /\
         a_orbs s' = a_orbs s ++ [{| position := full_pos p; energy := w; label := l |}] /\
         forall q i j, a_hop s' q i j = a_hop s q i j))
    | OpSetOrb k p w l => guarded s s' r (
        ((exists q, p = Some q /\ ~ pos_ok q) /\ refused s s' OrbPositionLenError r) \/
        ((forall q, p = Some q -> pos_ok q) /\
         ((~ (- a_num s <= k < a_num s) /\ refused s s' PCOrbIndexError r) \/
          exists m v, slot (a_num s) k m /\ nth_error (a_orbs s) m = Some v /\
            r = Ok ONone /\ a_locked s' = a_locked s /\
            length (a_orbs s') = length (a_orbs s) /\
            (forall n, n <> m -> nth_error (a_orbs s') n = nth_error (a_orbs s) n) /\
            nth_error (a_orbs s') m =
              Some {| position := match p with Some q => full_pos q | None => position v end;
                      energy := match w with Some x => x | None => energy v end;
                      label := match l with Some x => x | None => label v end |} /\
            forall q i j, a_hop s' q i j = a_hop s q i j)))
    | OpRemoveOrbs idx => guarded s s' r (
        if forallb (fun x => (0 <=? x) && (x <? a_num s)) idx
        then r = Ok ONone /\ without s (fun x => In x idx) s'
        else refused s s' PCOrbIndexError r)
    | OpAddHop rn i j e => guarded s s' r (
        match hop_err s rn i j with
        | Some x => refused s s' x r
        | None => r = Ok ONone /\ a_locked s' = a_locked s /\ a_orbs s' = a_orbs s /\
                  written (a_hop s) (full rn) i j (Some e) (a_hop s')
        end)
    | OpRemoveHop rn i j => guarded s s' r (
        match hop_err s rn i j with
        | Some x => refused s s' x r
        | None => match a_hop s (full rn) i j with
                  | None => refused s s' PCHopNotFoundError r
                  | Some _ => r = Ok ONone /\ a_locked s' = a_locked s /\
                              a_orbs s' = a_orbs s /\
                              written (a_hop s) (full rn) i j None (a_hop s')
                  end
        end)
    | OpTrim => guarded s s' r (r = Ok ONone /\ without s (dangling s) s')
    | OpApplyPbc pbc => guarded s s' r (
        match pbc with
        | [pa; pb; pc] => r = Ok ONone /\ a_locked s' = a_locked s /\ a_orbs s' = a_orbs s /\
            forall a b c i j, a_hop s' (a, b, c) i j =
              if (negb pa && negb (a =? 0)) || (negb pb && negb (b =? 0))
                 || (negb pc && negb (c =? 0))
              then None else a_hop s (a, b, c) i j
        | _ => refused s s' ValueError r
        end)
    end.

  (** A whole session: the list of answers is one the specification allows. *)
  Fixpoint session (s : acell) (os : list (op E X W L))
           (rs : list (res (out E X W L))) (s' : acell) : Prop :=
    match os, rs with
    | [], [] => a_eq s s'
    | o :: os', r :: rs' => exists m, spec s o m r /\ session m os' rs' s'
    | _, _ => False
    end.
End Spec.
Arguments acell : clear implicits.

(** * Reading a model state as an abstract cell *)
Section Link.
  Context {E X W L : Type} (conj : E -> E) (zero : X).

  (** The amplitude of a model state is the value its container reports. *)
  Definition abs (s : pc E X W L) : acell E X W L :=
    {| a_locked := locked s; a_orbs := orbs s;
       a_hop := fun r i j => ih_get conj (hop s) r i j |}.


  (** The only restriction put on histories: orbitals are removed by their
      numbers 0 .. num_orb - 1 (what happens otherwise is the subject of the
      [..._refuted] theorems). *)
  Definition op_ok (s : pc E X W L) (o : op E X W L) : Prop :=
    match o with
    | OpRemoveOrbs idx => locked s = true \/ Forall (fun x => 0 <= x < num_orb s) idx
    | _ => True
    end.

  (** Histories in which orbitals are removed with in-range indices. *)
  Fixpoint hist_ok (s : pc E X W L) (os : list (op E X W L)) : Prop :=
    match os with
    | [] => True
    | o :: r => op_ok s o /\ hist_ok (fst (step conj zero s o)) r
    end.


End Link.

(** * Direct reading of a history *)
Section Latest.
  Context {E X W L : Type} (conj : E -> E).

  Definition key := (Z * Z * Z * Z * Z)%type.
  Definition key_eqb (a b : key) : bool :=
    let '(a1, a2, a3, a4, a5) := a in let '(b1, b2, b3, b4, b5) := b in
    (a1 =? b1) && (a2 =? b2) && (a3 =? b3) && (a4 =? b4) && (a5 =? b5).

  (** The value most recently written at (r, i, j), or the conjugate of the
      value most recently written at (-r, j, i), whichever call came last;
      refused calls (answer Err) do not count. *)
  Fixpoint latest (os : list (op E X W L)) (rs : list (res (out E X W L)))
           (r : Z * Z * Z) (i j : Z) (now : option E) : option E :=
    match os, rs with
    | OpAddHop rn a b e :: os', Ok _ :: rs' =>
        latest os' rs' r i j
          (if key_eqb (full rn, a, b) (r, i, j) then Some e
           else if key_eqb (full rn, a, b) (opp r, j, i) then Some (conj e) else now)
    | OpRemoveHop rn a b :: os', Ok _ :: rs' =>
        latest os' rs' r i j
          (if key_eqb (full rn, a, b) (r, i, j) || key_eqb (full rn, a, b) (opp r, j, i)
           then None else now)
    | _ :: os', _ :: rs' => latest os' rs' r i j now
    | _, _ => now
    end.

  (** Calls that neither renumber orbitals nor delete hoppings in bulk. *)
  Definition plain (o : op E X W L) : Prop :=
    match o with
    | OpRemoveOrbs _ | OpTrim | OpApplyPbc _ => False
    | _ => True
    end.

  Definition is_mutator (o : op E X W L) : Prop :=
    match o with
    | OpAddOrb _ _ _ | OpSetOrb _ _ _ _ | OpRemoveOrbs _ | OpAddHop _ _ _ _
    | OpRemoveHop _ _ _ | OpTrim | OpApplyPbc _ => True
    | _ => False
    end.
End Latest.
