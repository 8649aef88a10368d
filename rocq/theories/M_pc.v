(** Model of the mutators and queries of PrimitiveCell
    (tbplas/builder/primitive.py). *)
From Verif Require Import Prelude M_hop.

Section PC.
  (** E: energies of hopping terms with complex conjugation; X, W, L: orbital
      coordinates (scalars), on-site energies and labels; [zero] is the 0.0
      appended by check_pos. *)
  Context {E X W L : Type} (conj : E -> E) (zero : X).

  (** base.py:95 Orbital. *)
  Record orbital := { position : X * X * X; energy : W; label : L }.

  (** primitive.py:88-130 and base.py:109-111: the attributes that matter here.
      Lattice and cached arrays are modelled in M_lattice and M_sync. *)
  Record pc := { locked : bool; orbs : list orbital; hop : @hops E }.

  Definition set_orbs (s : pc) (l : list orbital) : pc :=
    {| locked := locked s; orbs := l; hop := hop s |}.
  Definition set_hop (s : pc) (h : hops) : pc :=
    {| locked := locked s; orbs := orbs s; hop := h |}.
  Definition set_locked (s : pc) (b : bool) : pc :=
    {| locked := b; orbs := orbs s; hop := hop s |}.

  Definition pc_empty : pc := {| locked := false; orbs := []; hop := [] |}.

  (** primitive.py:995-1002 num_orb. *)
  Definition num_orb (s : pc) : Z := Z.of_nat (length (orbs s)).

  (** base.py:48-59 check_pos. *)
  Definition check_pos (coord : list X) : option (X * X * X) :=
    match coord with
    | [a; b; c] => Some (a, b, c)
    | [a; b] => Some (a, b, zero)
    | _ => None
    end.

  (** primitive.py:185-209 _check_hop_index. *)
  Definition check_hop_index (s : pc) (rn : list Z) (i j : Z)
    : res (rn3 * Z * Z) :=
    match check_rn rn with
    | None => Err CellIndexLenError
    | Some r =>
      if negb ((0 <=? i) && (i <? num_orb s)) then Err PCOrbIndexError
      else if negb ((0 <=? j) && (j <? num_orb s)) then Err PCOrbIndexError
      else if rn_eqb r (0, 0, 0) && (i =? j) then Err PCHopDiagonalError
      else Ok (r, i, j)
    end.

  Inductive out := ONone | OEnergy (e : E) | OOrb (o : orbital).

  (** primitive.py:211-229 add_orbital. *)
  Definition add_orbital (s : pc) (p : list X) (w : W) (l : L) : pc * res out :=
    if locked s then (s, Err LockError) else
    match check_pos p with
    | None => (s, Err OrbPositionLenError)
    | Some p3 => (set_orbs s (orbs s ++ [{| position := p3; energy := w; label := l |}]),
                  Ok ONone)
    end.

  (** primitive.py:249-284 set_orbital ([None] arguments keep the attribute). *)
  Definition set_orbital (s : pc) (k : Z) (p : option (list X)) (w : option W)
             (l : option L) : pc * res out :=
    if locked s then (s, Err LockError) else
    match (match p with
           | None => Some None
           | Some q => match check_pos q with
                       | None => None
                       | Some q3 => Some (Some q3)
                       end
           end) with
    | None => (s, Err OrbPositionLenError)
    | Some p' =>
      match py_norm (length (orbs s)) k with
      | None => (s, Err PCOrbIndexError)
      | Some n =>
        match nth_error (orbs s) n with
        | None => (s, Err PCOrbIndexError)
        | Some o =>
          (set_orbs s (set_nth n (orbs s)
             {| position := match p' with None => position o | Some q => q end;
                energy := match w with None => energy o | Some q => q end;
                label := match l with None => label o | Some q => q end |}),
           Ok ONone)
        end
      end
    end.

  (** primitive.py:312-324 get_orbital. *)
  Definition get_orbital (s : pc) (k : Z) : pc * res out :=
    match py_nth (orbs s) k with
    | Some o => (s, Ok (OOrb o))
    | None => (s, Err PCOrbIndexError)
    end.

  (** primitive.py:353-357: pops one by one; on IndexError the pops already
      done stay done. *)
  Fixpoint pop_all (i : Z) (idx : list Z) (l : list orbital)
    : list orbital * bool :=
    match idx with
    | [] => (l, true)
    | o :: r => match py_pop l (o - i) with
                | Some l' => pop_all (i + 1) r l'
                | None => (l, false)
                end
    end.

  (** primitive.py:338-360 remove_orbitals (remove_orbital(k), 326-336, is
      remove_orbitals([k])). *)
  Definition remove_orbitals (s : pc) (indices : list Z) : pc * res out :=
    if locked s then (s, Err LockError) else
    let idx := sorted_set indices in
    match pop_all 0 idx (orbs s) with
    | (l, false) => (set_orbs s l, Err PCOrbIndexError)
    | (l, true) => (set_hop (set_orbs s l) (ih_remove_orbitals (hop s) idx), Ok ONone)
    end.

  (** primitive.py:362-382 add_hopping. *)
  Definition add_hopping (s : pc) (rn : list Z) (i j : Z) (e : E) : pc * res out :=
    if locked s then (s, Err LockError) else
    match check_hop_index s rn i j with
    | Err x => (s, Err x)
    | Ok (r, i', j') => (set_hop s (ih_add conj (hop s) r i' j' e), Ok ONone)
    end.

  (** primitive.py:404-425 get_hopping. *)
  Definition get_hopping (s : pc) (rn : list Z) (i j : Z) : pc * res out :=
    match check_hop_index s rn i j with
    | Err x => (s, Err x)
    | Ok (r, i', j') => match ih_get conj (hop s) r i' j' with
                        | Some e => (s, Ok (OEnergy e))
                        | None => (s, Err PCHopNotFoundError)
                        end
    end.

  (** primitive.py:427-448 remove_hopping. *)
  Definition remove_hopping (s : pc) (rn : list Z) (i j : Z) : pc * res out :=
    if locked s then (s, Err LockError) else
    match check_hop_index s rn i j with
    | Err x => (s, Err x)
    | Ok (r, i', j') =>
      let '(h, status) := ih_remove (hop s) r i' j' in
      (set_hop s h, if status then Ok ONone else Err PCHopNotFoundError)
    end.

  (** primitive.py:460-464: hop_count[o].  numpy indexing with the stored,
      in-range pairs. *)
  Definition hop_count (h : hops) (o : Z) : Z :=
    fold_left (fun n (t : rn3 * list (pair2 * E)) =>
      fold_left (fun n (q : pair2 * E) =>
        n + (if fst (fst q) =? o then 1 else 0)
          + (if snd (fst q) =? o then 1 else 0)) (snd t) n) h 0.

  (** primitive.py:450-470 trim. *)
  Definition trim (s : pc) : pc * res out :=
    if locked s then (s, Err LockError) else
    remove_orbitals s (filter (fun o => hop_count (hop s) o <=? 1)
                              (zrange (length (orbs s)))).

  (** primitive.py:487-494: to_keep for one cell index. *)
  Definition keep_rn (pbc : bool * bool * bool) (r : rn3) : bool :=
    let '(pa, pb, pc) := pbc in let '(a, b, c) := r in
    (pa || (a =? 0)) && (pb || (b =? 0)) && (pc || (c =? 0)).

  (** primitive.py:472-494 apply_pbc: iterates over the list of keys taken
      before the first removal. *)
  Definition apply_pbc (s : pc) (pbc : list bool) : pc * res out :=
    if locked s then (s, Err LockError) else
    match pbc with
    | [pa; pb; pc] =>
      (set_hop s (fold_left (fun h r => if keep_rn (pa, pb, pc) r then h
                                        else fst (ih_remove_rn h r))
                            (cell_indices (hop s)) (hop s)), Ok ONone)
    | _ => (s, Err ValueError)
    end.

  (** The public operations on a primitive cell. [OpSync] is sync_array / any
      array export, whose only effect on the container is purge
      (primitive.py:149-150,570-574 through __hash__ -> to_list). [OpLock]
      stands for lock() by a registered subscriber (base.py:123-134), [OpUnlock]
      for unlock() (base.py:136-142). *)
  Inductive op :=
  | OpAddOrb (p : list X) (w : W) (l : L)
  | OpSetOrb (k : Z) (p : option (list X)) (w : option W) (l : option L)
  | OpGetOrb (k : Z)
  | OpRemoveOrbs (indices : list Z)
  | OpAddHop (rn : list Z) (i j : Z) (e : E)
  | OpGetHop (rn : list Z) (i j : Z)
  | OpRemoveHop (rn : list Z) (i j : Z)
  | OpTrim
  | OpApplyPbc (pbc : list bool)
  | OpSync
  | OpLock
  | OpUnlock.

  Definition step (s : pc) (o : op) : pc * res out :=
    match o with
    | OpAddOrb p w l => add_orbital s p w l
    | OpSetOrb k p w l => set_orbital s k p w l
    | OpGetOrb k => get_orbital s k
    | OpRemoveOrbs idx => remove_orbitals s idx
    | OpAddHop rn i j e => add_hopping s rn i j e
    | OpGetHop rn i j => get_hopping s rn i j
    | OpRemoveHop rn i j => remove_hopping s rn i j
    | OpTrim => trim s
    | OpApplyPbc pbc => apply_pbc s pbc
    | OpSync => (set_hop s (purge (hop s)), Ok ONone)
    | OpLock => (set_locked s true, Ok ONone)
    | OpUnlock => (set_locked s false, Ok ONone)
    end.

  (** Run a history, collecting the answers. *)
  Fixpoint run (s : pc) (os : list op) : pc * list (res out) :=
    match os with
    | [] => (s, [])
    | o :: r => let '(s1, a) := step s o in
                let '(s2, l) := run s1 r in (s2, a :: l)
    end.
End PC.
Arguments pc : clear implicits.
Arguments orbital : clear implicits.
Arguments op : clear implicits.
Arguments out : clear implicits.
