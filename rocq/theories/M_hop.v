(** Model of the hopping container of tbplas/builder/base.py. *)
From Verif Require Import Prelude.

(** base.py:13-14 rn3_type, pair_type. *)
Definition rn3 := (Z * Z * Z)%type.
Definition pair2 := (Z * Z)%type.
Definition rn_eqb (a b : rn3) : bool :=
  let '(a1, a2, a3) := a in let '(b1, b2, b3) := b in
  (a1 =? b1) && (a2 =? b2) && (a3 =? b3).
Definition pair_eqb (a b : pair2) : bool :=
  (fst a =? fst b) && (snd a =? snd b).

(** base.py:26-45 check_rn: [None] stands for legal = False. *)
Definition check_rn (coord : list Z) : option rn3 :=
  match coord with
  | [a; b; c] => Some (a, b, c)
  | [a; b] => Some (a, b, 0)
  | _ => None
  end.

(** base.py:76-92 check_conj; the recursion over i = 0, 1, 2 is unrolled. *)
Definition check_conj (rn : rn3) (p : pair2) : bool :=
  let '(ra, rb, rc) := rn in
  if 0 <? ra then false else if ra <? 0 then true else
  if 0 <? rb then false else if rb <? 0 then true else
  if 0 <? rc then false else if rc <? 0 then true else
  snd p <? fst p.

Definition rn_neg (r : rn3) : rn3 := let '(a, b, c) := r in (- a, - b, - c).

(** base.py:197-219 IntraHopping._norm_keys. *)
Definition norm_keys (rn : rn3) (i j : Z) : rn3 * pair2 * bool :=
  if check_conj rn (i, j) then (rn_neg rn, (j, i), true)
  else (rn, (i, j), false).

Section Hop.
  Context {E : Type} (conj : E -> E).

  (** base.py:188-190 IntraHopping.__init__: dict of dicts. *)
  Definition hops := list (rn3 * list (pair2 * E)).

  (** base.py:237-244: the storage part of add_hopping, shared by
      IntraHopping and InterHopping. *)
  Definition put_hop (d : hops) (rn : rn3) (p : pair2) (e : E) : hops :=
    let hop_rn := match aget rn_eqb d rn with Some h => h | None => [] end in
    aset rn_eqb d rn (aset pair_eqb hop_rn p e).

  (** base.py:221-244 IntraHopping.add_hopping. *)
  Definition ih_add (d : hops) (rn : rn3) (i j : Z) (e : E) : hops :=
    let '(rn', p, c) := norm_keys rn i j in
    put_hop d rn' p (if c then conj e else e).

  (** base.py:260-265: nested lookup. *)
  Definition look_hop (d : hops) (rn : rn3) (p : pair2) : option E :=
    match aget rn_eqb d rn with Some h => aget pair_eqb h p | None => None end.

  (** base.py:246-268 IntraHopping.get_hopping; [None] is status False. *)
  Definition ih_get (d : hops) (rn : rn3) (i j : Z) : option E :=
    let '(rn', p, c) := norm_keys rn i j in
    match look_hop d rn' p with
    | Some e => Some (if c then conj e else e)
    | None => None
    end.

  (** base.py:282-287: pop of the inner dict. *)
  Definition pop_hop (d : hops) (rn : rn3) (p : pair2) : hops * bool :=
    match aget rn_eqb d rn with
    | None => (d, false)
    | Some h => match aget pair_eqb h p with
                | None => (d, false)
                | Some _ => (aset rn_eqb d rn (adel pair_eqb h p), true)
                end
    end.

  (** base.py:270-287 IntraHopping.remove_hopping. *)
  Definition ih_remove (d : hops) (rn : rn3) (i j : Z) : hops * bool :=
    let '(rn', p, _) := norm_keys rn i j in pop_hop d rn' p.

  (** base.py:310-319 _remap (the memo dict idx_remap is a cache only). *)
  Definition remap (indices : list Z) (x : Z) : Z :=
    fold_left (fun r j => if j <? x then r - 1 else r) indices x.

  (** base.py:322-330: the rebuilt inner dict. *)
  Definition remove_orbs_rn (indices : list Z) (h : list (pair2 * E))
    : list (pair2 * E) :=
    fold_left (fun acc (t : pair2 * E) =>
      let '(ii, jj) := fst t in
      if zmem ii indices || zmem jj indices then acc
      else aset pair_eqb acc (remap indices ii, remap indices jj) (snd t)) h [].

  (** base.py:299-331 IntraHopping.remove_orbitals.  The outer dict keeps its
      keys and their order (assignment to existing keys). *)
  Definition ih_remove_orbitals (d : hops) (indices : list Z) : hops :=
    let idx := sorted_set indices in
    map (fun t : rn3 * list (pair2 * E) => (fst t, remove_orbs_rn idx (snd t))) d.

  (** base.py:333-346 IntraHopping.remove_rn. *)
  Definition ih_remove_rn (d : hops) (rn : rn3) : hops * bool :=
    let '(rn', _, _) := norm_keys rn 0 0 in
    match aget rn_eqb d rn' with
    | Some _ => (adel rn_eqb d rn', true)
    | None => (d, false)
    end.

  (** base.py:348-356 purge. *)
  Definition purge (d : hops) : hops :=
    filter (fun t : rn3 * list (pair2 * E) =>
              match snd t with [] => false | _ => true end) d.

  Definition flatten (d : hops) : list (rn3 * pair2 * E) :=
    flat_map (fun t : rn3 * list (pair2 * E) =>
      map (fun q : pair2 * E => (fst t, fst q, snd q)) (snd t)) d.

  (** base.py:358-368 to_list (purge is performed on the container). *)
  Definition ih_to_list (d : hops) : hops * list (rn3 * pair2 * E) :=
    let d' := purge d in (d', flatten d').

  (** base.py:370-393 to_array: hop_ind and hop_eng. *)
  Definition ih_to_array (d : hops) : hops * (list (rn3 * pair2) * list E) :=
    let d' := purge d in
    (d', (map fst (flatten d'), map snd (flatten d'))).

  (** base.py:400-407 cell_indices. *)
  Definition cell_indices (d : hops) : list rn3 := map fst d.

  (** base.py:409-419 num_hop. *)
  Definition num_hop (d : hops) : nat :=
    fold_left (fun n (t : rn3 * list (pair2 * E)) => (n + length (snd t))%nat) d O.
End Hop.
