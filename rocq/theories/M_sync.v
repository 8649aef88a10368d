(** Model of the cached arrays of primitive cells and supercells and of their
    synchronisation by hash comparison. *)
From Verif Require Import Prelude M_hop M_pc M_index.

(** ** CPython hashes (external to the repository): hash(int) for 64-bit builds,
    hash(float) agrees with it on integral values, hash(complex) of Gaussian
    integers.  The hash of a tuple is a function of the hashes of its items. *)
Definition py_modulus : Z := 2 ^ 61 - 1.
Definition fix_hash (h : Z) : Z := if h =? -1 then -2 else h.
Definition hash_int (x : Z) : Z := fix_hash (Z.sgn x * (Z.abs x mod py_modulus)).
Definition hash_complex (e : Z * Z) : Z :=
  fix_hash (w64 (hash_int (fst e) + 1000003 * hash_int (snd e))).

Section Sync.
  Context {E X W L : Type} (conj : E -> E) (zero : X).
  Context (hash_orbs : list (orbital X W L) -> Z) (hash_hops : list (rn3 * pair2 * E) -> Z).

  (** primitive.py:116-127: hash_dict and the arrays (orb_pos and orb_eng row by
      row, hop_ind and hop_eng row by row). *)
  Record cached := {
    c_pc : pc E X W L;
    c_horb : Z; c_hhop : Z;
    c_orb : list ((X * X * X) * W);
    c_hop : list (rn3 * pair2 * E) }.

  (** primitive.py:88-130: a new cell. *)
  Definition cached0 : cached :=
    {| c_pc := pc_empty; c_horb := hash_orbs []; c_hhop := hash_hops []; c_orb := []; c_hop := [] |}.

  Definition orb_rows (l : list (orbital X W L)) : list ((X * X * X) * W) :=
    map (fun o => (position o, energy o)) l.

  (** primitive.py:547-560 sync_orb with 155-169 _update_attr_hash. *)
  Definition sync_orb (force : bool) (s : cached) : cached :=
    let new := hash_orbs (orbs (c_pc s)) in
    let upd := negb (c_horb s =? new) in
    {| c_pc := c_pc s; c_horb := if upd then new else c_horb s; c_hhop := c_hhop s;
       c_orb := if force || upd then orb_rows (orbs (c_pc s)) else c_orb s; c_hop := c_hop s |}.

  (** primitive.py:562-574 sync_hop; the hash purges the container. *)
  Definition sync_hop (force : bool) (s : cached) : cached :=
    let p := set_hop (c_pc s) (purge (hop (c_pc s))) in
    let l := flatten (hop p) in
    let upd := negb (c_hhop s =? hash_hops l) in
    {| c_pc := p; c_horb := c_horb s; c_hhop := if upd then hash_hops l else c_hhop s;
       c_orb := c_orb s; c_hop := if force || upd then l else c_hop s |}.

  Inductive cop := CEdit (o : op E X W L) | CSyncOrb (force : bool) | CSyncHop (force : bool) | CSync (force : bool).

  (** 576-585 sync_array. *)
  Definition cstep (s : cached) (o : cop) : cached :=
    match o with
    | CEdit o => {| c_pc := fst (step conj zero (c_pc s) o); c_horb := c_horb s; c_hhop := c_hhop s;
                    c_orb := c_orb s; c_hop := c_hop s |}
    | CSyncOrb f => sync_orb f s
    | CSyncHop f => sync_hop f s
    | CSync f => sync_hop f (sync_orb f s)
    end.
  Definition crun (s : cached) (os : list cop) : cached := fold_left cstep os s.
End Sync.
Arguments cached : clear implicits.
Arguments cop : clear implicits.

(** ** Supercells: super.py:147-153, 165-199, 284-327.  The primitive cell is
    seen through its number of orbitals, its hash and whether it is empty; it
    may be unlocked and edited by the user at any time. *)
Section SyncSC.
  Context {P : Type} (n_orb n_hop : P -> Z) (hash_pc : P -> Z) (hash_vac : list id4 -> Z).

  Record cset := {
    k_pc : P; k_dim : rn3; k_vacs : list id4;
    k_hpc : Z; k_hvac : Z;
    k_vac_id_sc : list Z; k_orb_id_pc : list id4 }.

  Definition k_oset (s : cset) : oset := {| o_dim := k_dim s; o_n := n_orb (k_pc s); o_vacs := k_vacs s |}.

  (** 147-153: a new supercell without vacancies. *)
  Definition cset0 (p : P) (dim : rn3) : cset :=
    {| k_pc := p; k_dim := dim; k_vacs := []; k_hpc := hash_pc p; k_hvac := hash_vac [];
       k_vac_id_sc := []; k_orb_id_pc := build_orb_id_pc dim (n_orb p) [] |}.

  (** 313-315: the first bad vacancy. *)
  Fixpoint check_all (o : oset) (vs : list id4) : res unit :=
    match vs with
    | [] => Ok tt
    | (a, b, c, i) :: r => bind (check_id_pc o [a; b; c; i]) (fun _ => check_all o r)
    end.

  (** 284-327 sync_array.  The hashes are updated before the vacancies are
      checked. *)
  Definition ksync (force : bool) (s : cset) : cset * res unit :=
    if n_orb (k_pc s) =? 0 then (s, Err PCOrbEmptyError)
    else if n_hop (k_pc s) =? 0 then (s, Err PCHopEmptyError)
    else
      let upc := negb (k_hpc s =? hash_pc (k_pc s)) in
      let uvac := negb (k_hvac s =? hash_vac (k_vacs s)) in
      let s1 := {| k_pc := k_pc s; k_dim := k_dim s; k_vacs := k_vacs s;
                   k_hpc := if upc then hash_pc (k_pc s) else k_hpc s;
                   k_hvac := if uvac then hash_vac (k_vacs s) else k_hvac s;
                   k_vac_id_sc := k_vac_id_sc s; k_orb_id_pc := k_orb_id_pc s |} in
      if force || upc || uvac then
        match (match k_vacs s with
               | [] => Ok []
               | vs => bind (if upc then check_all (k_oset s) vs else Ok tt)
                            (fun _ => Ok (o_vac_id_sc (k_oset s)))
               end) with
        | Err x => (s1, Err x)
        | Ok vid => ({| k_pc := k_pc s1; k_dim := k_dim s1; k_vacs := k_vacs s1; k_hpc := k_hpc s1; k_hvac := k_hvac s1;
                        k_vac_id_sc := vid;
                        k_orb_id_pc := build_orb_id_pc (k_dim s) (n_orb (k_pc s)) vid |}, Ok tt)
        end
      else (s1, Ok tt).

  (** Editing the vacancies or the (unlocked) primitive cell. *)
  Inductive kop := KPc (p : P) | KVac (o : vop') | KSync (force : bool)
  with vop' := VAdd (vs : list (list Z)) | VSet (vs : option (list (list Z))).

  Definition kstep (s : cset) (o : kop) : cset * res unit :=
    let with_vacs l := {| k_pc := k_pc s; k_dim := k_dim s; k_vacs := l; k_hpc := k_hpc s; k_hvac := k_hvac s;
                          k_vac_id_sc := k_vac_id_sc s; k_orb_id_pc := k_orb_id_pc s |} in
    match o with
    | KPc p => ({| k_pc := p; k_dim := k_dim s; k_vacs := k_vacs s; k_hpc := k_hpc s; k_hvac := k_hvac s;
                   k_vac_id_sc := k_vac_id_sc s; k_orb_id_pc := k_orb_id_pc s |}, Ok tt)
    | KVac (VAdd vs) => let '(o', r) := add_vacancies (k_oset s) vs in (with_vacs (o_vacs o'), r)
    | KVac (VSet vs) => let '(o', r) := set_vacancies (k_oset s) vs in (with_vacs (o_vacs o'), r)
    | KSync f => ksync f s
    end.
  Definition krun (s : cset) (os : list kop) : cset := fold_left (fun s o => fst (kstep s o)) os s.
End SyncSC.
Arguments cset : clear implicits.
Arguments kop : clear implicits.

(** primitive.py:132-153, base.py:192-194: hashes of the contents built from CPython's hash(-1) = hash(-2) = -2, for an
    arbitrary way [comb] of hashing a tuple from the hashes of its items. *)
Definition py_hash_orbs (comb : list Z -> Z) (hash_label : Z -> Z) (l : list (orbital Z Z Z)) : Z :=
  comb (map (fun o : orbital Z Z Z =>
               comb [comb (let '(x, y, z) := position o in [hash_int x; hash_int y; hash_int z]);
                     hash_int (energy o); hash_label (label o)]) l).
Definition py_hash_hops (comb : list Z -> Z) (l : list (rn3 * pair2 * (Z * Z))) : Z :=
  comb (map (fun t : rn3 * pair2 * (Z * Z) =>
               let '((a, b, c), (i, j), e) := t in
               comb [hash_int a; hash_int b; hash_int c; hash_int i; hash_int j; hash_complex e]) l).

