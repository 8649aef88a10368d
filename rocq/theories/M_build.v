(** Model of extend_prim_cell and merge_prim_cell
    (tbplas/builder/advanced.py:26-140, 307-399). *)
From Verif Require Import Prelude Vec M_hop M_pc M_index M_super.

Section Build.
  Context {E T W L : Type} {ST : Scalar T} (conj : E -> E).
  (** Division by a positive integer (float division). *)
  Context (sdivZ : T -> Z -> T).
  (** lattice.py:74-98 cart2frac for one coordinate, primitive.py:535 (the
      3x3 inverse is external); the float comparisons of merge_prim_cell. *)
  Context (c2f : mat T -> vec T -> vec T -> vec T)
          (lat_mismatch : mat T -> mat T -> bool) (ext_ge : T -> T -> bool).

  (** A primitive cell with its lattice: primitive.py:88-130. *)
  Record gcell := { g_pc : pc E T W L; g_lat : mat T; g_org : vec T; g_ext : T }.

  (** advanced.py:26-76 OrbitalMap. *)
  Record omap := { om_pc : list id4; om_sc : list (id4 * Z); om_n : Z }.
  Definition om_empty : omap := {| om_pc := []; om_sc := []; om_n := 0 |}.
  Definition om_add (m : omap) (t : id4) : omap :=
    {| om_pc := om_pc m ++ [t]; om_sc := aset id4_eqb (om_sc m) t (om_n m); om_n := om_n m + 1 |}.
  Definition om_pc2sc (m : omap) (t : id4) : res Z :=
    match aget id4_eqb (om_sc m) t with Some k => Ok k | None => Err KeyError end.
  Definition om_sc2pc (m : omap) (k : Z) : res id4 :=
    match py_nth (om_pc m) k with Some t => Ok t | None => Err IndexError end.

  Definition lift1 (r : pc E T W L * res (out E T W L)) : res (pc E T W L) :=
    match snd r with Ok _ => Ok (fst r) | Err x => Err x end.

  (** advanced.py:112-121: one iteration of the orbital loops. *)
  Definition ext_orb (dim : rn3) (acc : res (pc E T W L * omap)) (q : id4 * orbital T W L)
    : res (pc E T W L * omap) :=
    bind acc (fun a : pc E T W L * omap =>
      let '(p, m) := a in
      let '((ia, ib, ic, io), o) := q in
      let '(da, db, dc) := dim in
      let '(x, y, z) := position o in
      bind (lift1 (add_orbital s0 p
              [sdivZ (sadd x (sZ ia)) da; sdivZ (sadd y (sZ ib)) db; sdivZ (sadd z (sZ ic)) dc]
              (energy o) (label o)))
           (fun p' => Ok (p', om_add m (ia, ib, ic, io)))).

  (** 112-115: the nested loops with enumerate. *)
  Definition ext_sites (dim : rn3) (os : list (orbital T W L)) : list (id4 * orbital T W L) :=
    let '(da, db, dc) := dim in
    flat_map (fun ia => flat_map (fun ib => flat_map (fun ic =>
      map (fun q : Z * orbital T W L => ((ia, ib, ic, fst q), snd q)) (enum os)) (crange dc)) (crange db)) (crange da).

  (** 124-138: one iteration of the hopping loops; Python % and // are floor
      operations, as Z.modulo and Z.div. *)
  Definition ext_hop (dim : rn3) (m : omap) (acc : res (pc E T W L)) (q : Z * (rn3 * pair2 * E)) : res (pc E T W L) :=
    bind acc (fun p =>
    bind (om_sc2pc m (fst q)) (fun t =>
      let '(ia, ib, ic, io) := t in
      let '((ra, rb, rc), (oi, oj), e) := snd q in
      let '(da, db, dc) := dim in
      if io =? oi then
        bind (om_pc2sc m ((ia + ra) mod da, (ib + rb) mod db, (ic + rc) mod dc, oj)) (fun j =>
          lift1 (add_hopping conj p [(ia + ra) / da; (ib + rb) / db; (ic + rc) / dc] (fst q) j e))
      else Ok p)).

  (** 79-140 extend_prim_cell. *)
  Definition extend (c : gcell) (dim : list Z) : res gcell :=
    match check_dim dim with
    | None => Err CoordLenError
    | Some (da, db, dc) =>
      if (da <? 1) || (db <? 1) || (dc <? 1) then Err ValueError
      else
        let '(a1, a2, a3) := g_lat c in
        bind (fold_left (ext_orb (da, db, dc)) (ext_sites (da, db, dc) (orbs (g_pc c))) (Ok (pc_empty, om_empty)))
          (fun s : pc E T W L * omap =>
        bind (fold_left (ext_hop (da, db, dc) (snd s))
                (flat_map (fun k => map (fun t => (k, t)) (flatten (hop (g_pc c)))) (zrange (length (orbs (fst s)))))
                (Ok (fst s)))
          (fun p => Ok {| g_pc := p; g_lat := (vscale (sZ da) a1, vscale (sZ db) a2, vscale (sZ dc) a3);
                          g_org := g_org c; g_ext := smul (g_ext c) (sZ (da * db * dc)) |}))
    end.

  (** ** merge_prim_cell.  Cells are objects, referred to by their number. *)
  Inductive marg := ACell (k : nat) | AInter (bra ket : nat) (h : @hops E) | AOther.

  (** 329-338: parse. *)
  Fixpoint parse (args : list marg) : res (list nat * list (nat * nat * @hops E)) :=
    match args with
    | [] => Ok ([], [])
    | a :: r => match a with
                | AOther => Err ValueError
                | ACell k => bind (parse r) (fun q => Ok (k :: fst q, snd q))
                | AInter b k h => bind (parse r) (fun q => Ok (fst q, (b, k, h) :: snd q))
                end
    end.

  (** primitive.py:496-545 reset_lattice(lat, org, fix_orb=True). *)
  Definition reset_lattice (lat : mat T) (org : vec T) (c : gcell) : gcell * res unit :=
    if locked (g_pc c) then (c, Err LockError) else
    ({| g_pc := set_orbs (g_pc c)
          (map (fun o => {| position := c2f lat org (vadd (vmat (position o) (g_lat c)) (g_org c));
                            energy := energy o; label := label o |}) (orbs (g_pc c)));
        g_lat := lat; g_org := org; g_ext := g_ext c |}, Ok tt).

  Definition heap := list gcell.

  (** 375-379: one cell. *)
  Fixpoint merge_orbs (lat : mat T) (org : vec T) (h : heap) (p : pc E T W L) (cs : list nat)
    : heap * res (pc E T W L) :=
    match cs with
    | [] => (h, Ok p)
    | k :: r =>
      match nth_error h k with
      | None => (h, Err IndexError)
      | Some c =>
        match reset_lattice lat org c with
        | (c', Err x) => (set_nth k h c', Err x)
        | (c', Ok _) =>
          let h' := set_nth k h c' in
          match fold_left (fun acc o => bind acc (fun p =>
                  let '(x, y, z) := position o in lift1 (add_orbital s0 p [x; y; z] (energy o) (label o))))
                  (orbs (g_pc c')) (Ok p) with
          | Err x => (h', Err x)
          | Ok p' => merge_orbs lat org h' p' r
          end
        end
      end
    end.

  Definition row3 (r : rn3) : list Z := let '(a, b, c) := r in [a; b; c].

  (** 381-389 and 391-399: add all terms of a container, shifted. *)
  Definition add_terms (ob ok : Z) (l : list (rn3 * pair2 * E)) (acc : res (pc E T W L)) : res (pc E T W L) :=
    fold_left (fun acc (t : (rn3 * pair2 * E)) => bind acc (fun p =>
      let '(r, (i, j), e) := t in lift1 (add_hopping conj p (row3 r) (i + ob) (j + ok) e))) l acc.

  (** list.index by identity: the first occurrence. *)
  Fixpoint index_of (k : nat) (cs : list nat) : option nat :=
    match cs with
    | [] => None
    | x :: r => if Nat.eqb x k then Some O else option_map S (index_of k r)
    end.

  Definition zsum (l : list Z) : Z := fold_left Z.add l 0.

  (** 354-358 num_orb and ind_start. *)
  Definition ind_start (h : heap) (cs : list nat) (pos : nat) : Z :=
    zsum (firstn pos (map (fun k => match nth_error h k with Some c => num_orb (g_pc c) | None => 0 end) cs)).

  (** 307-399 merge_prim_cell. *)
  Definition merge (h : heap) (args : list marg) : heap * res gcell :=
    match args with
    | [] => (h, Err ValueError)
    | _ =>
      match parse args with
      | Err x => (h, Err x)
      | Ok (cs, hs) =>
        match cs with
        | [] => (h, Err IndexError)
        | k0 :: _ =>
          match nth_error h k0, mapM (fun k => match nth_error h k with Some c => Ok c | None => Err IndexError end) cs with
          | Some c0, Ok cells =>
            if existsb (fun c => lat_mismatch (g_lat c) (g_lat c0)) cells then (h, Err ValueError)
            else if existsb (fun q : nat * nat * @hops E =>
                       negb (existsb (Nat.eqb (fst (fst q))) cs) || negb (existsb (Nat.eqb (snd (fst q))) cs)) hs
                 then (h, Err ValueError)
            else
              let ext := if existsb (fun c => ext_ge (g_ext c) (g_ext c0)) cells then s1 else g_ext c0 in
              let '(h', rp) := merge_orbs (g_lat c0) (g_org c0) h pc_empty cs in
              match rp with
              | Err x => (h', Err x)
              | Ok p =>
                let p1 := fold_left (fun acc (q : Z * nat) =>
                            match nth_error h' (snd q) with
                            | Some c => add_terms (ind_start h cs (Z.to_nat (fst q))) (ind_start h cs (Z.to_nat (fst q)))
                                          (flatten (hop (g_pc c))) acc
                            | None => acc
                            end) (enum cs) (Ok p) in
                let p2 := fold_left (fun acc (q : nat * nat * @hops E) =>
                            match index_of (fst (fst q)) cs, index_of (snd (fst q)) cs with
                            | Some b, Some k => add_terms (ind_start h cs b) (ind_start h cs k) (flatten (snd q)) acc
                            | _, _ => Err ValueError
                            end) hs p1 in
                (h', match p2 with
                     | Err x => Err x
                     | Ok p => Ok {| g_pc := p; g_lat := g_lat c0; g_org := g_org c0; g_ext := ext |}
                     end)
              end
          | _, _ => (h, Err IndexError)
          end
        end
      end
    end.
End Build.
Arguments gcell : clear implicits.
