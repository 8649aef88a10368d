(** Specification of supercell hoppings: translation images of the hopping
    terms of the crystal, stated as a relation. *)
From Verif Require Import Prelude Vec S_index.

(** One direction: cell a moved by r lands in cell a' of the k-th repetition of
    a supercell of n cells; with open boundaries it must stay inside. *)
Definition along (n : Z) (periodic : bool) (a r a' k : Z) : Prop :=
  a + r = a' + k * n /\ 0 <= a' < n /\ (periodic = false -> k = 0).

(** The ket of <0,i|H|R,j> for the bra at site s, is site s' of repetition q. *)
Definition image (dim : Z * Z * Z) (pbc : bool * bool * bool)
           (s : site) (R : Z * Z * Z) (i j : Z) (s' : site) (q : Z * Z * Z) : Prop :=
  let '(na, nb, nc) := dim in let '(pa, pb, pc) := pbc in
  let '(a, b, c, o) := s in let '(a', b', c', o') := s' in
  let '(ra, rb, rc) := R in let '(ka, kb, kc) := q in
  o = i /\ o' = j /\ along na pa a ra a' ka /\ along nb pb b rb b' kb /\ along nc pc c rc c' kc.

(** Rows (bra number, ket number, energy, displacement) of a supercell with
    numbered sites [sites], positions [pos] and lattice [lat]:
    each pair (site number k, term number h) with an image that is not vacant
    gives exactly one row. *)
Section Rows.
  Context {E T Row : Type} {ST : Scalar T}.
  Context (ri rj : Row -> Z) (rv : Row -> E) (rdr : Row -> vec T).

  Definition from (dim : Z * Z * Z) (pbc : bool * bool * bool) (sites : list site)
             (vacant : site -> Prop) (tab : list (Z * Z * Z * (Z * Z) * E))
             (k h : nat) (s : site) (R : Z * Z * Z) (e : E) (s' : site) (q : Z * Z * Z) : Prop :=
    exists i j, nth_error sites k = Some s /\ nth_error tab h = Some (R, (i, j), e) /\
      image dim pbc s R i j s' q /\ ~ vacant s'.

  Definition row_of (sites : list site) (pos : list (vec T)) (lat : mat T)
             (k : nat) (e : E) (s' : site) (q : Z * Z * Z) (r : Row) : Prop :=
    ri r = Z.of_nat k /\ rv r = e /\
    exists j pi pj, rj r = Z.of_nat j /\ nth_error sites j = Some s' /\
      nth_error pos k = Some pi /\ nth_error pos j = Some pj /\
      rdr r = vadd (vsub pj pi) (vmat (vZ q) lat).

  Definition images_of (dim : Z * Z * Z) (pbc : bool * bool * bool) (sites : list site)
             (vacant : site -> Prop) (tab : list (Z * Z * Z * (Z * Z) * E))
             (pos : list (vec T)) (lat : mat T) (rows : list Row) : Prop :=
    exists prov : list (nat * nat),
      NoDup prov /\
      (forall k h, In (k, h) prov <->
         exists s R e s' q, from dim pbc sites vacant tab k h s R e s' q) /\
      Forall2 (fun p r => exists s R e s' q,
                 from dim pbc sites vacant tab (fst p) (snd p) s R e s' q /\
                 row_of sites pos lat (fst p) e s' q r) prov rows.
End Rows.

(** Reduced hopping table of a primitive cell with n orbitals. *)
Definition opp3 (r : Z * Z * Z) : Z * Z * Z := let '(a, b, c) := r in (- a, - b, - c).
Definition reduced {E} (n : Z) (tab : list (Z * Z * Z * (Z * Z) * E)) : Prop :=
  NoDup (map fst tab) /\
  forall R i j, In (R, (i, j)) (map fst tab) ->
    0 <= i < n /\ 0 <= j < n /\ ~ (R = (0, 0, 0) /\ i = j) /\ ~ In (opp3 R, (j, i)) (map fst tab).

(** The dimension check: no image of the cell beyond half of the supercell. *)
Definition large_enough {E} (dim : Z * Z * Z) (tab : list (Z * Z * Z * (Z * Z) * E)) : Prop :=
  let '(na, nb, nc) := dim in
  0 < na /\ 0 < nb /\ 0 < nc /\
  forall a b c i j e, In ((a, b, c), (i, j), e) tab ->
    2 * Z.abs a + 1 <= na /\ 2 * Z.abs b + 1 <= nb /\ 2 * Z.abs c + 1 <= nc.

(** Cartesian position of a site. *)
Definition site_pos {T} {ST : Scalar T} (lat : mat T) (org : vec T) (tau : vec T) (cell : Z * Z * Z) : vec T :=
  vadd (vmat (vadd tau (vZ cell)) lat) org.

(** Lattice vectors of the supercell. *)
Definition scaled {T} {ST : Scalar T} (dim : Z * Z * Z) (lat : mat T) : mat T :=
  let '(na, nb, nc) := dim in let '(a, b, c) := lat in
  (vscale (sZ na) a, vscale (sZ nb) b, vscale (sZ nc) c).

(** Positions of the sites of an unmodified supercell. *)
Definition positions {T} {ST : Scalar T} (lat : mat T) (org : vec T) (taus : list (vec T))
           (sites : list site) (pos : list (vec T)) : Prop :=
  Forall2 (fun s p => let '(a, b, c, o) := s in
             exists tau, nth_error taus (Z.to_nat o) = Some tau /\ p = site_pos lat org tau (a, b, c)) sites pos.

(** Rows after overlaying the terms of a modifier on the base rows.  The
    displacement of a modifier term is that of its own cell index. *)
Section Overlay.
  Context {E T Row : Type} {ST : Scalar T} (conj : E -> E).
  Context (ri rj : Row -> Z) (rv : Row -> E) (rdr : Row -> vec T).
  Definition disp (pos : list (vec T)) (sclat : mat T) (rn : Z * Z * Z) (i j : Z) (d : vec T) : Prop :=
    exists pi pj, nth_error pos (Z.to_nat i) = Some pi /\ nth_error pos (Z.to_nat j) = Some pj /\
      d = vsub (vadd pj (vmat (vZ rn) sclat)) pi.

  Definition touches (terms : list (Z * Z * Z * (Z * Z) * E)) (i j : Z) : Prop :=
    exists rn e, In (rn, (i, j), e) terms \/ In (rn, (j, i), e) terms.

  Definition overlay_row (pos : list (vec T)) (sclat : mat T) (terms : list (Z * Z * Z * (Z * Z) * E))
             (r r' : Row) : Prop :=
    ri r' = ri r /\ rj r' = rj r /\
    ((~ touches terms (ri r) (rj r) /\ r' = r) \/
     (exists rn, In (rn, (ri r, rj r), rv r') terms /\ disp pos sclat rn (ri r) (rj r) (rdr r')) \/
     (exists rn e d, In (rn, (rj r, ri r), e) terms /\ rv r' = conj e /\
        disp pos sclat rn (rj r) (ri r) d /\ rdr r' = vopp d)).

  Definition overlaid (pos : list (vec T)) (sclat : mat T) (terms : list (Z * Z * Z * (Z * Z) * E))
             (base rows : list Row) : Prop :=
    exists old new fresh, rows = old ++ new /\
      Forall2 (overlay_row pos sclat terms) base old /\
      NoDup fresh /\
      (forall t, In t fresh <-> In t terms /\
         forall r, In r base -> (ri r, rj r) <> snd (fst t) /\ (rj r, ri r) <> snd (fst t)) /\
      Forall2 (fun t r => (ri r, rj r) = snd (fst t) /\ rv r = snd t /\
                 disp pos sclat (fst (fst t)) (ri r) (rj r) (rdr r)) fresh new.
End Overlay.

(** At most one modifier term between any two orbitals. *)
Definition one_per_pair {E} (terms : list (Z * Z * Z * (Z * Z) * E)) : Prop :=
  forall k l r1 i1 j1 e1 r2 i2 j2 e2,
    nth_error terms k = Some (r1, (i1, j1), e1) -> nth_error terms l = Some (r2, (i2, j2), e2) ->
    (i1, j1) = (i2, j2) \/ (i1, j1) = (j2, i2) -> k = l.

(** Errors of a supercell hopping index (n orbitals). *)
Definition sc_hop_err (n : Z) (rn : list Z) (i j : Z) : option exn :=
  if negb (Nat.eqb (length rn) 2 || Nat.eqb (length rn) 3) then Some CellIndexLenError
  else if negb ((0 <=? i) && (i <? n) && (0 <=? j) && (j <? n)) then Some SCOrbIndexError
  else if forallb (Z.eqb 0) rn && (i =? j) then Some SCHopDiagonalError
  else None.

(** Value most recently given to (r, i, j), directly or through the conjugate
    key; refused calls do not count. *)
Definition same_key (r r' : Z * Z * Z) (i j i' j' : Z) : bool :=
  let '(a, b, c) := r in let '(a', b', c') := r' in
  (a =? a') && (b =? b') && (c =? c') && (i =? i') && (j =? j').
Fixpoint last_added {E} (conj : E -> E) (n : Z) (adds : list (list Z * Z * Z * E))
         (r : Z * Z * Z) (i j : Z) (now : option E) : option E :=
  match adds with
  | [] => now
  | (rn, a, b, e) :: rest =>
    let r0 := (nth 0 rn 0, nth 1 rn 0, nth 2 rn 0) in
    last_added conj n rest r i j
      (match sc_hop_err n rn a b with
       | Some _ => now
       | None => if same_key r0 r a b i j then Some e
                 else if same_key r0 (opp3 r) a b j i then Some (conj e) else now
       end)
  end.

(** [terms] stores the amplitudes [f], each conjugate pair once. *)
Definition stores {E} (conj : E -> E) (n : Z) (terms : list (Z * Z * Z * (Z * Z) * E))
           (f : Z * Z * Z -> Z -> Z -> option E) : Prop :=
  reduced n terms /\
  forall r i j e, f r i j = Some e <->
    In (r, (i, j), e) terms \/ exists e', In (opp3 r, (j, i), e') terms /\ e = conj e'.

(** Number of hopping ends at orbital k. *)
Definition ends {Row} (ri rj : Row -> Z) (rows : list Row) (k : Z) : Z :=
  Z.of_nat (length (filter (fun r => ri r =? k) rows)) + Z.of_nat (length (filter (fun r => rj r =? k) rows)).
