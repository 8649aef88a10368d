(** Model of the supercell: tbplas/builder/super.py (SuperCell,
    SCInterHopping) and tbplas/cython/super.pyx:540-1138. *)
From Verif Require Import Prelude Vec M_hop M_pc M_inter M_index.

(** Loops that fill arrays: map/flat_map whose body may fail (a read outside
    an array, a loop out of fuel). *)
Fixpoint mapM {A B} (f : A -> res B) (l : list A) : res (list B) :=
  match l with
  | [] => Ok []
  | x :: r => bind (f x) (fun y => bind (mapM f r) (fun ys => Ok (y :: ys)))
  end.
Definition flatM {A B} (f : A -> res (list B)) (l : list A) : res (list B) :=
  bind (mapM f l) (fun ls => Ok (concat ls)).

(** Array read; the Cython code does not check bounds, the model does. *)
Definition rd {A} (l : list A) (k : Z) : res A :=
  if k <? 0 then Err IndexError
  else match nth_error l (Z.to_nat k) with Some x => Ok x | None => Err IndexError end.

(** enumerate() *)
Definition enum {A} (l : list A) : list (Z * A) := combine (zrange (length l)) l.

Section Super.
  (** E: energies of hoppings with conjugation; T: coordinates (a ring). *)
  Context {E T : Type} {ST : Scalar T} (conj : E -> E).
  Notation vec := (vec T).
  Notation mat := (mat T).

  (** Hopping term of the primitive cell: hop_ind row and hop_eng entry. *)
  Definition hterm := (rn3 * pair2 * E)%type.

  Record row := { r_i : Z; r_j : Z; r_v : E; r_dr : vec }.

  (** ** super.pyx *)

  (** super.pyx:569-610 build_orb_pos. *)
  Definition build_orb_pos (lat : mat) (frac : list vec) (ids : list id4) : res (list vec) :=
    mapM (fun t : id4 => let '(ia, ib, ic, io) := t in
            bind (rd frac io) (fun f => Ok (vmat (vadd f (vZ (ia, ib, ic))) lat))) ids.

  (** super.pyx:615-638 build_orb_eng. *)
  Definition build_orb_eng {W} (eng : list W) (ids : list id4) : res (list W) :=
    mapM (fun t : id4 => rd eng (snd t)) ids.

  (** super.pyx:758-775: dr of one row. *)
  Definition dr_of (sclat : mat) (pos : list vec) (i j : Z) (n : rn3) : res vec :=
    bind (rd pos j) (fun pj => bind (rd pos i) (fun pi =>
      Ok (vadd (vsub pj pi) (vmat (vZ n) sclat)))).

  (** super.pyx:730-776: body of the loops of build_hop_gen. *)
  Definition hop_gen_one (dim : rn3) (pbc : bool * bool * bool) (n : Z)
             (vac : list Z) (sclat : mat) (pos : list vec)
             (io : Z) (t : id4) (h : hterm) : res (list row) :=
    let '(da, db, dc) := dim in let '(pa, pb, pc) := pbc in
    let '(ia, ib, ic, o) := t in
    let '((ra, rb, rc), (oi, oj), e) := h in
    if o =? oi then
      let ja0 := ia + ra in let jb0 := ib + rb in let jc0 := ic + rc in
      bind (wrap_pbc ja0 da pa) (fun ja =>
      bind (wrap_pbc jb0 db pb) (fun jb =>
      bind (wrap_pbc jc0 dc pc) (fun jc =>
      if (ja =? -1) || (jb =? -1) || (jc =? -1) then Ok []
      else
        bind (match vac with
              | [] => Ok (id_pc2sc dim n (ja, jb, jc, oj))
              | _ => id_pc2sc_vac2 dim n (ja, jb, jc, oj) vac
              end) (fun id_sc_j =>
        if (match vac with [] => true | _ => false end) || negb (id_sc_j =? -1) then
          bind (fast_div ja0 da) (fun na =>
          bind (fast_div jb0 db) (fun nb =>
          bind (fast_div jc0 dc) (fun nc =>
          bind (dr_of sclat pos io id_sc_j (na, nb, nc)) (fun d =>
          Ok [{| r_i := io; r_j := id_sc_j; r_v := e; r_dr := d |}]))))
        else Ok [])))
      )
    else Ok [].

  (** super.pyx:643-781 build_hop_gen. *)
  Definition build_hop_gen (tab : list hterm) (dim : rn3) (pbc : bool * bool * bool)
             (n : Z) (ids : list id4) (vac : list Z) (sclat : mat) (pos : list vec)
    : res (list row) :=
    flatM (fun p : Z * id4 =>
             flatM (hop_gen_one dim pbc n vac sclat pos (fst p) (snd p)) tab) (enum ids).

  (** super.pyx:825-830: status. *)
  Definition is_pbc_term (pbc : bool * bool * bool) (h : hterm) : bool :=
    let '(pa, pb, pc) := pbc in let '((ra, rb, rc), _, _) := h in
    (pa || (ra =? 0)) && (pb || (rb =? 0)) && (pc || (rc =? 0)).

  (** super.pyx:786-855 split_pc_hop. *)
  Definition split_pc_hop (tab : list hterm) (pbc : bool * bool * bool) : list hterm * list hterm :=
    (filter (is_pbc_term pbc) tab, filter (fun h => negb (is_pbc_term pbc h)) tab).

  (** super.pyx:542-564 _zero_rn. *)
  Definition zero_rn (r : rn3) : bool := let '(a, b, c) := r in (a =? 0) && (b =? 0) && (c =? 0).

  (** super.pyx:941-983: body of the loops of build_hop_pbc. *)
  Definition hop_pbc_one (dim : rn3) (pbc : bool * bool * bool) (n : Z)
             (sclat : mat) (pos : list vec) (ia ib ic : Z) (h : hterm) : res row :=
    let '(da, db, dc) := dim in let '(pa, pb, pc) := pbc in
    let '((ra, rb, rc), (oi, oj), e) := h in
    let offset_i := id_pc2sc dim n (ia, ib, ic, 0) in
    bind (if zero_rn (ra, rb, rc) then Ok (offset_i, (0, 0, 0))
          else
            bind (wrap_pbc (ia + ra) da pa) (fun ja =>
            bind (wrap_pbc (ib + rb) db pb) (fun jb =>
            bind (wrap_pbc (ic + rc) dc pc) (fun jc =>
            bind (fast_div (ia + ra) da) (fun na =>
            bind (fast_div (ib + rb) db) (fun nb =>
            bind (fast_div (ic + rc) dc) (fun nc =>
            Ok (id_pc2sc dim n (ja, jb, jc, 0), (na, nb, nc)))))))))
         (fun q : Z * rn3 =>
            let i := offset_i + oi in let j := fst q + oj in
            bind (dr_of sclat pos i j (snd q)) (fun d =>
            Ok {| r_i := i; r_j := j; r_v := e; r_dr := d |})).

  (** super.pyx:860-984 build_hop_pbc. *)
  Definition build_hop_pbc (tab : list hterm) (dim : rn3) (pbc : bool * bool * bool)
             (n : Z) (sclat : mat) (pos : list vec) : res (list row) :=
    let '(da, db, dc) := dim in
    flatM (fun ia => flatM (fun ib => flatM (fun ic =>
      mapM (hop_pbc_one dim pbc n sclat pos ia ib ic) tab) (crange dc)) (crange db)) (crange da).

  (** super.pyx:989-1026 find_equiv_hopping: (id_same, id_conj). *)
  Fixpoint find_equiv (k : Z) (rows : list row) (bra ket : Z) : Z * Z :=
    match rows with
    | [] => (-1, -1)
    | r :: rest =>
      if (r_i r =? bra) && (r_j r =? ket) then (k, -1)
      else if (r_i r =? ket) && (r_j r =? bra) then (-1, k)
      else find_equiv (k + 1) rest bra ket
    end.

  (** super.pyx:1058-1062: hop_count[o]. *)
  Definition ends_at (rows : list row) (o : Z) : Z :=
    fold_left (fun c r => c + (if r_i r =? o then 1 else 0) + (if r_j r =? o then 1 else 0)) rows 0.

  (** super.pyx:1031-1080 get_orb_id_trim. *)
  Definition get_orb_id_trim (ids : list id4) (rows : list row) : list id4 :=
    map snd (filter (fun p : Z * id4 => ends_at rows (fst p) <=? 1) (enum ids)).

  (** super.pyx:1088-1138 build_inter_dr and super.py:983-991. *)
  Definition inter_row (pos_bra pos_ket : list vec) (sclat : mat) (h : hterm) : res row :=
    let '(rn, (i, j), e) := h in
    bind (rd pos_ket j) (fun pj => bind (rd pos_bra i) (fun pi =>
      Ok {| r_i := i; r_j := j; r_v := e;
            r_dr := vadd (vsub pj pi) (vmat (vZ rn) sclat) |})).

  (** ** class SuperCell *)
  Record sc := {
    s_os : oset;                       (* dimension, number of orbitals, vacancies *)
    s_pbc : bool * bool * bool;
    s_tab : list hterm;                (* hop_ind, hop_eng of the primitive cell *)
    s_lat : mat;                       (* lattice vectors of the primitive cell *)
    s_frac : list vec;                 (* fractional positions of its orbitals *)
    s_org : vec;                       (* origin *)
    s_pmod : option (list vec -> list vec);   (* orb_pos_modifier *)
    s_mod : @hops E;                   (* hop_modifier *)
    s_locked : bool }.

  Definition with_os (s : sc) (o : oset) : sc :=
    {| s_os := o; s_pbc := s_pbc s; s_tab := s_tab s; s_lat := s_lat s; s_frac := s_frac s;
       s_org := s_org s; s_pmod := s_pmod s; s_mod := s_mod s; s_locked := s_locked s |}.
  Definition with_mod (s : sc) (m : @hops E) : sc :=
    {| s_os := s_os s; s_pbc := s_pbc s; s_tab := s_tab s; s_lat := s_lat s; s_frac := s_frac s;
       s_org := s_org s; s_pmod := s_pmod s; s_mod := m; s_locked := s_locked s |}.

  (** super.py:857-868 sc_lat_vec (entry-wise: row * dim). *)
  Definition sc_lat (s : sc) : mat :=
    let '(da, db, dc) := o_dim (s_os s) in let '(a, b, c) := s_lat s in
    (vscale (sZ da) a, vscale (sZ db) b, vscale (sZ dc) c).

  (** super.py:672-685 get_orb_pos. *)
  Definition get_orb_pos (s : sc) : res (list vec) :=
    bind (build_orb_pos (s_lat s) (s_frac s) (o_orb_id_pc (s_os s))) (fun l =>
    let l' := map (fun v => vadd v (s_org s)) l in
    Ok (match s_pmod s with None => l' | Some f => f l' end)).

  (** super.py:687-701 _init_hop_gen. *)
  Definition init_hop_gen (s : sc) (pos : list vec) : res (list row) :=
    build_hop_gen (s_tab s) (o_dim (s_os s)) (s_pbc s) (o_n (s_os s))
                  (o_orb_id_pc (s_os s)) (o_vac_id_sc (s_os s)) (sc_lat s) pos.

  (** super.py:703-741 _init_hop_fast. *)
  Definition init_hop_fast (s : sc) (pos : list vec) : res (list row) :=
    let '(tp, tf) := split_pc_hop (s_tab s) (s_pbc s) in
    bind (build_hop_pbc tp (o_dim (s_os s)) (s_pbc s) (o_n (s_os s)) (sc_lat s) pos) (fun rp =>
    bind (build_hop_gen tf (o_dim (s_os s)) (s_pbc s) (o_n (s_os s))
                  (o_orb_id_pc (s_os s)) (o_vac_id_sc (s_os s)) (sc_lat s) pos) (fun rf =>
    Ok (rp ++ rf))).

  Definition init_hop (s : sc) (pos : list vec) : res (list row) :=
    if num_vac (s_os s) =? 0 then init_hop_fast s pos else init_hop_gen s pos.

  Definition set_row (rows : list row) (k : Z) (v : E) (d : vec) : list row :=
    match nth_error rows (Z.to_nat k) with
    | None => rows
    | Some r => set_nth (Z.to_nat k) rows {| r_i := r_i r; r_j := r_j r; r_v := v; r_dr := d |}
    end.

  (** super.py:780-801: the loop over the modifier.  [rows] are hop_i, hop_j,
      hop_v, dr; [new] are hop_*_new, dr_new. *)
  Fixpoint apply_modifier (sclat : mat) (pos : list vec) (terms : list hterm)
           (rows new : list row) : res (list row * list row) :=
    match terms with
    | [] => Ok (rows, new)
    | ((rn, (bra, ket)), e) :: rest =>
      bind (rd pos ket) (fun pk => bind (rd pos bra) (fun pb =>
      let d := vsub (vadd pk (vmat (vZ rn) sclat)) pb in
      let '(id_same, id_conj) := find_equiv 0 rows bra ket in
      if negb (id_same =? -1) then
        apply_modifier sclat pos rest (set_row rows id_same e d) new
      else if negb (id_conj =? -1) then
        apply_modifier sclat pos rest (set_row rows id_conj (conj e) (vopp d)) new
      else apply_modifier sclat pos rest rows
             (new ++ [{| r_i := bra; r_j := ket; r_v := e; r_dr := d |}])))
    end.

  (** Element type of the arrays hop_i and hop_j: numpy.append of an int64
      array and an empty Python list gives float64. *)
  Inductive dtype := Int64 | Float64.

  (** super.py:743-809 get_hop. *)
  Definition get_hop (s : sc) : res (list row * dtype) :=
    bind (get_orb_pos s) (fun pos =>
    bind (init_hop s pos) (fun rows =>
    if (num_hop (s_mod s) =? 0)%nat then Ok (rows, Int64)
    else
      bind (apply_modifier (sc_lat s) pos (flatten (purge (s_mod s))) rows []) (fun q =>
      Ok (fst q ++ snd q, match snd q with [] => Float64 | _ => Int64 end)))).

  (** super.py:519-552 add_hopping. *)
  Definition sc_add_hopping (s : sc) (rn : list Z) (i j : Z) (e : E) : sc * res unit :=
    if s_locked s then (s, Err LockError) else
    match check_rn rn with
    | None => (s, Err CellIndexLenError)
    | Some r =>
      if negb ((0 <=? i) && (i <? num_orb_sc (s_os s))) then (s, Err SCOrbIndexError)
      else if negb ((0 <=? j) && (j <? num_orb_sc (s_os s))) then (s, Err SCOrbIndexError)
      else if rn_eqb r (0, 0, 0) && (i =? j) then (s, Err SCHopDiagonalError)
      else (with_mod s (ih_add conj (s_mod s) r i j e), Ok tt)
    end.

  (** super.py:249-282 add_vacancies and set_vacancies of an unlocked/locked
      supercell. *)
  Definition sc_add_vacancies (s : sc) (vs : list (list Z)) : sc * res unit :=
    if s_locked s then (s, Err LockError) else
    let '(o, r) := add_vacancies (s_os s) vs in (with_os s o, r).
  Definition sc_set_vacancies (s : sc) (vs : option (list (list Z))) : sc * res unit :=
    if s_locked s then (s, Err LockError) else
    let '(o, r) := set_vacancies (s_os s) vs in (with_os s o, r).

  (** super.py:565-583 trim.  A float64 array is refused by the typed
      memoryview of get_orb_id_trim with ValueError. *)
  Definition sc_trim (s : sc) : sc * res unit :=
    if s_locked s then (s, Err LockError) else
    match get_hop s with
    | Err x => (s, Err x)
    | Ok (_, Float64) => (s, Err ValueError)
    | Ok (rows, Int64) =>
      let id_pc := get_orb_id_trim (o_orb_id_pc (s_os s)) rows in
      match orb_id_pc2sc_array (s_os s) id_pc with
      | Err x => (s, Err x)
      | Ok id_sc =>
        match add_vacancies (s_os s) (map (fun t : id4 => let '(a, b, c, o) := t in [a; b; c; o]) id_pc) with
        | (o, Err x) => (with_os s o, Err x)
        | (o, Ok _) => (with_mod (with_os s o) (ih_remove_orbitals (s_mod s) id_sc), Ok tt)
        end
      end
    end.

  (** ** Construction: super.py:99-157 (OrbitalSet) and 485-510.  The
      primitive cell is locked first and stays locked when a check fails. *)
  (** super.py:134-136: max(|min|, |max|), i.e. the largest absolute value. *)
  Definition max_abs (f : hterm -> Z) (tab : list hterm) : Z :=
    fold_right (fun h m => Z.max (Z.abs (f h)) m) 0 tab.
  Definition rn_a (h : hterm) : Z := let '((a, _, _), _, _) := h in a.
  Definition rn_b (h : hterm) : Z := let '((_, b, _), _, _) := h in b.
  Definition rn_c (h : hterm) : Z := let '((_, _, c), _, _) := h in c.

  (** base.py:26-45 check_rn with complete_item = 1. *)
  Definition check_dim (dim : list Z) : option rn3 :=
    match dim with
    | [a; b; c] => Some (a, b, c)
    | [a; b] => Some (a, b, 1)
    | _ => None
    end.
  (** base.py:62-73 check_pbc with complete_item = False. *)
  Definition check_pbc (pbc : list bool) : option (bool * bool * bool) :=
    match pbc with
    | [a; b; c] => Some (a, b, c)
    | [a; b] => Some (a, b, false)
    | _ => None
    end.

  Definition pc_table {X W L} (p : pc E X W L) : list hterm := flatten (purge (hop p)).

  Definition make_sc {X W L} (frac_of : X * X * X -> vec) (p : pc E X W L) (lat : mat) (org : vec)
             (dim : list Z) (pbc : list bool) (vacs : option (list (list Z)))
             (pmod : option (list vec -> list vec)) : pc E X W L * res sc :=
    let p' := {| locked := true; orbs := orbs p; hop := purge (hop p) |} in
    if num_orb p =? 0 then (p', Err PCOrbEmptyError)
    else if (num_hop (hop p) =? 0)%nat then (p', Err PCHopEmptyError)
    else
      let tab := pc_table p in
      match check_dim dim with
      | None => (p', Err SCDimLenError)
      | Some (da, db, dc) =>
        if da <? 2 * max_abs rn_a tab + 1 then (p', Err SCDimSizeError)
        else if db <? 2 * max_abs rn_b tab + 1 then (p', Err SCDimSizeError)
        else if dc <? 2 * max_abs rn_c tab + 1 then (p', Err SCDimSizeError)
        else
          match check_pbc pbc with
          | None => (p', Err PBCLenError)
          | Some pb =>
            let o := {| o_dim := (da, db, dc); o_n := num_orb p; o_vacs := [] |} in
            let mk o := {| s_os := o; s_pbc := pb; s_tab := tab; s_lat := lat;
                 s_frac := map (fun q => frac_of (position q)) (orbs p);
                 s_org := org; s_pmod := pmod; s_mod := []; s_locked := false |} in
            match vacs with
            | None => (p', Ok (mk o))
            | Some vs => match add_vacancies o vs with
                         | (_, Err x) => (p', Err x)
                         | (o', Ok _) => (p', Ok (mk o'))
                         end
            end
          end
      end.

  (** The mutators of a supercell; [SLock]/[SUnlock] stand for lock()/unlock()
      (base.py:123-142). *)
  Inductive scop :=
  | SAddVac (vs : list (list Z))
  | SSetVac (vs : option (list (list Z)))
  | SAddHop (rn : list Z) (i j : Z) (e : E)
  | STrim | SLock | SUnlock.

  Definition set_sc_locked (s : sc) (b : bool) : sc :=
    {| s_os := s_os s; s_pbc := s_pbc s; s_tab := s_tab s; s_lat := s_lat s; s_frac := s_frac s;
       s_org := s_org s; s_pmod := s_pmod s; s_mod := s_mod s; s_locked := b |}.
  Definition sc_step (s : sc) (o : scop) : sc * res unit :=
    match o with
    | SAddVac vs => sc_add_vacancies s vs
    | SSetVac vs => sc_set_vacancies s vs
    | SAddHop rn i j e => sc_add_hopping s rn i j e
    | STrim => sc_trim s
    | SLock => (set_sc_locked s true, Ok tt)
    | SUnlock => (set_sc_locked s false, Ok tt)
    end.
  Definition sc_run (s : sc) (os : list scop) : sc := fold_left (fun s o => fst (sc_step s o)) os s.

  (** ** class SCInterHopping: super.py:955-1005 get_hop. *)
  Definition count_pair (terms : list hterm) (p : pair2) : nat :=
    length (filter (fun h : hterm => pair_eqb (snd (fst h)) p) terms).
  Definition inter_get_hop (sb sk : sc) (x : inter E) (check_dup : bool) : res (list row) :=
    if (num_hop (i_hops x) =? 0)%nat then Err InterHopVoidError else
    bind (get_orb_pos sb) (fun pb => bind (get_orb_pos sk) (fun pk =>
    bind (mapM (inter_row pb pk (sc_lat sk)) (iterms x)) (fun rows =>
    if check_dup && existsb (fun h : hterm => (1 <? count_pair (iterms x) (snd (fst h)))%nat) (iterms x)
    then Err ValueError else Ok rows))).
End Super.
Arguments row : clear implicits.
Arguments sc : clear implicits.
Arguments hterm : clear implicits.
Arguments scop : clear implicits.
