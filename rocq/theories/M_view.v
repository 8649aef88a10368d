(** Model of the pictures of models: builder/visual.py, PrimitiveCell.plot
    (builder/primitive.py:607-728), SuperCell.plot (builder/super.py:585-660) and
    SCInterHopping.plot (1007-1056).  A picture is the list of the calls made to
    the matplotlib axes, in order, without colours, widths and styles. *)
From Coq Require Import Ascii String.
From Verif Require Import Prelude Vec M_hop M_pc M_sync M_bloch M_inter M_super.
Local Open Scope Z_scope.

Section View.
  Context {T : Type} {ST : Scalar T}.
  Definition pt := (T * T)%type.

  (** axes.scatter, axes.arrow (start and extent) and axes.add_collection of a
      LineCollection of hopping terms or of cell borders *)
  Inductive cmd :=
    | Scatter (l : list pt)
    | Arrow (p d : pt)
    | Lines (l : list (pt * pt))
    | Grid (l : list (pt * pt)).

  (** visual.py:49-55: columns of the view and the one left over *)
  Definition letter (c : ascii) : Z :=
    if Ascii.eqb c "a"%char then 0 else if Ascii.eqb c "b"%char then 1 else 2.
  Definition view_dims (view : string) : res (Z * Z * Z) :=
    if existsb (String.eqb view) ["ab"; "bc"; "ca"; "ba"; "cb"; "ac"]%string then
      match view with
      | String c0 (String c1 _) =>
        let x := letter c0 in let y := letter c1 in
        match filter (fun d => negb ((d =? x) || (d =? y))) [0; 1; 2] with
        | z :: _ => Ok (x, y, z)
        | [] => Err IndexError
        end
      | _ => Err IndexError
      end
    else Err ValueError.

  Definition comp (d : Z) (v : vec T) : T := let '(x, y, z) := v in if d =? 0 then x else if d =? 1 then y else z.
  (** visual.py:59-72 _proj_coord *)
  Definition proj (w : Z * Z * Z) (v : vec T) : pt := let '(dx, dy, _) := w in (comp dx v, comp dy v).
  (** visual.py:74-88 _restore_coord *)
  Definition restore (w : Z * Z * Z) (a b : Z) : Z * Z * Z :=
    let '(_, _, dz) := w in if dz =? 0 then (0, a, b) else if dz =? 1 then (a, 0, b) else (a, b, 0).

  Definition psub (p q : pt) : pt := (ssub (fst p) (fst q), ssub (snd p) (snd q)).
  (** visual.py:103-118 plot_arrow *)
  Definition arrow (w : Z * Z * Z) (ci cj : vec T) : cmd := Arrow (proj w ci) (psub (proj w cj) (proj w ci)).

  (** Python's range *)
  Definition pyrange (a b : Z) : list Z := map (fun i => a + i) (zrange (Z.to_nat (b - a))).

  (** visual.py:143-164 add_grid *)
  Definition corner (w : Z * Z * Z) (lat : mat T) (org : vec T) (a b : Z) : pt :=
    proj w (vadd (vmat (vZ (restore w a b)) lat) org).
  Definition add_grid (w : Z * Z * Z) (lat : mat T) (org : vec T) (a_min a_max b_min b_max : Z) : list (pt * pt) :=
    map (fun ia => (corner w lat org ia b_min, corner w lat org ia b_max)) (pyrange a_min (a_max + 1)) ++
    map (fun ib => (corner w lat org a_min ib, corner w lat org a_max ib)) (pyrange b_min (b_max + 1)).
  (** visual.py:175-187 plot_lat_vec *)
  Definition plot_lat_vec (w : Z * Z * Z) (lat : mat T) (org : vec T) : list cmd :=
    map (fun q : Z * Z => Arrow (proj w org) (psub (corner w lat org (fst q) (snd q)) (proj w org))) [(0, 1); (1, 0)].

  (** primitive.py:670-693, super.py:626-646, 1034-1053: the loop over the
      hopping terms (bra, ket, value, displacement); [big] tells whether the
      modulus of a value reaches hop_eng_cutoff; orbitals of kets are looked up
      in [posk] *)
  Context {E : Type} (big : E -> bool).
  Definition hop_ends (pos posk : list (vec T)) (conj : bool) (t : Z * Z * E * vec T) : res (list (vec T * vec T)) :=
    let '(i, j, e, dr) := t in
    if big e then
      bind (aread pos i) (fun pi =>
      if conj then bind (aread posk j) (fun pj => Ok [(pi, vadd pi dr); (pj, vsub pj dr)])
      else Ok [(pi, vadd pi dr)])
    else Ok [].
  Definition plot_hops (w : Z * Z * Z) (pos posk : list (vec T)) (conj arrows : bool) (terms : list (Z * Z * E * vec T)) : res (list cmd) :=
    bind (mapM (hop_ends pos posk conj) terms) (fun ends =>
    if arrows then Ok (map (fun q => arrow w (fst q) (snd q)) (concat ends))
    else Ok [Lines (map (fun q => (proj w (fst q), proj w (snd q))) (concat ends))]).

  (** ** Primitive cells *)
  Record options := { o_orbitals : bool; o_cells : bool; o_conj : bool; o_arrows : bool }.

  Section Cell.
    Context {W L : Type} (lat : mat T) (org : vec T) (s : cached E T W L).

    (** primitive.py:1057-1066 orb_pos_nm *)
    Definition cell_pos : list (vec T) := map (fun q => vadd (vmat (fst q) lat) org) (c_orb s).

    (** 645-662 rn_range; [col] is a column of hop_ind *)
    Definition col_range (conj : bool) (col : list Z) : Z * Z :=
      match col with
      | [] => (0, 0)
      | r :: l =>
        let mn := fold_left Z.min l r in let mx := fold_left Z.max l r in
        if conj then (Z.min (Z.min (Z.min mn mx) (- mn)) (- mx), Z.max (Z.max (Z.max mn mx) (- mn)) (- mx)) else (mn, mx)
      end.
    Definition rn_range (conj : bool) (d : Z) : Z * Z :=
      col_range conj (map (fun t : rn3 * pair2 * E => let '((a, b, c), _, _) := t in if d =? 0 then a else if d =? 1 then b else c) (c_hop s)).

    (** 1080-1100 dr and dr_nm *)
    Definition cell_dr (t : rn3 * pair2 * E) : res (vec T) :=
      let '(rn, (i, j), _) := t in
      bind (aread (map fst (c_orb s)) j) (fun pj => bind (aread (map fst (c_orb s)) i) (fun pi =>
      Ok (vmat (vsub (vadd pj (vZ rn)) pi) lat))).
    Definition cell_terms : res (list (Z * Z * E * vec T)) :=
      mapM (fun t : rn3 * pair2 * E => bind (cell_dr t) (fun d => let '(_, (i, j), e) := t in Ok (i, j, e, d))) (c_hop s).

    Definition cells_shown (conj : bool) : list (Z * Z * Z) :=
      let '(a0, a1) := rn_range conj 0 in let '(b0, b1) := rn_range conj 1 in let '(c0, c1) := rn_range conj 2 in
      flat_map (fun a => flat_map (fun b => map (fun c => (a, b, c)) (pyrange c0 (c1 + 1))) (pyrange b0 (b1 + 1))) (pyrange a0 (a1 + 1)).

    (** 694-703 cells; the borders run over the two axes of the view in
        alphabetical order *)
    Definition grid_axes (w : Z * Z * Z) : Z * Z :=
      let '(_, _, dz) := w in if dz =? 2 then (0, 1) else if dz =? 0 then (1, 2) else (0, 2).

    (** 607-728 plot of a synchronised cell *)
    Definition plot_cell (view : string) (o : options) : res (list cmd) :=
      bind (view_dims view) (fun w =>
      let pos := cell_pos in
      let dots :=
        if negb (num_orb (c_pc s) =? 0) && o_orbitals o then
          map (fun R => Scatter (map (fun p => proj w (vadd p (vmat (vZ R) lat))) pos)) (cells_shown (o_conj o))
        else [] in
      bind (if (num_hop (hop (c_pc s)) =? 0)%nat then Ok []
            else bind cell_terms (plot_hops w pos pos (o_conj o) (o_arrows o))) (fun hops =>
      let grid :=
        if o_cells o then
          let '(x, y) := grid_axes w in
          let '(x0, x1) := rn_range (o_conj o) x in let '(y0, y1) := rn_range (o_conj o) y in
          Grid (add_grid w lat org x0 (x1 + 1) y0 (y1 + 1)) :: plot_lat_vec w lat org
        else [] in
      Ok (dots ++ hops ++ grid))).
  End Cell.

  (** ** Supercells and hoppings between them *)
  Definition row_term (r : row E T) : Z * Z * E * vec T := (r_i r, r_j r, r_v r, r_dr r).
  (** super.py:632-633, 1040-1041: an array of floats cannot be an index *)
  Definition plot_rows (w : Z * Z * Z) (pos posk : list (vec T)) (conj arrows : bool) (rows : list (row E T)) (dt : dtype) : res (list cmd) :=
    match dt with
    | Float64 => if existsb (fun r => big (r_v r)) rows then Err IndexError else plot_hops w pos posk conj arrows (map row_term rows)
    | Int64 => plot_hops w pos posk conj arrows (map row_term rows)
    end.
  (** super.py:585-660 *)
  Definition plot_super (cj : E -> E) (s : sc E T) (view : string) (o : options) : res (list cmd) :=
    bind (view_dims view) (fun w =>
    bind (get_orb_pos s) (fun pos =>
    bind (get_hop cj s) (fun q =>
    bind (plot_rows w pos pos (o_conj o) (o_arrows o) (fst q) (snd q)) (fun hops =>
    let dots := if o_orbitals o then [Scatter (map (proj w) pos)] else [] in
    let dim d := let '(a, b, c) := M_index.o_dim (s_os s) in if d =? 0 then a else if d =? 1 then b else c in
    let grid :=
      if o_cells o then
        let '(x, y) := grid_axes w in
        Grid (add_grid w (s_lat s) (s_org s) 0 (dim x) 0 (dim y)) :: plot_lat_vec w (s_lat s) (s_org s)
      else [] in
    Ok (dots ++ hops ++ grid))))).
  (** super.py:1007-1056 *)
  Definition plot_inter (sb sk : sc E T) (x : inter E) (view : string) (conj arrows : bool) : res (list cmd) :=
    bind (view_dims view) (fun w =>
    bind (get_orb_pos sb) (fun pb =>
    bind (if conj then get_orb_pos sk else Ok []) (fun pk =>
    bind (inter_get_hop sb sk x false) (fun rows => plot_hops w pb pk conj arrows (map row_term rows))))).
End View.
Arguments cmd : clear implicits.
Arguments pt : clear implicits.
