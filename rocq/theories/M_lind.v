(** Model of Lindhard, diagonal/lindhard.py:151-664, with its kernels in
    cython/lindhard.pyx and fortran/lindhard.f90 (the same loops on transposed
    arrays).  Numbers are exact; all processes run in lockstep as in M_par. *)
From Verif Require Import Prelude Vec Cx M_super M_sample M_hop M_pc M_sync M_build M_bloch M_par M_lat L_gersh.
From Coq Require Import Reals.
Local Open Scope R_scope.

(** Division of complex numbers. *)
Definition Cdiv (a b : Cplx) : Cplx :=
  let d := fst b * fst b + snd b * snd b in Cmul a (fst b / d, - snd b / d).
Definition Ci : Cplx := (0, 1).

(** ** k-meshes *)
Notation Z3 := (Z * Z * Z)%type.
(** lindhard.pyx:20-48 build_kmesh_grid.  numpy.zeros refuses a negative
    number of rows; rows that are not written stay zero. *)
Definition build_kmesh_grid (n : Z3) : res (list Z3) :=
  let '(na, nb, nc) := n in
  let num := (na * nb * nc)%Z in
  if (num <? 0)%Z then Err ValueError else
  let rows := flat_map (fun ka => flat_map (fun kb => map (fun kc => (ka, kb, kc)) (zrange (Z.to_nat nc)))
                                           (zrange (Z.to_nat nb))) (zrange (Z.to_nat na)) in
  Ok (rows ++ repeat (0, 0, 0)%Z (Z.to_nat num - length rows)).
(** lindhard.pyx:53-82 build_kq_map.  Cython % has the sign of the divisor, as
    in Python; the sizes are not zero when the grid is not empty. *)
Definition build_kq_map (n : Z3) (grid : list Z3) (q : Z3) : list Z :=
  let '(na, nb, nc) := n in let '(qa, qb, qc) := q in
  map (fun g => let '(ga, gb, gc) := g in
         let ka := ((qa + ga) mod na)%Z in let kb := ((qb + gb) mod nb)%Z in let kc := ((qc + gc) mod nc)%Z in
         (ka * nb * nc + kb * nc + kc)%Z) grid.

(** lindhard.py:198-219 wrap_frac; the while loops have [fuel]. *)
Fixpoint while_lt0 (fuel : nat) (k : R) : res R :=
  if Rleb 0 k then Ok k else match fuel with O => Err OutOfFuel | S f => while_lt0 f (k + 1) end.
Fixpoint while_ge1 (fuel : nat) (k : R) : res R :=
  if negb (Rleb 1 k) then Ok k else match fuel with O => Err OutOfFuel | S f => while_ge1 f (k - 1) end.
Definition wrap1 (fuel : nat) (k : R) : res R := bind (while_lt0 fuel k) (while_ge1 fuel).
Definition wrap_frac (fuel : nat) (ks : list V) : res (list V) :=
  mapM (fun k : V => let '(x, y, z) := k in
    bind (wrap1 fuel x) (fun x => bind (wrap1 fuel y) (fun y => bind (wrap1 fuel z) (fun z => Ok (x, y, z))))) ks.
(** lindhard.py:221-237 wrap_grid; k % 0 raises. *)
Definition pymod (a b : Z) : res Z := if (b =? 0)%Z then Err ZeroDivisionError else Ok (a mod b)%Z.
Definition wrap_grid (n : Z3) (ks : list Z3) : res (list Z3) :=
  let '(na, nb, nc) := n in
  mapM (fun k : Z3 => let '(x, y, z) := k in
    bind (pymod x na) (fun x => bind (pymod y nb) (fun y => bind (pymod z nc) (fun z => Ok (x, y, z))))) ks.

(** ** Kernels *)
(** f = 1.0 / (1.0 + exp(beta * (eng - mu))) *)
Definition occ (beta mu e : R) : R := 1 / (1 + exp (beta * (e - mu))).
Definition set3 {X} (a : arr (Z * (Z * Z)) X) (i j l : Z) (v : X) : arr (Z * (Z * Z)) X :=
  fun x => if ((fst x =? i) && (fst (snd x) =? j) && (snd (snd x) =? l))%Z then v else a x.
(** A pair of the working arrays delta_eng and prod_df. *)
Notation work := (arr (Z * (Z * Z)) R * arr (Z * (Z * Z)) Cplx)%type.
Notation bands_t := (arr (Z * Z) R).
Notation states_t := (arr (Z * (Z * Z)) Cplx).
(** lindhard.pyx:134-138, 208-212: phase. *)
Definition phases (q : V) (pos : list V) : Z -> Cplx :=
  fun ib => nth (Z.to_nat ib) (map (fun p => let x := np_dot q p in (cos x, sin x)) pos) (0, 0).
(** lindhard.pyx:143-154, 216-228: the loops over jj and ll for one ik; eq and
    sq are the energies and states at k+q. *)
Definition dp_rows (no : nat) (beta mu : R) (phase : Z -> Cplx) (ik : Z) (ek : Z -> R) (sk : Z -> Z -> Cplx)
    (eq : Z -> R) (sq : Z -> Z -> Cplx) (w : work) : work :=
  fold_left (fun w jj =>
    let eng := ek jj in
    let f := occ beta mu eng in
    fold_left (fun w ll =>
      let eng_q := eq ll in
      let f_q := occ beta mu eng_q in
      let prod := fold_left (fun p ib => Cadd p (Cmul (Cmul (Cconj (sq ll ib)) (sk jj ib)) (phase ib))) (zrange no) (0, 0) in
      (set3 (fst w) ik jj ll (eng - eng_q), set3 (snd w) ik jj ll (Cmul (Cmul prod (Cconj prod)) (Cre (f - f_q)))))
      (zrange no) w) (zrange no) w.
(** lindhard.pyx:87-154 prod_dp, lindhard.f90:7-57; [ks] is the range k_min ..
    k_max. *)
Definition prod_dp (no : nat) (bands : bands_t) (states : states_t) (kq : list Z) (beta mu : R) (q : V) (pos : list V)
    (ks : list Z) (w : work) : res work :=
  loop (fun w ik => bind (rd kq ik) (fun ikqp =>
    Ok (dp_rows no beta mu (phases q pos) ik (fun j => bands (ik, j)) (fun j b => states (ik, (j, b)))
          (fun l => bands (ikqp, l)) (fun l b => states (ikqp, (l, b))) w))) ks w.
(** lindhard.pyx:159-228 prod_dp_arb, lindhard.f90:61-111. *)
Definition prod_dp_arb (no : nat) (bands : bands_t) (states : states_t) (bands_kq : bands_t) (states_kq : states_t)
    (beta mu : R) (q : V) (pos : list V) (ks : list Z) (w : work) : work :=
  fold_left (fun w ik => dp_rows no beta mu (phases q pos) ik (fun j => bands (ik, j)) (fun j b => states (ik, (j, b)))
          (fun l => bands_kq (ik, l)) (fun l b => states_kq (ik, (l, b))) w) ks w.
(** lindhard.pyx:268-281, 411-424: one sum; [den] is the denominator. *)
Definition ksum (no : nat) (w : work) (den : R -> Cplx) (ks : list Z) : Cplx :=
  fold_left (fun s ik => fold_left (fun s jj => fold_left (fun s ll =>
    Cadd s (Cdiv (snd w (ik, (jj, ll))) (den (fst w (ik, (jj, ll)))))) (zrange no) s) (zrange no) s) ks (0, 0).
(** lindhard.pyx:233-281 dyn_pol, lindhard.f90:115-156. *)
Definition dyn_pol_kernel (no : nat) (w : work) (omegas : list R) (delta : R) (ks : list Z) (iq : Z)
    (dp : arr (Z * Z) Cplx) : arr (Z * Z) Cplx :=
  fold_left (fun dp (x : Z * R) =>
    let s := ksum no w (fun e => Cadd (Cre (e + snd x)) (Cmul Ci (Cre delta))) ks in
    fun i => if ((fst i =? iq) && (snd i =? fst x))%Z then s else dp i) (enum omegas) dp.

(** lindhard.pyx:336-353: the velocity matrix of one k-point; a hopping is its
    two orbitals, its energy and its displacement. *)
Notation hopping := (Z * Z * Cplx * V)%type.
Definition comp_of (c : Z) (v : V) : R := let '(x, y, z) := v in if (c =? 0)%Z then x else if (c =? 1)%Z then y else z.
Definition vel_step (k : V) (c : Z) (m : Z -> Z -> Cplx) (h : hopping) : Z -> Z -> Cplx :=
  let '(i, j, e, dr) := h in
  let x := np_dot k dr in
  let phase := Cmul (cos x, sin x) e in
  let m1 := mset m i j (Cadd (m i j) (Cmul (Cmul Ci phase) (Cre (comp_of c dr)))) in
  mset m1 j i (Csub (m1 j i) (Cmul (Cmul Ci (Cconj phase)) (Cre (comp_of c dr)))).
Definition vel_mat (hops : list hopping) (k : V) (c : Z) : Z -> Z -> Cplx := fold_left (vel_step k c) hops (fun _ _ => (0, 0)).
(** lindhard.pyx:355-372: the loops over mm and nn for one ik. *)
Definition ac_rows (no : nat) (beta mu : R) (v1 v2 : Z -> Z -> Cplx) (ik : Z) (ek : Z -> R) (sk : Z -> Z -> Cplx) (w : work) : work :=
  fold_left (fun w mm =>
    let eng_m := ek mm in
    let f_m := occ beta mu eng_m in
    fold_left (fun w nn =>
      let eng_n := ek nn in
      let f_n := occ beta mu eng_n in
      let '(prod1, prod2) := fold_left (fun p ib1 => fold_left (fun p ib2 =>
        (Cadd (fst p) (Cmul (Cmul (Cconj (sk nn ib1)) (v1 ib1 ib2)) (sk mm ib2)),
         Cadd (snd p) (Cmul (Cmul (Cconj (sk mm ib1)) (v2 ib1 ib2)) (sk nn ib2)))) (zrange no) p) (zrange no) ((0, 0), (0, 0)) in
      (set3 (fst w) ik mm nn (eng_m - eng_n),
       if Rleb (/ 10 ^ 7) (Rabs (eng_m - eng_n))
       then set3 (snd w) ik mm nn (Cdiv (Cmul (Cmul prod1 prod2) (Cre (f_m - f_n))) (Cre (eng_m - eng_n)))
       else snd w)) (zrange no) w) (zrange no) w.
(** lindhard.pyx:286-375 prod_ac, lindhard.f90:160-243. *)
Definition prod_ac (no : nat) (bands : bands_t) (states : states_t) (hops : list hopping) (kmesh : list V)
    (beta mu : R) (c1 c2 : Z) (ks : list Z) (w : work) : res work :=
  loop (fun w ik => bind (rd kmesh ik) (fun k =>
    Ok (ac_rows no beta mu (vel_mat hops k c1) (vel_mat hops k c2) ik (fun j => bands (ik, j)) (fun j b => states (ik, (j, b))) w))) ks w.
(** lindhard.pyx:380-424 ac_cond, lindhard.f90:247-282. *)
Definition ac_cond_kernel (no : nat) (w : work) (omegas : list R) (delta : R) (ks : list Z) (ac : arr Z Cplx) : arr Z Cplx :=
  fold_left (fun ac (x : Z * R) =>
    let s := ksum no w (fun e => Csub (Cre (e - snd x)) (Cmul Ci (Cre delta))) ks in
    fun i => if (i =? fst x)%Z then s else ac i) (enum omegas) ac.

(** ** The class *)
Section Lindhard.
  Context {L : Type}.
  Notation cell := (gcell Cplx R R L).
  Record lind := mkLind { l_cell : cell; l_omegas : list R; l_size : Z3; l_grid : list Z3; l_mu : R; l_beta : R;
                          l_gs : Z; l_eps : R; l_dim : Z; l_delta : R }.
  (** constants.py:7-13 KB and EPSILON0. *)
  Context (kb eps0 : R).
  (** lindhard.py:151-196 __init__ (DiagSolver.__init__ stores the model). *)
  Definition new_lind (c : cell) (size : list Z) (e_min e_max : R) (step : Z) (mu temp : R) (gs : Z) (eps : R) (dim : Z) (delta : R) : res lind :=
    bind (linspace Rinv e_min e_max (step + 1)%Z) (fun om =>
    match size with
    | [na; nb; nc] =>
        bind (build_kmesh_grid (na, nb, nc)) (fun grid =>
        if Reqb (kb * temp) 0 then Err ZeroDivisionError
        else if negb ((dim =? 2) || (dim =? 3))%Z then Err ValueError
        else if ((dim =? 2) && negb (nc =? 1))%Z then Err ValueError
        else Ok (mkLind c om (na, nb, nc) grid mu (1 / (kb * temp)) gs eps dim delta))
    | _ => Err ValueError
    end).

  (** lindhard.py:239-309 in NM; 277-291 divides by the mesh size. *)
  Definition lind_frac2cart (l : lind) (ks : list V) : res (list V) :=
    bind (gen_reciprocal_vectors (g_lat (l_cell l))) (fun g => frac2cart g (Array ks) (0, 0, 0)).
  Definition lind_cart2frac (l : lind) (ks : list V) : res (list V) :=
    bind (gen_reciprocal_vectors (g_lat (l_cell l))) (fun g => cart2frac g ks (0, 0, 0)).
  Definition grid2frac (l : lind) (ks : list Z3) : list V :=
    let '(na, nb, nc) := l_size l in
    map (fun k : Z3 => let '(x, y, z) := k in (IZR x / IZR na, IZR y / IZR nb, IZR z / IZR nc)) ks.
  Definition grid2cart (l : lind) (ks : list Z3) : res (list V) := lind_frac2cart l (grid2frac l ks).

  (** lindhard.py:311-335. *)
  Definition get_dnk (l : lind) : res R :=
    bind (gen_reciprocal_vectors (g_lat (l_cell l))) (fun g =>
    let '(b0, b1, b2) := g in let '(na, nb, nc) := l_size l in
    let g0 := vscale (/ IZR na) b0 in let g1 := vscale (/ IZR nb) b1 in let g2 := vscale (/ IZR nc) b2 in
    if (l_dim l =? 2)%Z then Ok (np_norm (np_cross g0 g1)) else Ok (get_lattice_volume (g0, g1, g2))).
  Definition dyn_pol_factor (l : lind) : res R :=
    bind (get_dnk l) (fun dnk => Ok (IZR (l_gs l) * dnk / (2 * PI) ^ Z.to_nat (l_dim l))).

  Definition n_orb (c : cell) : nat := length (orbs (g_pc c)).
  (** primitive.py:1080-1103 dr_nm with hop_ind[:, 3:5] and hop_eng; the arrays
      follow the current hoppings (547-575). *)
  Definition cell_hops (c : cell) : res (list hopping) :=
    mapM (fun t : rn3 * pair2 * Cplx =>
      let '(rn, (i, j), e) := t in
      bind (rd (orbs (g_pc c)) j) (fun oj => bind (rd (orbs (g_pc c)) i) (fun oi =>
        Ok (i, j, e, Vec.vmat (vsub (vadd (position oj) (vZ rn)) (position oi)) (g_lat c))))) (flatten (hop (g_pc c))).

  (** The eigensolver for a convention and a k-point. *)
  Context (solve : Z -> V -> res (list R * list (list Cplx))).
  Context (mpi : bool) (size : Z).
  Definition states_at (l : lind) (conv : Z) (ks : list V) (red : bool) : res (list (bands_t * states_t)) :=
    let n := Z.of_nat (n_orb (l_cell l)) in calc_states (solve conv) mpi size ks n n red.
  (** k_min .. k_max on each rank. *)
  Definition k_ranges (nk : Z) : res (list (list Z)) :=
    mapM (fun r => bind (dist_bound size r nk) (fun b => Ok (span (fst b, snd b + 1)%Z))) (ranks size).

  (** lindhard.py:384-411: the body of the loop over q-points.  The working
      arrays are zero at this point. *)
  Definition reduce_work (ws : list work) : list work := combine (all_reduce mpi (map fst ws)) (all_reduce mpi (map snd ws)).
  Definition finish (l : lind) (kss : list (list Z)) (ws : list work) (iq : Z) (dps : list (arr (Z * Z) Cplx)) : list (arr (Z * Z) Cplx) :=
    all_reduce mpi (map (fun x : list Z * (work * arr (Z * Z) Cplx) =>
      dyn_pol_kernel (n_orb (l_cell l)) (fst (snd x)) (l_omegas l) (l_delta l) (fst x) iq (snd (snd x))) (combine kss (combine ws dps))).
  Definition q_regular (l : lind) (sts : list (bands_t * states_t)) (kss : list (list Z))
      (dps : list (arr (Z * Z) Cplx)) (x : Z * (Z3 * V)) : res (list (arr (Z * Z) Cplx)) :=
    let kq := build_kq_map (l_size l) (l_grid l) (fst (snd x)) in
    bind (mapM (fun y : (bands_t * states_t) * list Z =>
            prod_dp (n_orb (l_cell l)) (fst (fst y)) (snd (fst y)) kq (l_beta l) (l_mu l) (snd (snd x)) (orb_pos_nm (l_cell l)) (snd y) (zeros, zeros))
          (combine sts kss)) (fun ws =>
    Ok (finish l kss (reduce_work ws) (fst x) dps)).
  (** lindhard.py:413-415. *)
  Definition scale_dp (l : lind) (dps : list (arr (Z * Z) Cplx)) : res (list (arr (Z * Z) Cplx)) :=
    bind (dyn_pol_factor l) (fun f =>
    Ok (map (fun (dp : arr (Z * Z) Cplx) => fun i => Cdiv (Cmul (dp i) (Cre f)) (Cre (g_ext (l_cell l)))) dps)).
  (** lindhard.py:337-421 calc_dyn_pol_regular: dyn_pol on each rank. *)
  Definition calc_dyn_pol_regular (l : lind) (qs : list Z3) : res (list (arr (Z * Z) Cplx)) :=
    bind (grid2cart l qs) (fun cart =>
    bind (states_at l 2 (grid2frac l (l_grid l)) true) (fun sts =>
    bind (k_ranges (Z.of_nat (length (l_grid l)))) (fun kss =>
    bind (loop (q_regular l sts kss) (enum (combine qs cart)) (map (fun _ => zeros) kss)) (fun dps =>
    scale_dp l dps)))).

  (** lindhard.py:475-500: the body of the loop over q-points. *)
  Definition q_arbitrary (l : lind) (sts : list (bands_t * states_t)) (kss : list (list Z))
      (dps : list (arr (Z * Z) Cplx)) (x : Z * (V * V)) : res (list (arr (Z * Z) Cplx)) :=
    bind (states_at l 2 (map (fun k => vadd k (snd (snd x))) (grid2frac l (l_grid l))) false) (fun stq =>
    let ws := map (fun y : ((bands_t * states_t) * (bands_t * states_t)) * list Z =>
      prod_dp_arb (n_orb (l_cell l)) (fst (fst (fst y))) (snd (fst (fst y))) (fst (snd (fst y))) (snd (snd (fst y)))
        (l_beta l) (l_mu l) (fst (snd x)) (orb_pos_nm (l_cell l)) (snd y) (zeros, zeros)) (combine (combine sts stq) kss) in
    Ok (finish l kss ws (fst x) dps)).
  (** lindhard.py:423-510 calc_dyn_pol_arbitrary. *)
  Definition calc_dyn_pol_arbitrary (l : lind) (qs : list V) : res (list (arr (Z * Z) Cplx)) :=
    bind (lind_cart2frac l qs) (fun frac =>
    bind (states_at l 2 (grid2frac l (l_grid l)) false) (fun sts =>
    bind (k_ranges (Z.of_nat (length (l_grid l)))) (fun kss =>
    bind (loop (q_arbitrary l sts kss) (enum (combine qs frac)) (map (fun _ => zeros) kss)) (fun dps =>
    scale_dp l dps)))).

  (** lindhard.py:512-526 _get_vq; None stands for numpy's inf at q = 0. *)
  Definition get_vq (l : lind) (q : V) : res (option R) :=
    if Reqb (eps0 * l_eps l) 0 then Err ZeroDivisionError else
    let factor := 1 / (eps0 * l_eps l) in
    let n := np_norm q in
    if Reqb n 0 then Ok None
    else if (l_dim l =? 2)%Z then Ok (Some (factor * 2 * PI / n)) else Ok (Some (factor * 4 * PI / n ^ 2)).
  (** lindhard.py:528-549 calc_epsilon; numpy.ndarray(rows) raises for a list.
      A row of dyn_pol must have one value for each frequency (numpy would
      also repeat a single value).  None: inf or nan. *)
  Definition calc_epsilon (l : lind) (qs : coords) (dp : list (list Cplx)) : res (list (list (option Cplx))) :=
    match qs with
    | Rows _ => Err TypeError
    | Array qs =>
        mapM (fun x : Z * V =>
          bind (get_vq l (snd x)) (fun vq =>
          bind (rd dp (fst x)) (fun row =>
          if negb (length row =? length (l_omegas l))%nat then Err ValueError else
          Ok (map (fun p => match vq with Some v => Some (Csub (Cre 1) (Cmul (Cre v) p)) | None => None end) row)))) (enum qs)
    end.

  (** lindhard.py:551-646 calc_ac_cond; None is an illegal component. *)
  Definition calc_ac_cond (l : lind) (comp : option (Z * Z)) : res (list (arr Z Cplx)) :=
    bind (grid2cart l (l_grid l)) (fun kmesh =>
    match comp with
    | None => Err ValueError
    | Some (c1, c2) =>
        let nk := Z.of_nat (length (l_grid l)) in
        bind (cell_hops (l_cell l)) (fun hops =>
        bind (states_at l 1 (grid2frac l (l_grid l)) false) (fun sts =>
        bind (k_ranges nk) (fun kss =>
        bind (mapM (fun y : (bands_t * states_t) * list Z =>
               bind (prod_ac (n_orb (l_cell l)) (fst (fst y)) (snd (fst y)) hops kmesh (l_beta l) (l_mu l) c1 c2 (snd y) (zeros, zeros)) (fun w =>
               Ok (ac_cond_kernel (n_orb (l_cell l)) w (l_omegas l) (l_delta l) (snd y) zeros))) (combine sts kss)) (fun acs =>
        let acs := all_reduce mpi acs in
        bind (if (l_dim l =? 2)%Z then get_lattice_area (g_lat (l_cell l)) DC else Ok (get_lattice_volume (g_lat (l_cell l)))) (fun vol =>
        if Reqb (vol * IZR nk) 0 then Err ZeroDivisionError else
        let pre := Cdiv (Cmul (Cre (IZR (l_gs l))) Ci) (Cre (vol * IZR nk)) in
        Ok (map (fun (ac : arr Z Cplx) => fun i => Cdiv (Cmul (ac i) pre) (Cre (g_ext (l_cell l)))) acs))))))
    end).
  (** lindhard.py:648-664 calc_epsilon_q0; None: division by a zero frequency. *)
  Definition calc_epsilon_q0 (l : lind) (omegas : list R) (ac : list Cplx) : res (list (option Cplx)) :=
    if negb (l_dim l =? 3)%Z then Err ValueError
    else if Reqb (l_eps l * eps0) 0 then Err ZeroDivisionError
    else if negb (length omegas =? length ac)%nat then Err ValueError
    else let pre := 4 * PI / (l_eps l * eps0) in
    Ok (map (fun x : Cplx * R => if Reqb (snd x) 0 then None
               else Some (Cadd (Cre 1) (Cdiv (Cmul (Cmul Ci (Cre pre)) (fst x)) (Cre (snd x))))) (combine ac omegas)).
End Lindhard.
