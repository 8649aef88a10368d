(** Model of the distribution of work over processes, utils.py:296-352 and
    parallel.py:89-189, and of the k-point loops of DiagSolver,
    diagonal/base.py:213-521.  Numbers are exact. *)
From Verif Require Import Prelude Vec Cx M_super M_sample.

(** ** Splitting *)
(** utils.py:321-323 and 344-346: the numbers of items of each group.  Python
    floor division; [range(k)] is empty for negative k. *)
Definition num_item (n g : Z) : res (list Z) :=
  loop (fun l i => upd (fun c => c + 1) l i) (zrange (Z.to_nat (n mod g))) (repeat (n / g) (Z.to_nat g)).
(** utils.py:326-328 and 348-350. *)
Definition bounds (num : list Z) (g : Z) : res (list (Z * Z)) :=
  mapM (fun i => let j0 := zsum (firstn (Z.to_nat i) num) in
                 bind (rd num i) (fun c => Ok (j0, j0 + c))) (zrange (Z.to_nat g)).
(** Python range(j0, j1). *)
Definition span (j : Z * Z) : list Z := map (Z.add (fst j)) (zrange (Z.to_nat (snd j - fst j))).
(** utils.py:333-352 split_range; the ranges are given as pairs (j0, j1). *)
Definition split_range (n g : Z) : res (list (Z * Z)) :=
  if g =? 0 then Err ZeroDivisionError else bind (num_item n g) (fun num => bounds num g).

Inductive algo := Remainder | Range | NoAlgo.
(** utils.py:296-330 split_list. *)
Definition split_list {A} (raw : list A) (g : Z) (al : algo) : res (list (list A)) :=
  let n := Z.of_nat (length raw) in
  if negb ((1 <=? g) && (g <=? n)) then Err AssertionError
  else match al with
  | NoAlgo => Err AssertionError
  | Remainder =>
      mapM (fun k => mapM (rd raw) (filter (fun i => i mod g =? k) (zrange (length raw)))) (zrange (Z.to_nat g))
  | Range => bind (num_item n g) (fun num => bind (bounds num g) (mapM (fun j => mapM (rd raw) (span j))))
  end.

(** parallel.py:89-120. *)
Definition dist_list {A} (size rank : Z) (raw : list A) (al : algo) : res (list A) :=
  bind (split_list raw size al) (fun l => rd l rank).
Definition dist_range (size rank n : Z) : res (list Z) :=
  bind (split_range n size) (fun l => bind (rd l rank) (fun j => Ok (span j))).
Definition dist_bound (size rank n : Z) : res (Z * Z) :=
  bind (dist_range size rank n) (fun l =>
  match l with
  | [] => Err ValueError        (* min() of an empty sequence *)
  | x :: r => Ok (fold_left Z.min r x, fold_left Z.max r x)
  end).

(** ** Arrays and collective operations *)
(** An array with index set I; indices outside of the shape are unused. *)
Definition arr (I V : Type) := I -> V.
(** A program run by all processes in lockstep: one value for each rank.  A
    process that raises takes the whole run down. *)
Definition ranks (size : Z) : list Z := zrange (Z.to_nat size).

Section Coll.
  Context {I V : Type} {SV : Scalar V}.
  (** MPI SUM of the contributions of all ranks. *)
  Definition total_arr (l : list (arr I V)) : arr I V := fun i => esum (map (fun a => a i) l).
  (** parallel.py:140-153 all_reduce: the value on each rank. *)
  Definition all_reduce (mpi : bool) (l : list (arr I V)) : list (arr I V) :=
    if mpi then map (fun _ => total_arr l) l else l.
  (** parallel.py:122-138 reduce: the value on the master. *)
  Definition reduce (mpi : bool) (l : list (arr I V)) : res (arr I V) :=
    if mpi then Ok (total_arr l) else rd l 0.
  (** parallel.py:175-189 all_average; [inv] is the reciprocal. *)
  Context (inv : V -> V).
  Definition all_average (mpi : bool) (l : list (arr I V)) : list (arr I V) :=
    if mpi then map (fun _ => fun i => smul (total_arr l i) (inv (sZ (Z.of_nat (length l))))) l else l.
  (** parallel.py:155-173 average: the value on the master. *)
  Definition average (mpi : bool) (l : list (arr I V)) : res (arr I V) :=
    if mpi then Ok (fun i => smul (total_arr l i) (inv (sZ (Z.of_nat (length l))))) else rd l 0.
End Coll.

(** a[k] = row, for the first index of an array. *)
Definition setrow {J V} (a : arr (Z * J) V) (k : Z) (row : J -> V) : arr (Z * J) V :=
  fun ij => if fst ij =? k then row (snd ij) else a ij.
Definition zeros {I V} {SV : Scalar V} : arr I V := fun _ => s0.

(** ** DiagSolver *)
Section Diag.
  Context {E T : Type} {SE : Scalar E} {ST : Scalar T}.
  (** The eigensolver, _diag_ham_dense or _diag_ham_csr (base.py:232-310), for
      one k-point: eigenvalues and the rows of eigenstates.T.  [order] is
      argsort()[::-1]; [absq x] is abs(x)**2; [leb] is <= on reals; [inv] is
      the reciprocal and [trunc] is int() of a real number. *)
  Context (solve : vec T -> res (list T * list (list E))) (order : list T -> list Z) (absq : E -> T)
          (leb : T -> T -> bool) (inv : T -> T) (trunc : T -> Z).

  (** Assignment of a list to a row of n entries.  numpy would repeat a list
      of one entry; the model raises as for all other lengths. *)
  Definition as_row {V} (d : V) (n : Z) (l : list V) : res (Z -> V) :=
    if Z.of_nat (length l) =? n then Ok (fun j => nth (Z.to_nat j) l d) else Err ValueError.

  (** base.py:213-230 _calc_proj. *)
  Definition calc_proj (orbs : list Z) (states : list (list E)) : res (list T) :=
    mapM (fun st => loop (fun acc io => match py_nth st io with
                                        | Some x => Ok (sadd acc (absq x))
                                        | None => Err IndexError end) orbs s0) states.

  (** base.py:363-379: the body of the loop over k-points. *)
  Definition band_rows (kpts : list (vec T)) (nb : Z) (orbs : option (list Z)) (ik : Z) : res ((Z -> T) * (Z -> T)) :=
    bind (rd kpts ik) (fun k =>
    bind (solve k) (fun q =>
    let idx := order (fst q) in
    bind (mapM (rd (fst q)) idx) (fun ev =>
    bind (as_row s0 nb ev) (fun r =>
    match orbs with
    | None => Ok (r, fun _ => s1)
    | Some o => bind (calc_proj o (snd q)) (fun p =>
                bind (mapM (rd p) idx) (fun p' =>
                bind (as_row s0 nb p') (fun r' => Ok (r, r'))))
    end)))).
  (** base.py:352-379 on one process. *)
  Definition bands_local (size rank : Z) (kpts : list (vec T)) (nb : Z) (orbs : option (list Z)) :
      res (arr (Z * Z) T * arr (Z * Z) T) :=
    let proj0 := match orbs with Some _ => zeros | None => fun _ => s1 end in
    bind (dist_range size rank (Z.of_nat (length kpts))) (fun ks =>
    loop (fun (s : arr (Z * Z) T * arr (Z * Z) T) ik =>
            bind (band_rows kpts nb orbs ik) (fun r =>
            Ok (setrow (fst s) ik (fst r),
                match orbs with Some _ => setrow (snd s) ik (snd r) | None => snd s end)))
         ks (zeros, proj0)).
  (** base.py:312-391 calc_bands without k_len (see gen_kdist): bands and proj
      on each rank.  [nb] is the number of bands chosen in 339-350. *)
  Definition calc_bands (mpi : bool) (size : Z) (kpts : list (vec T)) (nb : Z) (orbs : option (list Z)) :
      res (list (arr (Z * Z) T * arr (Z * Z) T)) :=
    bind (mapM (fun r => bands_local size r kpts nb orbs) (ranks size)) (fun ls =>
    let bands := all_reduce mpi (map fst ls) in
    let proj := match orbs with Some _ => all_reduce mpi (map snd ls) | None => map snd ls end in
    Ok (combine bands proj)).

  (** numpy.linspace(a, b, num). *)
  Definition linspace (a b : T) (num : Z) : res (list T) :=
    if num <? 0 then Err ValueError
    else Ok (map (fun i => sadd a (smul (sZ i) (smul (ssub b a) (inv (sZ (num - 1)))))) (zrange (Z.to_nat num))).
  (** numpy.min and numpy.max of an array of nk rows and nb columns. *)
  Definition entries (nk nb : Z) (a : arr (Z * Z) T) : list T :=
    flat_map (fun i => map (fun j => a (i, j)) (zrange (Z.to_nat nb))) (zrange (Z.to_nat nk)).
  Definition best (lt : T -> T -> bool) (l : list T) : res T :=
    match l with [] => Err ValueError | x :: r => Ok (fold_left (fun m y => if lt y m then y else m) r x) end.
  (** base.py:424-430: the energy grid. *)
  Definition dos_grid (nk nb : Z) (bands : arr (Z * Z) T) (e_min e_max : option T) (step : T) : res (list T) :=
    bind (match e_min with Some x => Ok x | None => best leb (entries nk nb bands) end) (fun lo =>
    bind (match e_max with Some x => Ok x | None => best (fun x y => leb y x) (entries nk nb bands) end) (fun hi =>
    linspace lo hi (trunc (smul (ssub hi lo) (inv step)) + 1))).
  (** base.py:433-448 on one process; [f] is the basis function, None for an
      illegal name. *)
  Definition dos_local (size rank nk nb : Z) (bp : arr (Z * Z) T * arr (Z * Z) T) (e_min e_max : option T) (step : T)
      (f : option (T -> T -> T)) : res (list T * arr Z T) :=
    bind (dos_grid nk nb (fst bp) e_min e_max step) (fun en =>
    match f with
    | None => Err ValueError
    | Some f =>
        bind (dist_range size rank nk) (fun ks =>
        Ok (en, fold_left (fun dos ik =>
                  fold_left (fun dos ib => fun g : Z =>
                    sadd (dos g) (smul (f (nth (Z.to_nat g) en s0) (fst bp (ik, ib))) (snd bp (ik, ib))))
                    (zrange (Z.to_nat nb)) dos) ks zeros))
    end).
  (** base.py:393-457 calc_dos: energies and dos on each rank. *)
  Definition calc_dos (mpi : bool) (size : Z) (kpts : list (vec T)) (nb : Z) (orbs : option (list Z))
      (e_min e_max : option T) (step : T) (f : option (T -> T -> T)) (gs : T) : res (list (list T * arr Z T)) :=
    let nk := Z.of_nat (length kpts) in
    bind (calc_bands mpi size kpts nb orbs) (fun bps =>
    bind (mapM (fun rb => dos_local size (fst rb) nk nb (snd rb) e_min e_max step f) (enum bps)) (fun ls =>
    let dos := map (fun (d : arr Z T) => fun g => smul (smul (d g) (inv (sZ (nk * nb)))) gs) (all_reduce mpi (map snd ls)) in
    Ok (combine (map fst ls) dos))).

  (** base.py:506-515. *)
  Definition state_rows (kpts : list (vec T)) (nb no : Z) (ik : Z) : res ((Z -> T) * (Z * Z -> E)) :=
    bind (rd kpts ik) (fun k =>
    bind (solve k) (fun q =>
    bind (as_row s0 nb (fst q)) (fun r =>
    bind (mapM (as_row s0 no) (snd q)) (fun rows =>
    if Z.of_nat (length rows) =? nb
    then Ok (r, fun jo => nth (Z.to_nat (fst jo)) rows (fun _ => s0) (snd jo)) else Err ValueError)))).
  Definition states_local (size rank : Z) (kpts : list (vec T)) (nb no : Z) : res (arr (Z * Z) T * arr (Z * (Z * Z)) E) :=
    bind (dist_range size rank (Z.of_nat (length kpts))) (fun ks =>
    loop (fun (s : arr (Z * Z) T * arr (Z * (Z * Z)) E) ik =>
            bind (state_rows kpts nb no ik) (fun r => Ok (setrow (fst s) ik (fst r), setrow (snd s) ik (snd r))))
         ks (zeros, zeros)).
  (** base.py:459-521 calc_states: bands and states on each rank; [no] is
      num_orb. *)
  Definition calc_states (mpi : bool) (size : Z) (kpts : list (vec T)) (nb no : Z) (reduce : bool) :
      res (list (arr (Z * Z) T * arr (Z * (Z * Z)) E)) :=
    bind (mapM (fun r => states_local size r kpts nb no) (ranks size)) (fun ls =>
    if reduce then Ok (combine (all_reduce mpi (map fst ls)) (all_reduce mpi (map snd ls))) else Ok ls).
End Diag.
