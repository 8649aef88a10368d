(** Model of samples: builder/sample.py:24-594 and cython/sample.pyx.
    Numbers are exact: T are the reals, E the complex numbers. *)
From Verif Require Import Prelude Vec M_hop M_inter M_index M_super M_bloch.

(** Array write; the Cython code does not check bounds, the model does. *)
Definition wr {A} (l : list A) (k : Z) (v : A) : res (list A) :=
  if (0 <=? k) && (k <? Z.of_nat (length l)) then Ok (set_nth (Z.to_nat k) l v) else Err IndexError.
(** l[k] = l[k] + v on integers or reals. *)
Definition upd {A} (f : A -> A) (l : list A) (k : Z) : res (list A) :=
  bind (rd l k) (fun x => wr l k (f x)).
(** A loop whose body may fail. *)
Definition loop {S A} (body : S -> A -> res S) (l : list A) (s : S) : res S :=
  fold_left (fun acc x => bind acc (fun s => body s x)) l (Ok s).

Section Sample.
  Context {E T : Type} {SE : Scalar E} {ST : Scalar T}.
  (** conj: complex conjugate; inj: reals as complex numbers; cis x = cos x +
      1j * sin x; inv: reciprocal; cabs: sqrt(re**2 + im**2); rabs: abs on
      reals; leb: <= on reals; mag: pi / 4135.666734; half: 0.5. *)
  Context (conj : E -> E) (inj : T -> E) (cis : T -> E) (inv : T -> T) (cabs : E -> T) (rabs : T -> T)
          (leb : T -> T -> bool) (mag half : T).
  Notation vec := (vec T).
  Notation row := (row E T).

  (** ** Components *)
  (** Supercells are objects compared by identity ([in] and [index] use ==,
      which SuperCell does not override); [heap] gives their present content:
      the supercell and pc_orb_eng, the energies of its primitive cell. *)
  Definition heap := Z -> sc E T * list T.
  Inductive arg := ASC (id : Z) | AHop (bra ket : Z) (x : inter E) | AOther.

  Record sample := {
    m_sc : list Z;                           (* _sc_list *)
    m_hop : list (Z * Z * inter E);          (* _hop_list *)
    m_eng : option (list T);                 (* orb_eng *)
    m_pos : option (list vec);               (* orb_pos *)
    m_rows : option (list row * dtype);      (* hop_i, hop_j, hop_v, dr; element type of hop_i, hop_j *)
    m_rescale : T }.
  Definition with_eng (s : sample) x : sample :=
    {| m_sc := m_sc s; m_hop := m_hop s; m_eng := x; m_pos := m_pos s; m_rows := m_rows s; m_rescale := m_rescale s |}.
  Definition with_pos (s : sample) x : sample :=
    {| m_sc := m_sc s; m_hop := m_hop s; m_eng := m_eng s; m_pos := x; m_rows := m_rows s; m_rescale := m_rescale s |}.
  Definition with_rows (s : sample) x : sample :=
    {| m_sc := m_sc s; m_hop := m_hop s; m_eng := m_eng s; m_pos := m_pos s; m_rows := x; m_rescale := m_rescale s |}.
  Definition with_rescale (s : sample) x : sample :=
    {| m_sc := m_sc s; m_hop := m_hop s; m_eng := m_eng s; m_pos := m_pos s; m_rows := m_rows s; m_rescale := x |}.

  (** sample.py:73-84 the loop over the arguments (locking: see M_super). *)
  Fixpoint parse (args : list arg) (scs : list Z) (hops : list (Z * Z * inter E)) : res (list Z * list (Z * Z * inter E)) :=
    match args with
    | [] => Ok (scs, hops)
    | ASC i :: r => parse r (scs ++ [i]) hops
    | AHop b k x :: r => parse r scs (hops ++ [(b, k, x)])
    | AOther :: _ => Err SampleCompError
    end.
  (** sample.py:57-101 __init__. *)
  Definition make_sample (args : list arg) : res sample :=
    match args with
    | [] => Err SampleVoidError
    | _ => bind (parse args [] []) (fun q =>
        let '(scs, hops) := q in
        if forallb (fun t : Z * Z * inter E => let '(b, k, _) := t in zmem b scs && zmem k scs) hops
        then Ok {| m_sc := scs; m_hop := hops; m_eng := None; m_pos := None; m_rows := None; m_rescale := s1 |}
        else Err SampleClosureError)
    end.

  Section Heap.
  Context (h : heap).
  (** sample.py:103-110 _get_num_orb_sc; num_orb, sample.py:654-660. *)
  Definition sizes (s : sample) : list Z := map (fun i => num_orb_sc (s_os (fst (h i)))) (m_sc s).
  Definition zsum (l : list Z) : Z := fold_left Z.add l 0.
  Definition m_num_orb (s : sample) : Z := zsum (sizes s).
  (** sample.py:112-121 _get_ind_start. *)
  Definition ind_start (s : sample) : list Z :=
    map (fun k => zsum (firstn k (sizes s))) (seq 0 (length (sizes s))).

  (** super.py:662-670 get_orb_eng of a supercell. *)
  Definition sc_orb_eng (i : Z) : res (list T) := build_orb_eng (snd (h i)) (o_orb_id_pc (s_os (fst (h i)))).

  (** sample.py:123-136. *)
  Definition fresh_eng (s : sample) : res (list T) := flatM sc_orb_eng (m_sc s).
  Definition init_orb_eng (force : bool) (s : sample) : sample * res unit :=
    match force, m_eng s with
    | false, Some _ => (s, Ok tt)
    | _, _ => match fresh_eng s with Ok l => (with_eng s (Some l), Ok tt) | Err x => (s, Err x) end
    end.
  (** sample.py:138-151. *)
  Definition fresh_pos (s : sample) : res (list vec) := flatM (fun i => get_orb_pos (fst (h i))) (m_sc s).
  Definition init_orb_pos (force : bool) (s : sample) : sample * res unit :=
    match force, m_pos s with
    | false, Some _ => (s, Ok tt)
    | _, _ => match fresh_pos s with Ok l => (with_pos s (Some l), Ok tt) | Err x => (s, Err x) end
    end.

  (** list.index: first position, ValueError if absent. *)
  Fixpoint index_of (x : Z) (l : list Z) : res Z :=
    match l with
    | [] => Err ValueError
    | y :: r => if x =? y then Ok 0 else bind (index_of x r) (fun k => Ok (k + 1))
    end.
  Definition shift (di dj : Z) (r : row) : row :=
    {| r_i := r_i r + di; r_j := r_j r + dj; r_v := r_v r; r_dr := r_dr r |}.
  (** numpy.concatenate: float64 as soon as one array is. *)
  Definition join_dtype (a b : dtype) : dtype := match a, b with Int64, Int64 => Int64 | _, _ => Float64 end.
  (** sample.py:167-195. *)
  Definition fresh_rows (s : sample) : res (list row * dtype) :=
    let start := ind_start s in
    bind (mapM (fun q : Z * Z => let '(k, i) := q in
            bind (get_hop conj (fst (h i))) (fun rd0 =>
            bind (rd start k) (fun d => Ok (map (shift d d) (fst rd0), snd rd0)))) (enum (m_sc s))) (fun a =>
    bind (mapM (fun q : Z * Z * inter E => let '(b, k, x) := q in
            bind (inter_get_hop (fst (h b)) (fst (h k)) x false) (fun rows =>
            bind (index_of b (m_sc s)) (fun ib => bind (index_of k (m_sc s)) (fun ik =>
            bind (rd start ib) (fun db => bind (rd start ik) (fun dk => Ok (map (shift db dk) rows))))))) (m_hop s)) (fun b =>
    Ok (concat (map fst a) ++ concat b, fold_left join_dtype (map snd a) Int64))).
  (** sample.py:153-198 init_hop. *)
  Definition init_hops (force : bool) (s : sample) : sample * res unit :=
    match force, m_rows s with
    | false, Some _ => (s, Ok tt)
    | _, _ => match fresh_rows s with
              | Ok q => (with_rescale (with_rows s (Some q)) s1, Ok tt)
              | Err x => (s, Err x)
              end
    end.

  (** Statements one after the other; an exception ends the method. *)
  Definition seq2 (f g : sample -> sample * res unit) (s : sample) : sample * res unit :=
    let '(s1, r) := f s in match r with Ok _ => g s1 | Err x => (s1, Err x) end.
  Definition when {A} (o : option A) (f : sample -> sample * res unit) (s : sample) : sample * res unit :=
    match o with Some _ => f s | None => (s, Ok tt) end.

  (** sample.py:200-218 reset_array (and update, 264-270). *)
  Definition reset_array (s : sample) : sample * res unit :=
    seq2 (when (m_eng s) (init_orb_eng true))
         (seq2 (when (m_pos s) (init_orb_pos true)) (when (m_rows s) (init_hops true))) s.

  (** Typed memoryviews of the compiled functions refuse float64 columns. *)
  Definition ints (q : list row * dtype) : res (list row) :=
    match snd q with Int64 => Ok (fst q) | Float64 => Err ValueError end.
  (** An attribute that is still None. *)
  Definition got {A} (o : option A) : res A := match o with Some x => Ok x | None => Err AttributeError end.

  (** sample.pyx:75-114 get_rescale; numpy.max of an empty array is an error. *)
  Definition smax (a b : T) : T := if leb a b then b else a.
  Definition row_sums (eng : list T) (rows : list row) : res (list T) :=
    loop (fun sums r => bind (upd (fun x => sadd x (cabs (r_v r))) sums (r_i r)) (fun sums =>
                        upd (fun x => sadd x (cabs (r_v r))) sums (r_j r))) rows eng.
  Definition get_rescale (eng : list T) (rows : list row) : res T :=
    bind (row_sums eng rows) (fun sums =>
      match sums with [] => Err ValueError | x :: r => Ok (fold_left smax r x) end).

  Definition scale_rows (c : T) (rows : list row) : list row :=
    map (fun r => {| r_i := r_i r; r_j := r_j r; r_v := smul (r_v r) (inj c); r_dr := r_dr r |}) rows.
  (** sample.py:292-299 after the inits. *)
  Definition do_rescale (factor : option T) (s : sample) : sample * res unit :=
    match m_eng s, m_rows s with
    | Some eng, Some (rows, dt) =>
      match (match factor with Some f => Ok f
             | None => bind (ints (rows, dt)) (fun rows => get_rescale eng rows) end) with
      | Err x => (s, Err x)
      | Ok f =>
        let c := smul (m_rescale s) (inv f) in
        (with_rescale (with_rows (with_eng s (Some (map (fun e => smul e c) eng))) (Some (scale_rows c rows, dt))) f, Ok tt)
      end
    | _, _ => (s, Err AttributeError)
    end.
  (** sample.py:272-299 rescale_ham. *)
  Definition rescale_ham (factor : option T) : sample -> sample * res unit :=
    seq2 (init_orb_eng false) (seq2 (init_hops false) (do_rescale factor)).

  (** sample.pyx:20-72 set_mag_field: one hopping term. *)
  Definition mag_phase (pos : list vec) (intensity : T) (gauge : Z) (r : row) : res T :=
    bind (rd pos (r_i r)) (fun pi => bind (rd pos (r_j r)) (fun pj =>
      let '(xi, yi, _) := pi in let '(xj, yj, _) := pj in let '(dx, dy, _) := r_dr r in
      if gauge =? 0 then Ok (smul (smul (smul mag intensity) dx) (sadd yj yi))
      else if gauge =? 1 then Ok (smul (smul (smul (sopp mag) intensity) dy) (sadd xj xi))
      else Ok (smul (smul (smul mag half) intensity) (ssub (smul dx (sadd xj xi)) (smul dy (sadd yj yi)))))).
  Definition set_v (r : row) (v : E) : row := {| r_i := r_i r; r_j := r_j r; r_v := v; r_dr := r_dr r |}.
  Definition set_mag_field (pos : list vec) (intensity : T) (gauge : Z) (rows : list row) : res (list row) :=
    mapM (fun r => bind (mag_phase pos intensity gauge r) (fun x => Ok (set_v r (smul (r_v r) (cis x))))) rows.
  (** sample.py:349-354 after the inits. *)
  Definition do_mag (intensity : T) (gauge : Z) (s : sample) : sample * res unit :=
    if negb ((gauge =? 0) || (gauge =? 1) || (gauge =? 2)) then (s, Err ValueError) else
    match bind (got (m_rows s)) (fun q => bind (ints q) (fun rows =>
          bind (got (m_pos s)) (fun pos => set_mag_field pos intensity gauge rows))) with
    | Ok rows => (with_rows s (Some (rows, Int64)), Ok tt)
    | Err x => (s, Err x)
    end.
  (** sample.py:301-354 set_magnetic_field. *)
  Definition set_magnetic_field (intensity : T) (gauge : Z) : sample -> sample * res unit :=
    seq2 (init_orb_pos false) (seq2 (init_hops false) (do_mag intensity gauge)).

  (** sample.pyx:444-485 build_hop_k, [kpt] Cartesian. *)
  Definition k_phase (kpt : vec) (dr : vec) : T :=
    let '(k0, k1, k2) := kpt in let '(x, y, z) := dr in
    sadd (sadd (smul x k0) (smul y k1)) (smul z k2).
  Definition build_hop_k (rows : list row) (kpt : vec) : list row :=
    map (fun r => set_v r (smul (r_v r) (cis (k_phase kpt (r_dr r))))) rows.
  (** sample.py:356-373 set_k_point; [recip]: reciprocal vectors of the first
      supercell. *)
  Definition do_k (recip : mat T) (k : vec) (s : sample) : sample * res unit :=
    match m_rows s with
    | Some (rows, dt) => (with_rows s (Some (build_hop_k rows (vmat k recip), dt)), Ok tt)
    | None => (s, Err AttributeError)
    end.
  Definition set_k_point (recip : mat T) (k : vec) : sample -> sample * res unit :=
    seq2 (init_hops false) (do_k recip k).

  (** sample.pyx:490-530 fill_ham. *)
  Definition fill_ham (eng : list T) (rows : list row) (m : @matrix E) : res matrix :=
    let n := Z.of_nat (length eng) in
    loop (fun (m : matrix) (r : row) =>
            let i := r_i r in let j := r_j r in
            if negb ((0 <=? i) && (i <? n) && (0 <=? j) && (j <? n)) then Err IndexError else
            let m1 := mset m i j (sadd (m i j) (r_v r)) in
            Ok (mset m1 j i (sadd (m1 j i) (conj (r_v r))))) rows (set_onsite inj eng m).
  (** sample.py:524-556 set_ham_dense. *)
  Definition sample_ham_dense (recip : mat T) (k : vec) (conv : Z) (s : sample) : res matrix :=
    if negb (conv =? 1) then Err ValueError else
    bind (got (m_rows s)) (fun q => bind (got (m_eng s)) (fun eng =>
      bind (ints q) (fun rows =>
      bind (fill_ham eng (build_hop_k rows (vmat k recip)) mzero) (fun m =>
      Ok (fun a b => smul (m a b) (inj (m_rescale s))))))).

  (** scipy: csr_matrix((v, (i, j))) sums the terms of each position; indices
      out of range are refused with ValueError. *)
  Definition coo_ok (n : Z) (rows : list row) : bool :=
    forallb (fun r : row => (0 <=? r_i r) && (r_i r <? n) && (0 <=? r_j r) && (r_j r <? n)) rows.
  Definition coo_sum {A} {SA : Scalar A} (val : row -> A) (rows : list row) : Z -> Z -> A :=
    fun a b => fold_right (fun r acc => if (r_i r =? a) && (r_j r =? b) then sadd (val r) acc else acc) s0 rows.
  Definition dia (eng : list T) : matrix := fun a b =>
    if (a =? b) && (0 <=? a) then match nth_error eng (Z.to_nat a) with Some w => inj w | None => s0 end else s0.
  Definition csr_sum (n : Z) (eng : list T) (rows : list row) : res matrix :=
    if coo_ok n rows then
      let half := coo_sum r_v rows in Ok (fun a b => sadd (sadd (dia eng a b) (half a b)) (conj (half b a)))
    else Err ValueError.
  (** sample.py:558-594 set_ham_csr. *)
  Definition sample_ham_csr (recip : mat T) (k : vec) (conv : Z) (s : sample) : res matrix :=
    if negb (conv =? 1) then Err ValueError else
    bind (got (m_eng s)) (fun eng => bind (got (m_rows s)) (fun q =>
      bind (csr_sum (m_num_orb s) eng (build_hop_k (fst q) (vmat k recip))) (fun m =>
      Ok (fun a b => smul (m a b) (inj (m_rescale s)))))).
  (** sample.py:375-391 build_ham_csr. *)
  Definition build_ham_csr (s : sample) : sample * res matrix :=
    let '(s', r) := seq2 (init_orb_eng false) (init_hops false) s in
    (s', match r with
         | Err x => Err x
         | Ok _ => bind (got (m_eng s')) (fun eng => bind (got (m_rows s')) (fun q =>
                     csr_sum (m_num_orb s') eng (fst q)))
         end).
  (** sample.py:393-415 build_dxy_csr; [c]: 0 for dx, 1 for dy. *)
  Definition dr_c (c : Z) (r : row) : T := let '(x, y, _) := r_dr r in if c =? 0 then x else y.
  Definition build_dxy_csr (c : Z) (s : sample) : sample * res (Z -> Z -> T) :=
    let '(s', r) := init_hops false s in
    (s', match r with
         | Err x => Err x
         | Ok _ => bind (got (m_rows s')) (fun q =>
             if coo_ok (m_num_orb s') (fst q) then
               let m := coo_sum (dr_c c) (fst q) in Ok (fun a b => ssub (m a b) (m b a))
             else Err ValueError)
         end).

  (** ** sample.pyx:119-439: compressed sparse rows *)
  Record csr := { c_indptr : list Z; c_indices : list Z; c_hopv : list E; c_dx : list T; c_dy : list T }.

  (** sample.pyx:204-219 and 372-379: counts, then their running sums. *)
  Definition accumulate (l : list Z) : res (list Z) :=
    bind (wr l 0 0) (fun l =>
    loop (fun l io => bind (rd l (io - 1)) (fun a => upd (fun b => a + b) l io)) (skipn 1 (zrange (length l))) l).
  Definition keep (cutoff w : T) : bool := leb cutoff (rabs w).
  Definition incr (l : list Z) (p : Z) : res (list Z) := upd (fun x => x + 1) l p.
  Definition build_indptr (eng : list T) (rows : list row) (cutoff : T) : res (list Z) :=
    bind (loop (fun l (q : Z * T) => if keep cutoff (snd q) then incr l (fst q + 1) else Ok l)
               (enum eng) (repeat 0 (length eng + 1))) (fun l =>
    bind (loop (fun l (r : row) => bind (incr l (r_i r + 1)) (fun l => incr l (r_j r + 1))) rows l) (fun l =>
    accumulate l)).

  (** sample.pyx:119-145 _get_free_ptr and the assignments after it. *)
  Record slots := { k_count : list Z; k_csr : csr }.
  Definition put (k : slots) (i j : Z) (v : E) (x y : T) : res slots :=
    let c := k_csr k in
    bind (rd (c_indptr c) i) (fun p0 => bind (rd (k_count k) i) (fun n =>
    let ptr := p0 + n in
    bind (wr (k_count k) i (n + 1)) (fun count =>
    bind (wr (c_indices c) ptr j) (fun ind => bind (wr (c_hopv c) ptr v) (fun hop =>
    bind (wr (c_dx c) ptr x) (fun dx => bind (wr (c_dy c) ptr y) (fun dy =>
    Ok {| k_count := count;
          k_csr := {| c_indptr := c_indptr c; c_indices := ind; c_hopv := hop; c_dx := dx; c_dy := dy |} |}))))))).
  Definition dr_x (r : row) : T := let '(x, _, _) := r_dr r in x.
  Definition dr_y (r : row) : T := let '(_, y, _) := r_dr r in y.
  (** sample.pyx:150-257 build_ham_dxy_fast. *)
  Definition build_ham_dxy_fast (eng : list T) (rows : list row) (cutoff : T) : res csr :=
    bind (build_indptr eng rows cutoff) (fun indptr =>
    bind (rd indptr (Z.of_nat (length indptr) - 1)) (fun tot =>
    let n := Z.to_nat tot in
    let k0 := {| k_count := repeat 0 (length eng);
                 k_csr := {| c_indptr := indptr; c_indices := repeat 0 n; c_hopv := repeat s0 n;
                             c_dx := repeat s0 n; c_dy := repeat s0 n |} |} in
    bind (loop (fun k (q : Z * T) => if keep cutoff (snd q)
                 then put k (fst q) (fst q) (inj (snd q)) s0 s0 else Ok k) (enum eng) k0) (fun k1 =>
    bind (loop (fun k (r : row) =>
                 bind (put k (r_i r) (r_j r) (r_v r) (dr_x r) (dr_y r)) (fun k =>
                 put k (r_j r) (r_i r) (conj (r_v r)) (sopp (dr_x r)) (sopp (dr_y r)))) rows k1) (fun k2 =>
    Ok (k_csr k2))))).

  (** numpy.argsort: some permutation of the positions that sorts the array
      (the default algorithm is not stable). *)
  Context (argsort : list Z -> list Z).
  Definition take {A} (l : list A) (ind : list Z) : res (list A) := mapM (rd l) ind.
  (** sample.pyx:262-382 build_ham_dxy_safe.  The filling loops write each
      position once in increasing order, so that the arrays are the lists of
      their values. *)
  Definition build_ham_dxy_safe (eng : list T) (rows : list row) (cutoff : T) : res csr :=
    let nz := filter (fun q : Z * T => keep cutoff (snd q)) (enum eng) in
    let hi := map fst nz ++ map r_i rows ++ map r_j rows in
    let hj := map fst nz ++ map r_j rows ++ map r_i rows in
    let hv := map (fun q => inj (snd q)) nz ++ map r_v rows ++ map (fun r => conj (r_v r)) rows in
    let dx := map (fun _ => s0) nz ++ map dr_x rows ++ map (fun r => sopp (dr_x r)) rows in
    let dy := map (fun _ => s0) nz ++ map dr_y rows ++ map (fun r => sopp (dr_y r)) rows in
    let ind := argsort hi in
    bind (take hi ind) (fun hi' => bind (take hj ind) (fun hj' => bind (take hv ind) (fun hv' =>
    bind (take dx ind) (fun dx' => bind (take dy ind) (fun dy' =>
    bind (loop (fun l i => incr l (i + 1)) hi' (repeat 0 (length eng + 1))) (fun l =>
    bind (accumulate l) (fun indptr =>
    Ok {| c_indptr := indptr; c_indices := hj'; c_hopv := hv'; c_dx := dx'; c_dy := dy' |}))))))).

  (** sample.pyx:387-439 sort_col_csr: one row. *)
  Definition slice {A} (l : list A) (a b : Z) : list A := firstn (Z.to_nat (b - a)) (skipn (Z.to_nat a) l).
  Definition sort_row (c : csr) (i : Z) : res csr :=
    bind (rd (c_indptr c) i) (fun p0 => bind (rd (c_indptr c) (i + 1)) (fun p1 =>
    let ib := slice (c_indices c) p0 p1 in let hb := slice (c_hopv c) p0 p1 in
    let xb := slice (c_dx c) p0 p1 in let yb := slice (c_dy c) p0 p1 in
    loop (fun c (q : Z * Z) => let '(off, ibuf) := q in
      let p2 := p0 + off in
      bind (bind (rd ib ibuf) (wr (c_indices c) p2)) (fun ind =>
      bind (bind (rd hb ibuf) (wr (c_hopv c) p2)) (fun hop =>
      bind (bind (rd xb ibuf) (wr (c_dx c) p2)) (fun dx =>
      bind (bind (rd yb ibuf) (wr (c_dy c) p2)) (fun dy =>
      Ok {| c_indptr := c_indptr c; c_indices := ind; c_hopv := hop; c_dx := dx; c_dy := dy |})))))
      (enum (argsort ib)) c)).
  Definition sort_col_csr (c : csr) : res csr :=
    loop sort_row (zrange (length (c_indptr c) - 1)) c.

  (** sample.py:417-461 build_ham_dxy. *)
  Definition build_ham_dxy (cutoff : T) (fast sort_col : bool) (s : sample) : sample * res csr :=
    let '(s', r) := seq2 (init_orb_eng false) (seq2 (init_orb_pos false) (init_hops false)) s in
    (s', match r with
         | Err x => Err x
         | Ok _ => bind (got (m_eng s')) (fun eng => bind (got (m_rows s')) (fun q => bind (ints q) (fun rows =>
             bind (if fast then build_ham_dxy_fast eng rows cutoff else build_ham_dxy_safe eng rows cutoff) (fun c =>
             if sort_col then sort_col_csr c else Ok c))))
         end).

  (** ** Sequences of calls *)
  Inductive mop :=
  | MInitEng (force : bool) | MInitPos (force : bool) | MInitHop (force : bool) | MReset
  | MRescale (f : option T) | MMag (b : T) (gauge : Z) | MK (recip : mat T) (k : vec).
  Definition mstep (s : sample) (o : mop) : sample * res unit :=
    match o with
    | MInitEng f => init_orb_eng f s | MInitPos f => init_orb_pos f s | MInitHop f => init_hops f s
    | MReset => reset_array s | MRescale f => rescale_ham f s
    | MMag b g => set_magnetic_field b g s | MK r k => set_k_point r k s
    end.
  Definition mrun (s : sample) (os : list mop) : sample := fold_left (fun s o => fst (mstep s o)) os s.
  End Heap.

  (** ** sample.py:220-262 save_array and load_array *)
  (** The .npy files of a directory; hop_* and rescale are always written
      together. *)
  Record disk := { d_eng : option (list T); d_pos : option (list vec); d_rows : option (list row * dtype * T) }.
  Definition save_array (s : sample) (d : disk) : disk :=
    {| d_eng := match m_eng s with Some x => Some x | None => d_eng d end;
       d_pos := match m_pos s with Some x => Some x | None => d_pos d end;
       d_rows := match m_rows s with Some x => Some (x, m_rescale s) | None => d_rows d end |}.
  Definition load_array (d : disk) (s : sample) : sample :=
    {| m_sc := m_sc s; m_hop := m_hop s;
       m_eng := match d_eng d with Some x => Some x | None => m_eng s end;
       m_pos := match d_pos d with Some x => Some x | None => m_pos s end;
       m_rows := match d_rows d with Some (x, _) => Some x | None => m_rows s end;
       m_rescale := match d_rows d with Some (_, f) => f | None => m_rescale s end |}.
End Sample.
Arguments sample : clear implicits.
Arguments arg : clear implicits.
Arguments csr : clear implicits.
Arguments mop : clear implicits.
Arguments disk : clear implicits.
Arguments heap : clear implicits.
