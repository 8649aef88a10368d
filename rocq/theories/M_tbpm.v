(** Model of fortran/tbpm.f90 (the calculations with random samples), of parts
    of fortran/funcs.f90 and of tbpm/solver.py.  Numbers are exact; arrays are
    counted from 0.  Output for DEBUG builds and printing are left out. *)
From Verif Require Import Prelude Vec Cx M_super M_sample M_par M_prop.

Section Tbpm.
  Context {E : Type} {SE : Scalar E}.
  (** As in M_prop; im: imaginary part; [bad x ref]: abs(x - ref) is NaN,
      infinite or above the threshold. *)
  Context (conj : E -> E) (img : E) (inv : E -> E) (is0 : E -> bool) (re im sqrt : E -> E) (bad : E -> E -> bool).
  (** random.f90:36-69 random_state for the n_wf orbitals of the sample and the
      given seed (see M_random). *)
  Context (state : Z -> list E).
  Notation step := (cheb_wf_timestep img).
  Notation inner := (inner_prod conj).

  (** funcs.f90:175-192 check_norm; the process stops. *)
  Definition check_norm (x : list E) (ref : E) : res unit :=
    if bad (inner x x) ref then Err RuntimeError else Ok tt.
  (** corrval / n_ran_samples *)
  Definition per (ns : Z) (c : E) : E := smul c (inv (sZ ns)).

  (** The loop over samples; the same in all subroutines. *)
  Definition over_samples {C} (seed ns rank : Z) (body : list E -> C -> res C) (corr : C) : res C :=
    loop (fun corr i => body (state (seed * (i + rank * ns))) corr) (span (1, ns + 1)) corr.
  (** The loop over time (tbpm.f90:69-85, 168-183, 306-344, 466-486): check the
      norm at step chk, advance the states, add to the entry t - shift. *)
  Definition time_loop {W C} (chk : Z) (check : W -> res unit) (advance : W -> res W) (add : W -> res (C -> C))
      (shift from nt : Z) (w : W) (corr : list C) : res (list C) :=
    bind (loop (fun (st : W * list C) t =>
            bind (if t =? chk then check (fst st) else Ok tt) (fun _ =>
            bind (advance (fst st)) (fun w =>
            bind (add w) (fun f =>
            bind (upd f (snd st) (t - shift)) (fun corr =>
            Ok (w, corr)))))) (span (from, nt + 1)) (w, corr)) (fun st =>
    Ok (snd st)).

  (** tbpm.f90:5-93 tbpm_dos. *)
  Definition tbpm_dos (bes : list E) (m : spm E) (seed nt ns rank chk : Z) : res (list E) :=
    over_samples seed ns rank (fun wf0 corr =>
      bind (upd (fun c => sadd c (per ns (inner wf0 wf0))) corr 0) (fun corr =>
      bind (step m bes wf0 true) (fun wt =>
      bind (upd (fun c => sadd c (per ns (inner wf0 wt))) corr 1) (fun corr =>
      let ref := inner wt wt in
      time_loop chk (fun wt => check_norm wt ref) (fun wt => step m bes wt true)
        (fun wt => Ok (fun c => sadd c (per ns (inner wf0 wt)))) 0 2 nt wt corr))))
      (repeat s0 (Z.to_nat (nt + 1))).

  (** tbpm.f90:147-152: the state on the selected sites.  The quotient is NaN
      if there is nothing to normalise; then the model stops. *)
  Definition select_sites (sites : list Z) (x : list E) : res (list E) :=
    bind (loop (fun wf0 s => bind (rd x s) (fun v => wr wf0 s v)) sites (map (fun _ => s0) x)) (fun wf0 =>
    num (pdiv inv is0 wf0 (sqrt (inner wf0 wf0)))).
  (** tbpm.f90:96-189 tbpm_ldos. *)
  Definition tbpm_ldos (sites : list Z) (bes : list E) (m : spm E) (seed nt ns rank chk : Z) : res (list E) :=
    over_samples seed ns rank (fun wft corr =>
      bind (select_sites sites wft) (fun wf0 =>
      bind (upd (fun c => sadd c (per ns (inner wf0 wf0))) corr 0) (fun corr =>
      let ref := inner wf0 wf0 in
      time_loop chk (fun wt => check_norm wt ref) (fun wt => step m bes wt true)
        (fun wt => Ok (fun c => sadd c (per ns (inner wf0 wt)))) 0 1 nt wf0 corr)))
      (repeat s0 (Z.to_nat (nt + 1))).

  (** funcs.f90:11-33 current_coefficient; dr is real. *)
  Definition current_coefficient (value : E) (hop dr : list E) : list E := zip (fun v d => smul (smul (smul img value) v) d) hop dr.
  Definition current (m : spm E) (resc : E) (dr : list E) : spm E :=
    {| p_indptr := p_indptr m; p_indices := p_indices m; p_values := current_coefficient resc (p_values m) dr |}.

  (** tbpm.f90:277-284 and 320-327: xx, xy, yx, yy. *)
  Definition four (jx jy : spm E) (psi1x psi1y psi2 : list E) : res (list E) :=
    bind (csr_mv jx psi1x) (fun w1 => bind (csr_mv jy psi1x) (fun w2 =>
    bind (csr_mv jx psi1y) (fun w3 => bind (csr_mv jy psi1y) (fun w4 =>
    Ok [inner psi2 w1; inner psi2 w2; inner psi2 w3; inner psi2 w4])))).
  (** tbpm.f90:192-351 tbpm_accond; cF and cO are the arrays coef_F and
      coef_omF (see M_fermi).  One list of four values for each time; those of
      the first time are calculated and not stored. *)
  Definition tbpm_accond (bes : list E) (cF cO : list E) (m : spm E) (resc : E) (dx dy : list E) (seed nt ns rank chk : Z) :
      res (list (list E)) :=
    let jx := current m resc dx in let jy := current m resc dy in
    over_samples seed ns rank (fun wf0 corr =>
      bind (csr_mv jx wf0) (fun px => bind (csr_mv jy wf0) (fun py =>
      bind (fermi_op m cO px) (fun px => bind (fermi_op m cO py) (fun py =>
      bind (fermi_op m cF wf0) (fun p2 =>
      bind (four jx jy px py p2) (fun _ =>
      let ref := inner p2 p2 in
      time_loop chk (fun w : list E * list E * list E => check_norm (snd w) ref)
        (fun w => let '(px, py, p2) := w in
           bind (step m bes px true) (fun px => bind (step m bes py true) (fun py => bind (step m bes p2 true) (fun p2 => Ok (px, py, p2)))))
        (fun w => let '(px, py, p2) := w in
           bind (four jx jy px py p2) (fun v => Ok (fun c => zip sadd c (map (per ns) v)))) 1 2 nt (px, py, p2) corr)))))))
      (repeat [s0; s0; s0; s0] (Z.to_nat nt)).

  (** tbpm.f90:354-493 tbpm_dyn_pol: for each q-point the list over time.  The
      density operators (funcs.f90:125-149 density_coef) are given as lists of
      exp(i q.r) and exp(-i q.r). *)
  Definition dyn_pol_q (bes : list E) (cF cO : list E) (m : spm E) (dq : list E * list E) (seed nt ns rank chk : Z) : res (list E) :=
    over_samples seed ns rank (fun wf0 corr =>
      bind (fermi_op m cO (pmul (snd dq) wf0)) (fun p1 =>
      bind (fermi_op m cF wf0) (fun p2 =>
      bind (upd (fun c => sadd c (per ns (im (inner p2 (pmul (fst dq) p1))))) corr 0) (fun corr =>
      let ref := inner p2 p2 in
      time_loop chk (fun w : list E * list E => check_norm (snd w) ref)
        (fun w => bind (step m bes (fst w) true) (fun p1 => bind (step m bes (snd w) true) (fun p2 => Ok (p1, p2))))
        (fun w => Ok (fun c => sadd c (per ns (im (inner (snd w) (pmul (fst dq) (fst w))))))) 1 2 nt (p1, p2) corr))))
      (repeat s0 (Z.to_nat nt)).
  Definition tbpm_dyn_pol (bes : list E) (cF cO : list E) (m : spm E) (qs : list (list E * list E)) (seed nt ns rank chk : Z) :
      res (list (list E)) :=
    mapM (fun dq => dyn_pol_q bes cF cO m dq seed nt ns rank chk) qs.

  (** tbpm.f90:896-908: the vectors T_j(H) wf_in.  wf_DimKern starts unset
      (here: empty vectors). *)
  Definition kern_vectors (m : spm E) (nk : Z) (x : list E) : res (list (list E)) :=
    bind (wr (repeat [] (Z.to_nat nk)) 0 x) (fun w =>
    bind (csr_mv m x) (fun y => bind (wr w 1 y) (fun w =>
    loop (fun w j =>
      bind (rd w (j - 1)) (fun u => bind (csr_mv m u) (fun y =>
      bind (rd w (j - 2)) (fun v =>
      wr w j (zip (fun a b => sadd (smul (sopp s1) a) (smul two b)) v y))))) (span (2, nk)) w))).
  (** tbpm.f90:911-924; direction: 1 for xx, 2 for xy. *)
  Definition kern_currents (jx jy : spm E) (dir : Z) (w : list (list E)) : res (list (list E)) :=
    if dir =? 1 then mapM (csr_mv jx) w else if dir =? 2 then mapM (csr_mv jy) w else Err RuntimeError.
  (** tbpm.f90:926-954: one row of corr_mu for each i. *)
  Definition kern_moments (m jx : spm E) (nk : Z) (w : list (list E)) (x : list E) : res (list (list E)) :=
    bind (csr_mv jx x) (fun w0 =>
    bind (wr (repeat [] (Z.to_nat nk)) 0 (map (inner w0) w)) (fun mu =>
    bind (csr_mv m w0) (fun w1 =>
    bind (wr mu 1 (map (inner w1) w)) (fun mu =>
    bind (loop (fun (st : list (list E) * Z * Z * list (list E)) i => let '(bf, p0, p1, mu) := st in
            let p2 := p0 in
            bind (rd bf p1) (fun u => bind (rd bf p0) (fun v =>
            bind (amxpby two m u (sopp s1) v) (fun v' =>
            bind (wr bf p0 v') (fun bf =>
            bind (rd bf p2) (fun y =>
            bind (wr mu i (map (inner y) w)) (fun mu =>
            Ok (bf, p1, p2, mu)))))))) (span (2, nk)) ([w0; w1], 0, 1, mu)) (fun st =>
    Ok (snd st)))))).
  (** tbpm.f90:836-960 tbpm_kbdc; g is the array of the Jackson kernel. *)
  Definition tbpm_kbdc (g : list E) (m : spm E) (resc : E) (dx dy : list E) (seed ns nk dir rank : Z) : res (list (list E)) :=
    let jx := current m resc dx in let jy := current m resc dy in
    over_samples seed ns rank (fun wf avg =>
      bind (kern_vectors m nk wf) (fun w =>
      bind (kern_currents jx jy dir w) (fun w =>
      bind (kern_moments m jx nk w wf) (fun mu =>
      Ok (map (fun q : (list E * E) * list E => let '(row, gi, mrow) := q in
                 zip sadd row (zip (fun gj c => per ns (smul (smul gi gj) c)) g mrow))
              (combine (combine avg g) mu))))))
      (repeat (repeat s0 (Z.to_nat nk)) (Z.to_nat nk)).

  (** tbpm.f90:764-803 (and 589-637): the quasi-eigenstates of one sample.  The
      phases exp(i E t dt) of each energy and the window are functions of t. *)
  Definition quasi_states (bes : list E) (m : spm E) (wdw : Z -> E) (ph : list (Z -> E)) (nt chk : Z) (wf0 : list E) : res (list (list E)) :=
    let ref := inner wf0 wf0 in
    bind (loop (fun (st : list E * list E * list (list E)) t => let '(pos, neg, qs) := st in
            bind (if t =? chk then bind (check_norm pos ref) (fun _ => check_norm neg ref) else Ok tt) (fun _ =>
            bind (step m bes pos true) (fun pos =>
            bind (step m bes neg false) (fun neg =>
            Ok (pos, neg, map (fun q : (Z -> E) * list E =>
                  zip (fun a b => sadd a (smul (smul (conj (fst q t)) b) (wdw t)))
                      (zip (fun a b => sadd a (smul (smul (fst q t) b) (wdw t))) (snd q) pos) neg) (combine ph qs))))))
          (span (1, nt + 1)) (wf0, wf0, map (fun _ => wf0) ph)) (fun st =>
    mapM (fun q => num (pdiv inv is0 q (norm conj re sqrt q))) (snd st)).
  (** tbpm.f90:720-830 tbpm_eigenstates: one row for each energy. *)
  Definition tbpm_eigenstates (bes : list E) (m : spm E) (wdw : Z -> E) (ph : list (Z -> E)) (n : nat) (seed nt ns rank chk : Z) :
      res (list (list E)) :=
    over_samples seed ns rank (fun wf0 avg =>
      bind (quasi_states bes m wdw ph nt chk wf0) (fun qs =>
      Ok (map (fun p => zip (fun a q => sadd a (per ns (smul (conj q) q))) (fst p) (snd p)) (combine avg qs))))
      (repeat (repeat s0 n) (length ph)).

  (** tbpm.f90:1029-1093 tbpm_psi_t; None marks columns that are not set. *)
  Definition tbpm_psi_t (bes : list E) (m : spm E) (psi0 : list E) (log : list Z) (nt chk : Z) : res (list (option (list E))) :=
    let ref := inner psi0 psi0 in
    bind (loop (fun (st : list E * Z * list (option (list E))) t => let '(wt, ptr, out) := st in
            bind (rd log ptr) (fun want =>
            bind (if want =? t - 1
                  then bind (wr out ptr (Some wt)) (fun out =>
                       Ok (if ptr + 1 <? Z.of_nat (length log) then ptr + 1 else ptr, out))
                  else Ok (ptr, out)) (fun po =>
            bind (if t =? chk then check_norm wt ref else Ok tt) (fun _ =>
            bind (step m bes wt true) (fun wt =>
            Ok (wt, fst po, snd po))))))
          (span (1, nt + 1)) (psi0, 0, repeat None (length log))) (fun st => let '(wt, ptr, out) := st in
    bind (rd log ptr) (fun want =>
    if want =? nt then wr out ptr (Some wt) else Ok out)).

  (** ** solver.py *)
  (** solver.py:155-173 _dist_sample: the new nr_random_samples and the number
      for this process. *)
  Fixpoint grow (fuel : nat) (n size : Z) : res Z :=
    match fuel with
    | O => Err OutOfFuel
    | S f => if n mod size =? 0 then Ok n else grow f (n + 1) size
    end.
  Definition dist_sample (mpi : bool) (size n : Z) : res (Z * Z) :=
    if mpi then bind (grow (S (Z.to_nat size)) n size) (fun n' => Ok (n', n' / size)) else Ok (n, n).

  (** solver.py:194-224 _get_bessel_series; [jv i] is jv(i, time_scaled) and
      [gt]: abs(x) > Bessel_precision. *)
  Fixpoint bessel_from (jv : Z -> E) (gt : E -> bool) (fuel : nat) (i : Z) : option (list E) :=
    match fuel with
    | O => None
    | S f =>
      if gt (jv i) || gt (jv (i + 1))
      then match bessel_from jv gt f (i + 1) with Some l => Some (jv i :: l) | None => None end
      else Some []
    end.
  Definition bessel_series (jv : Z -> E) (gt : E -> bool) (bessel_max : Z) : res (list E) :=
    match bessel_from jv gt (Z.to_nat bessel_max) 0 with Some l => Ok l | None => Err ValueError end.

  (** solver.py:543-600 calc_psi_t; numpy.linalg.norm is [norm].  A zero state
      gives NaN; the model stops. *)
  Definition calc_psi_t (size : Z) (jv : Z -> E) (gt : E -> bool) (bessel_max : Z) (m : spm E) (psi0 : list E) (log : list Z) (nt chk : Z) :
      res (list (option (list E))) :=
    if negb (size =? 1) then Err RuntimeError else
    bind (num (pdiv inv is0 psi0 (norm conj re sqrt psi0))) (fun psi0 =>
    let log := sorted_set log in
    if existsb (fun t => negb ((0 <=? t) && (t <? nt + 1))) log then Err ValueError else
    bind (bessel_series jv gt bessel_max) (fun bes =>
    tbpm_psi_t bes m psi0 log nt chk)).

  (** The calls f2py.tbpm_xxx on all ranks followed by all_average,
      solver.py:256-505: calc_corr_dos, calc_corr_ldos, calc_corr_ac_cond,
      calc_corr_dyn_pol, calc_corr_dc_cond, calc_hall_mu and
      calc_quasi_eigenstates.  [run rank ns] is the Fortran subroutine, its
      result an array. *)
  Definition sampled {I} (mpi : bool) (size n : Z) (run : Z -> Z -> res (arr I E)) : res (Z * list (arr I E)) :=
    bind (dist_sample mpi size n) (fun q =>
    bind (mapM (fun rank => run rank (snd q)) (ranks size)) (fun l =>
    Ok (fst q, all_average inv mpi l))).
  (** solver.py:256-284 calc_corr_dos. *)
  Definition as_array (l : list E) : arr Z E := fun t => nth (Z.to_nat t) l s0.
  Definition calc_corr_dos (mpi : bool) (size n : Z) (jv : Z -> E) (gt : E -> bool) (bessel_max : Z) (m : spm E) (seed nt chk : Z) :
      res (Z * list (arr Z E)) :=
    bind (bessel_series jv gt bessel_max) (fun bes =>
    sampled mpi size n (fun rank ns => bind (tbpm_dos bes m seed nt ns rank chk) (fun l => Ok (as_array l)))).
  (** solver.py:286-315 calc_corr_ldos. *)
  Definition calc_corr_ldos (mpi : bool) (size n : Z) (sites : list Z) (jv : Z -> E) (gt : E -> bool) (bessel_max : Z) (m : spm E) (seed nt chk : Z) :
      res (Z * list (arr Z E)) :=
    bind (bessel_series jv gt bessel_max) (fun bes =>
    sampled mpi size n (fun rank ns => bind (tbpm_ldos sites bes m seed nt ns rank chk) (fun l => Ok (as_array l)))).
  Definition as_array2 (l : list (list E)) : arr (Z * Z) E := fun p => nth (Z.to_nat (snd p)) (nth (Z.to_nat (fst p)) l []) s0.
  (** solver.py:317-352 calc_corr_ac_cond: the array of shape (4, nt). *)
  Definition calc_corr_ac_cond (mpi : bool) (size n : Z) (jv : Z -> E) (gt : E -> bool) (bessel_max : Z) (cF cO : list E) (m : spm E) (resc : E) (dx dy : list E) (seed nt chk : Z) :
      res (Z * list (arr (Z * Z) E)) :=
    bind (bessel_series jv gt bessel_max) (fun bes =>
    sampled mpi size n (fun rank ns => bind (tbpm_accond bes cF cO m resc dx dy seed nt ns rank chk) (fun l => Ok (fun p => as_array2 l (snd p, fst p))))).
  (** solver.py:354-391 calc_corr_dyn_pol. *)
  Definition calc_corr_dyn_pol (mpi : bool) (size n : Z) (jv : Z -> E) (gt : E -> bool) (bessel_max : Z) (cF cO : list E) (m : spm E) (qs : list (list E * list E)) (seed nt chk : Z) :
      res (Z * list (arr (Z * Z) E)) :=
    bind (bessel_series jv gt bessel_max) (fun bes =>
    sampled mpi size n (fun rank ns => bind (tbpm_dyn_pol bes cF cO m qs seed nt ns rank chk) (fun l => Ok (as_array2 l)))).
  (** solver.py:443-470 calc_hall_mu. *)
  Definition calc_hall_mu (mpi : bool) (size n : Z) (g : list E) (m : spm E) (resc : E) (dx dy : list E) (seed nk dir : Z) :
      res (Z * list (arr (Z * Z) E)) :=
    sampled mpi size n (fun rank ns => bind (tbpm_kbdc g m resc dx dy seed ns nk dir rank) (fun l => Ok (as_array2 l))).
  (** solver.py:472-505 calc_quasi_eigenstates. *)
  Definition calc_quasi_eigenstates (mpi : bool) (size n : Z) (jv : Z -> E) (gt : E -> bool) (bessel_max : Z) (m : spm E) (wdw : Z -> E) (ph : list (Z -> E)) (norb : nat) (seed nt chk : Z) :
      res (Z * list (arr (Z * Z) E)) :=
    bind (bessel_series jv gt bessel_max) (fun bes =>
    sampled mpi size n (fun rank ns => bind (tbpm_eigenstates bes m wdw ph norb seed nt ns rank chk) (fun l => Ok (as_array2 l)))).
End Tbpm.
