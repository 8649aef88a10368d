(** Model of the DC conductivity: fortran/tbpm.f90:497-718 tbpm_dccond,
    tbpm/solver.py:393-441 calc_corr_dc_cond and tbpm/analysis.py:375-511
    calc_dc_cond and calc_diff_coeff.  Numbers are exact; arrays are counted
    from 0.  Output for DEBUG builds, printing and saved files are left out. *)
From Coq Require Import Reals.
From Verif Require Import Prelude Vec Cx M_super M_sample M_par M_prop M_tbpm M_fft M_ana.
Local Open Scope Z_scope.

Section Dc.
  Context {E : Type} {SE : Scalar E}.
  (** As in M_tbpm; abs: the modulus, as a real element. *)
  Context (conj : E -> E) (img : E) (inv : E -> E) (is0 : E -> bool) (re sqrt abs : E -> E) (bad : E -> E -> bool).
  Context (state : Z -> list E).
  Notation step := (cheb_wf_timestep img).
  Notation inner := (inner_prod conj).

  (** tbpm.f90:596-648: correlation for the DOS and quasi-eigenstates of one
      sample.  wdw t is the Hanning window, ph the list of exp(i E t dt). *)
  Definition dc_quasi (bes : list E) (m : spm E) (wdw : Z -> E) (ph : list (Z -> E)) (nt ns chk : Z) (wf0 dos : list E) : res (list E * list (list E)) :=
    let ref := inner wf0 wf0 in
    bind (loop (fun (st : list E * list E * list (list E) * list E) t => let '(pos, neg, qs, dos) := st in
            bind (if t =? chk then bind (check_norm conj bad pos ref) (fun _ => check_norm conj bad neg ref) else Ok tt) (fun _ =>
            bind (step m bes pos true) (fun pos =>
            bind (step m bes neg false) (fun neg =>
            bind (upd (fun c => sadd c (per inv ns (inner wf0 pos))) dos (t - 1)) (fun dos =>
            Ok (pos, neg, map (fun q : (Z -> E) * list E =>
                  zip (fun a b => sadd a (smul (smul (conj (fst q t)) b) (wdw t)))
                      (zip (fun a b => sadd a (smul (smul (fst q t) b) (wdw t))) (snd q) pos) neg) (combine ph qs), dos))))))
          (span (1, nt + 1)) (wf0, wf0, map (fun _ => wf0) ph, dos)) (fun st => let '(pos, neg, qs, dos) := st in
    bind (mapM (fun q => num (pdiv inv is0 q (norm conj re sqrt q))) qs) (fun qs =>
    Ok (dos, qs))).

  (** tbpm.f90:658-673 and 681-697: for each energy, the two values added to the
      correlation function at one time.  [slice] is dc_corr(:, :, t). *)
  Definition dc_add (jx jy : spm E) (ns : Z) (wf0 : list E) (qs : list (list E)) (jw : list E * list E) (slice : list (list E)) : res (list (list E)) :=
    loop (fun slice (iq : Z * list E) =>
      bind (num (pdiv inv is0 (snd iq) (abs (inner wf0 (snd iq))))) (fun wfe =>
      bind (csr_mv jx wfe) (fun ex => bind (csr_mv jy wfe) (fun ey =>
      let v := [inner (fst jw) ex; inner (snd jw) ey] in
      upd (fun c => zip sadd c (map (per inv ns) v)) slice (fst iq)))))
      (combine (zrange (length qs)) qs) slice.

  (** tbpm.f90:497-718 tbpm_dccond.  The array dc_corr is a list over time of
      lists over n_energies of two values, the order of its memory.  The
      arguments beta and mu are not used there. *)
  Definition tbpm_dccond (bes : list E) (m : spm E) (resc : E) (dx dy : list E) (wdw : Z -> E) (ph : list (Z -> E)) (n_energies seed nt ns rank chk : Z) :
      res (list E * list (list (list E))) :=
    let jx := current img m resc dx in let jy := current img m resc dy in
    over_samples state seed ns rank (fun wf0 (corr : list E * list (list (list E))) =>
      bind (dc_quasi bes m wdw ph nt ns chk wf0 (fst corr)) (fun dq => let '(dos, qs) := dq in
      bind (csr_mv jx wf0) (fun wx => bind (csr_mv jy wf0) (fun wy =>
      bind (rd (snd corr) 0) (fun s0' => bind (dc_add jx jy ns wf0 qs (wx, wy) s0') (fun s0' => bind (wr (snd corr) 0 s0') (fun dc =>
      bind (loop (fun (st : list E * list E * list (list (list E))) t => let '(wx, wy, dc) := st in
              bind (step m bes wx true) (fun wx => bind (step m bes wy true) (fun wy =>
              bind (rd dc (t - 1)) (fun sl => bind (dc_add jx jy ns wf0 qs (wx, wy) sl) (fun sl => bind (wr dc (t - 1) sl) (fun dc =>
              Ok (wx, wy, dc))))))) (span (2, nt + 1)) (wx, wy, dc)) (fun st =>
      Ok (dos, snd st)))))))))
      (repeat s0 (Z.to_nat nt), repeat (repeat [s0; s0] (Z.to_nat n_energies)) (Z.to_nat nt)).

  (** solver.py:393-441 calc_corr_dc_cond: both arrays on every process; an
      index is a time, or direction, energy and time. *)
  Definition as_dc (c : list E * list (list (list E))) : arr (Z + Z * Z * Z) E := fun i =>
    match i with
    | inl t => nth (Z.to_nat t) (fst c) s0
    | inr (d, e, t) => nth (Z.to_nat d) (nth (Z.to_nat e) (nth (Z.to_nat t) (snd c) []) []) s0
    end.
  Definition calc_corr_dc_cond (mpi : bool) (size n : Z) (jv : Z -> E) (gt : E -> bool) (bessel_max : Z) (m : spm E) (resc : E) (dx dy : list E)
      (wdw : Z -> E) (ph : list (Z -> E)) (n_energies seed nt chk : Z) : res (Z * list (arr (Z + Z * Z * Z) E)) :=
    bind (bessel_series jv gt bessel_max) (fun bes =>
    sampled inv mpi size n (fun rank ns => bind (tbpm_dccond bes m resc dx dy wdw ph n_energies seed nt ns rank chk) (fun c => Ok (as_dc c)))).
End Dc.

(** ** Energies *)
(** solver.py:406-407 and analysis.py:486-487: energies_dos. *)
Definition dc_energies (tnr : Z) (en_range : R) : list R :=
  map (fun i => (1 / 2 * IZR i * en_range / IZR tnr - en_range / 2)%R) (zrange (Z.to_nat (tnr * 2))).
(** numpy.where((energies >= lo) & (energies <= hi))[0] *)
Definition rleb (a b : R) : bool := if Rle_dec a b then true else false.
Definition np_where (lo hi : R) (en : list R) : list Z :=
  map fst (filter (fun p => rleb lo (snd p) && rleb (snd p) hi) (combine (zrange (length en)) en)).
(** tbpm.f90:626 and 630: window and phases of the selected energies.
    en_inds comes from numpy.where, so that it stays within the array. *)
Definition dc_window (nt t : Z) : Cplx := Cre (1 / 2 * (1 + cos (PI * IZR t / IZR nt))).
Definition dc_phases (en : list R) (inds : list Z) (t_step : R) : res (list (Z -> Cplx)) :=
  mapM (fun i => bind (rd en i) (fun e => Ok (fun t => Ccis (e * IZR t * t_step)))) inds.

(** ** Complex numbers of the program *)
Definition cinv (z : Cplx) : Cplx := (fst z / (fst z * fst z + snd z * snd z), - snd z / (fst z * fst z + snd z * snd z))%R.
Definition c_is0 (z : Cplx) : bool := is_zero (fst z) && is_zero (snd z).
Definition c_re (z : Cplx) : Cplx := Cre (fst z).
Definition c_sqrt (z : Cplx) : Cplx := Cre (sqrt (fst z)).
Definition c_abs (z : Cplx) : Cplx := Cre (cabs z).
Definition c_img : Cplx := (0, 1)%R.
(** solver.py:175-182 _get_time_step; calc_corr_ac_cond and calc_corr_dyn_pol
    use half of it (solver.py:327 and 362). *)
Definition time_step (en_range : R) : R := (2 * PI / en_range)%R.

(** solver.py:393-441 calc_corr_dc_cond with the limits of the configuration. *)
Definition corr_dc_cond (bad : Cplx -> Cplx -> bool) (state : Z -> list Cplx) (mpi : bool) (size n : Z) (jv : Z -> Cplx) (gt : Cplx -> bool) (bessel_max : Z)
    (m : spm Cplx) (resc : R) (dx dy : list R) (en_range lo hi : R) (seed tnr chk : Z) : res (Z * list (arr (Z + Z * Z * Z) Cplx)) :=
  let en := dc_energies tnr en_range in
  bind (dc_phases en (np_where lo hi en) (time_step en_range)) (fun ph =>
  calc_corr_dc_cond Cconj c_img cinv c_is0 c_re c_sqrt c_abs bad state mpi size n jv gt bessel_max m (Cre resc) (map Cre dx) (map Cre dy)
    (dc_window tnr) ph (Z.of_nat (length en)) seed tnr chk).

(** ** analysis.py *)
(** corr_dc.item(i, j, k) *)
Definition item3 (corr : list (list (list Cplx))) (i j k : Z) : res Cplx :=
  bind (rd corr i) (fun a => bind (rd a j) (fun b => rd b k)).
(** analysis.py:446-449 and 502-505: w * (c_exp * corr_dc.item(i, j, k)).real *)
Definition dc_term (window : Z -> Z -> R) (tnr : Z) (t_step en : R) (k : Z) (c : Cplx) : R :=
  let phi := (IZR k * t_step * en)%R in
  (window (k + 1)%Z tnr * fst (Cmul (cos phi, - sin phi)%R c))%R.
(** analysis.py:375-458 calc_dc_cond on the master process; [size] is
    area_unit_cell for dimension 2, else volume_unit_cell. *)
Definition calc_dc_cond (window_dos window_dc : Z -> Z -> R) (tnr : Z) (en_range norb size lo hi : R) (spin : bool)
    (corr_dos : list Cplx) (corr_dc : list (list (list Cplx))) : res (list R * list (list R)) :=
  bind (calc_dos window_dos tnr en_range spin (Cre 1 :: corr_dos)) (fun ed => let '(energies_dos, dos) := ed in
  let t_step := (2 * PI / en_range)%R in
  let inds := np_where lo hi energies_dos in
  bind (mapM (rd energies_dos) inds) (fun energies =>
  bind (mapM (fun i => mapM (fun j =>
          bind (rd energies j) (fun en =>
          bind (rd inds j) (fun q => bind (rd dos q) (fun dos_val =>
          bind (mapM (fun k => bind (item3 corr_dc i j k) (fun c => Ok (dc_term window_dc tnr t_step en k c))) (zrange (Z.to_nat tnr))) (fun l =>
          let v := (dc_prefactor norb size 1 * t_step * dos_val * esum l)%R in
          Ok (if spin then (2 * v)%R else v)))))) (zrange (length inds))) [0; 1]) (fun dc =>
  Ok (energies, dc)))).

(** scipy.integrate.trapz(y, x) *)
Definition trapz (y x : list R) : R :=
  esum (map (fun i => ((nth (S i) x 0 - nth i x 0) * (nth (S i) y 0 + nth i y 0) / 2)%R) (seq 0 (length y - 1))).
(** analysis.py:460-511 calc_diff_coeff on the master process. *)
Definition calc_diff_coeff (window_dc : Z -> Z -> R) (tnr : Z) (en_range lo hi : R) (corr_dc : list (list (list Cplx))) : res (list R * list (list (list R))) :=
  let t_step := (2 * PI / en_range)%R in
  let energies := dc_energies tnr en_range in
  let inds := np_where lo hi energies in
  bind (mapM (rd energies) inds) (fun energies =>
  let time := map (fun k => (IZR k * t_step)%R) (zrange (Z.to_nat tnr)) in
  bind (mapM (fun i => mapM (fun j =>
          bind (rd energies j) (fun en =>
          bind (mapM (fun k => bind (item3 corr_dc i j k) (fun c => Ok (dc_term window_dc tnr t_step en k c))) (zrange (Z.to_nat tnr))) (fun temp =>
          Ok (map (fun k2 => trapz (firstn (S (Z.to_nat k2)) temp) (firstn (S (Z.to_nat k2)) time)) (zrange (Z.to_nat tnr)))))) (zrange (length inds))) [0; 1]) (fun diff =>
  Ok (time, diff))).
