(** Kernel polynomials, Fermi operator and the analysis of correlation
    functions: tbplas/fortran/kpm.f90, funcs.f90, analysis.f90 and
    tbplas/tbpm/analysis.py.  Over the real numbers. *)
From Coq Require Import Reals.
From Verif Require Import Prelude Vec Cx M_super M_sample M_par M_fft.
Local Open Scope Z_scope.

(** ** kpm.f90 *)
(** kpm.f90:10-29 jackson_kernel.  Zero elements: g_J(0) is out of bounds. *)
Definition jackson_kernel (n : Z) : res (list R) :=
  if n <=? 0 then Err IndexError else
  let q := (PI / IZR n)%R in let cotq := (cos q / sin q)%R in
  Ok (map (fun k => if k =? 0 then (1 / 2)%R else ((IZR (n - k) * cos (q * IZR k) + cotq * sin (q * IZR k)) / IZR n)%R) (zrange (Z.to_nat n))).

(** kpm.f90:32-56 get_gamma_mn, element (i, j). *)
Definition gamma_mn (x : R) (i j : Z) : Cplx :=
  Cadd (Cmul (Cmul (cos x, (- IZR j * sin x)%R) (Cre (cos (IZR i * x)%R))) (Ccis (IZR j * x)%R))
       (Cmul (Cmul (cos x, (IZR i * sin x)%R) (Cre (cos (IZR j * x)%R))) (Ccis (- IZR i * x)%R)).

(** ** funcs.f90 *)
(** funcs.f90:36-57 Fermi_dist.  The argument eps is not used. *)
Definition Fermi_dist (beta Ef energy : R) : R :=
  if Rle_dec Ef energy then let x := exp (beta * (Ef - energy)) in (x / (1 + x))%R
  else let x := exp (beta * (energy - Ef)) in (1 / (1 + x))%R.

(** The exponential of fft.F90. *)
Definition cexp (k m : Z) : Cplx := Ccis (2 * PI / IZR m * IZR k)%R.
Definition small (eps x : R) : bool := if Rlt_dec (Rabs x) eps then true else false.
(** funcs.f90:117-122: the first i with two small values, else n_cheb. *)
Fixpoint cut (eps : R) (coef : list R) (i : nat) (todo : nat) : res nat :=
  match todo with
  | O => Ok i
  | S t => bind (rd coef (Z.of_nat i)) (fun a => bind (rd coef (Z.of_nat i + 1)) (fun b =>
           if small eps a && small eps b then Ok (S i) else cut eps coef (S i) t))
  end.
(** funcs.f90:60-123 get_Fermi_cheb_coef: coef(1:n_cheb) as the callers use it.
    [junk i] is what the memory of cheb_coef holds beyond n_cheb, which the
    last loop reads. *)
Definition fermi_cheb_coef (junk : nat -> R) (nr : Z) (beta mu : R) (one_minus : bool) (eps : R) : res (list R) :=
  let r0 := (2 * PI / IZR nr)%R in
  let f := map (fun i => let energy := cos (IZR i * r0) in
                 Cre (if one_minus then (1 - Fermi_dist beta mu energy)%R else Fermi_dist beta mu energy)) (zrange (Z.to_nat nr)) in
  bind (fft1d cexp (-1) f) (fun c =>
  let n := nr / 2 in
  bind (jackson_kernel n) (fun kernel =>
  bind (mapM (fun i => bind (rd kernel i) (fun k => bind (rd c i) (fun v => Ok (k * fst v / IZR n)%R))) (zrange (Z.to_nat n))) (fun coef =>
  let mem := coef ++ map junk (seq (length coef) (Z.to_nat nr - length coef)) in
  bind (cut eps mem 0 (Z.to_nat n)) (fun k => Ok (firstn k coef))))).

(** ** analysis.f90 *)
(** analysis.f90:6-69 cond_from_trace.  [mu_mn] is the array of moments, here a
    function of indices from 0. *)
Definition cond_from_trace (mu_mn : Z -> Z -> Cplx) (nk : Z) (mus : list R) (resc beta : R) (ne : Z) : list R :=
  let dE := (PI / IZR ne)%R in
  let ks := map (fun k => k + 1) (zrange (Z.to_nat (ne - 1))) in
  let sum_gamma_mu := fun k => esum (map (fun j => esum (map (fun i => fst (Cmul (gamma_mn (IZR k * dE) i j) (mu_mn i j))) (zrange (Z.to_nat nk)))) (zrange (Z.to_nat nk))) in
  map (fun mu => esum (map (fun k => (sum_gamma_mu k * Fermi_dist beta mu (cos (IZR k * dE) * resc) * dE / (sin (IZR k * dE)) ^ 3)%R) ks)) mus.

(** ** analysis.py *)
(** analysis.py:20-28 window_hanning *)
Definition window_hanning (i tnr : Z) : R := (1 / 2 * (1 + cos (PI * IZR i / IZR tnr)))%R.
(** analysis.py:31-39 window_exp *)
Definition window_exp (i tnr : Z) : R := exp (-2 * (IZR i / IZR tnr) ^ 2).

(** numpy.fft.ifft *)
Definition np_ifft (x : list Cplx) : list Cplx :=
  let n := length x in
  map (fun k => Cmul (Cre (/ INR n)) (esum (map (fun j => Cmul (nth j x s0) (Ccis (2 * PI * INR j * INR k / INR n)%R)) (seq 0 n)))) (seq 0 n).
Definition cabs (z : Cplx) : R := sqrt (fst z * fst z + snd z * snd z).
(** All values of an array of numpy.empty; what was never written is garbage. *)
Definition filled {A} (l : list (option A)) : res (list A) :=
  mapM (fun o => match o with Some v => Ok v | None => Err RuntimeError end) l.
Definition is_zero (x : R) : bool := if Req_EM_T x 0 then true else false.

(** analysis.py:89-143 calc_dos on the master process: energies and DOS.  A sum
    of zero gives an array of NaN; the model stops. *)
Definition calc_dos (window : Z -> Z -> R) (tnr : Z) (en_range : R) (spin : bool) (corr : list Cplx) : res (list R * list R) :=
  let n2 := 2 * tnr in
  let en_step := (1 / 2 * en_range / IZR tnr)%R in
  let energies := map (fun i => (1 / 2 * IZR i * en_range / IZR tnr - en_range / 2)%R) (zrange (Z.to_nat n2)) in
  let dos := repeat 0%R (Z.to_nat n2) in
  let c := repeat (@None Cplx) (Z.to_nat n2) in
  bind (rd corr 0) (fun c0 =>
  bind (wr c (tnr - 1) (Some c0)) (fun c =>
  bind (rd corr tnr) (fun cl =>
  bind (wr c (2 * tnr - 1) (Some (Cmul (Cre (window (tnr - 1) tnr)) cl))) (fun c =>
  bind (loop (fun c i =>
          bind (rd corr (i + 1)) (fun v =>
          bind (wr c (tnr + i) (Some (Cmul (Cre (window i tnr)) v))) (fun c =>
          wr c (tnr - i - 2) (Some (Cmul (Cre (window i tnr)) (Cconj v))))))
        (span (0, tnr - 1)) c) (fun c =>
  bind (filled c) (fun c =>
  let f := np_ifft c in
  bind (loop (fun dos i => bind (rd f i) (fun v => wr dos (i + tnr) (cabs v))) (span (0, tnr)) dos) (fun dos =>
  bind (loop (fun dos i => bind (rd f i) (fun v => wr dos (i - tnr) (cabs v))) (span (tnr, 2 * tnr)) dos) (fun dos =>
  let d := (esum dos * en_step)%R in
  if is_zero d then Err ZeroDivisionError else
  let dos := map (fun v => (v / d)%R) dos in
  Ok (energies, if spin then map (fun v => (2 * v)%R) dos else dos))))))))).

(** analysis.py:206-224, the real part of one component of calc_ac_cond on the
    master process.  [prefactor]: nr_orbitals / (cell size * extended). *)
Definition ac_real (window : Z -> Z -> R) (prefactor beta en_range : R) (tnr : Z) (corr : list Cplx) : res (list R) :=
  let t_step := (PI / en_range)%R in
  mapM (fun i =>
    let omega := (IZR i * en_range / IZR tnr)%R in
    bind (mapM (fun k => bind (rd corr k) (fun v => Ok (2 * window (k + 1)%Z tnr * sin (omega * IZR k * t_step) * snd v)%R)) (zrange (Z.to_nat tnr))) (fun l =>
    Ok (if is_zero omega then 0%R else (prefactor * t_step * esum l * (exp (- beta * omega) - 1) / omega)%R))) (zrange (Z.to_nat tnr)).

(** analysis.py:196-203, 276-283, 431-437 and 549-554: the factors by which
    sums are multiplied in calc_ac_cond, calc_dyn_pol, calc_dc_cond and
    calc_hall_cond; [size] is area_unit_cell or volume_unit_cell. *)
Definition ac_prefactor (norb size extended : R) : R := (norb / (size * extended))%R.
Definition dyn_pol_prefactor (norb size extended : R) : R := (2 * norb / (size * extended))%R.
Definition dc_prefactor (norb size extended : R) : R := (norb / size)%R.
Definition hall_prefactor (en_range : R) (norb size extended : R) : R := (16 * norb / (PI * en_range ^ 2) / size)%R.
