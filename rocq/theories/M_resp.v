(** Model of the response functions of tbplas/tbpm/analysis.py: calc_ac_cond,
    calc_dyn_pol, calc_epsilon, calc_epsilon_q0 and calc_hall_cond, on the master
    process; bcast copies the result.  Over the real numbers. *)
From Coq Require Import Reals String.
From Verif Require Import Prelude Vec Cx M_super M_sample M_par M_fft M_ana.
Local Open Scope Z_scope.

(** analysis.py:42-51 window_exp_ten *)
Definition window_exp_ten (i tnr : Z) : R := Rpower 10 (-2 * (1 * IZR i / IZR tnr) ^ 2).

(** analysis.py:67-87 __init__: the dimension is checked after the parameters. *)
Definition analyzer_init (params_ok : res unit) (dimension : Z) : res Z :=
  bind params_ok (fun _ => if (dimension =? 2) || (dimension =? 3) then Ok dimension else Err ValueError).

(** numpy.fft.fft *)
Definition np_fft (x : list Cplx) : list Cplx :=
  let n := List.length x in
  map (fun k => esum (map (fun j => Cmul (nth j x s0) (Ccis (- (2 * PI * INR j * INR k / INR n))%R)) (seq 0 n))) (seq 0 n).
(** scipy.signal.hilbert of a real array: the transform with positive
    frequencies doubled and negative ones dropped. *)
Definition hilbert_weight (n k : nat) : R :=
  if Nat.even n then (if (k =? 0)%nat || (k =? n / 2)%nat then 1 else if (k <? n / 2)%nat then 2 else 0)%R
  else (if (k =? 0)%nat then 1 else if (k <? (n + 1) / 2)%nat then 2 else 0)%R.
Definition hilbert (x : list R) : res (list Cplx) :=
  if (List.length x =? 0)%nat then Err ValueError else
  let f := np_fft (map Cre x) in
  Ok (np_ifft (map (fun p => Cmul (fst p) (Cre (snd p))) (combine f (map (hilbert_weight (List.length x)) (seq 0 (List.length x)))))).

(** analysis.py:229-233: the real part to both sides of the middle, and the
    imaginary part of its transform. *)
Definition ac_imag (tnr : Z) (re : list R) : res (list R) :=
  bind (loop (fun s i => bind (rd re i) (fun v => bind (wr s (tnr + i) v) (fun s => wr s (tnr - i) v)))
        (span (0, tnr)) (repeat 0%R (Z.to_nat (2 * tnr)))) (fun sigma =>
  bind (hilbert sigma) (fun h => Ok (firstn (Z.to_nat tnr) (skipn (Z.to_nat tnr) (map snd h))))).
(** analysis.py:161-243 calc_ac_cond; [size] is area_unit_cell or
    volume_unit_cell.  The four directions are independent of each other. *)
Definition calc_ac_cond (window : Z -> Z -> R) (tnr : Z) (en_range beta norb size extended : R) (spin : bool) (corr : list (list Cplx)) : res (list R * list (list Cplx)) :=
  let omegas := map (fun i => (IZR i * en_range / IZR tnr)%R) (zrange (Z.to_nat tnr)) in
  bind (mapM (fun j => bind (rd corr j) (fun c =>
          bind (ac_real window (ac_prefactor norb size extended) beta en_range tnr c) (fun re =>
          bind (ac_imag tnr re) (fun im =>
          let s := map (fun p => (fst p, snd p)) (combine re im) in
          Ok (if spin then map (fun z => Cmul (Cre 2) z) s else s))))) (zrange 4)) (fun ac =>
  Ok (omegas, ac)).

(** analysis.py:245-308 calc_dyn_pol; the q-points of the configuration are
    returned unchanged. *)
Definition calc_dyn_pol {Q} (window : Z -> Z -> R) (tnr : Z) (en_range norb size extended : R) (spin : bool) (q_points : list Q) (corr : list (list R)) :
    res (list Q * list R * list (list Cplx)) :=
  let t_step := (PI / en_range)%R in
  let omegas := map (fun i => (IZR i * en_range / IZR tnr)%R) (zrange (Z.to_nat tnr)) in
  bind (mapM (fun iq => mapM (fun i =>
          bind (rd omegas i) (fun omega =>
          bind (mapM (fun k => bind (rd corr iq) (fun row => bind (rd row k) (fun c =>
                  let phi := (IZR k * t_step * omega)%R in
                  Ok (Cmul (Cre (window (k + 1)%Z tnr * c)) (cos phi, sin phi))))) (zrange (Z.to_nat tnr))) (fun l =>
          let v := Cmul (Cre (dyn_pol_prefactor norb size extended * t_step)) (esum l) in
          Ok (if spin then Cmul (Cre 2) v else v)))) (zrange (Z.to_nat tnr))) (zrange (List.length q_points))) (fun dp =>
  Ok (q_points, omegas, dp)).

Section Epsilon.
  (** coulomb_constant and background_dielectric_constant of the configuration,
      EPSILON0 of base/constants.py *)
  Context (eps0 coulomb back : R) (dimension : Z).
  Definition norm_of (q : R * R * R) : R := let '(x, y, z) := q in sqrt (x * x + y * y + z * z).
  (** analysis.py:310-329 _get_vq *)
  Definition get_vq (q : R * R * R) : res R :=
    if is_zero (eps0 * back) then Err ZeroDivisionError else
    let factor := (coulomb / (eps0 * back))%R in
    let qn := norm_of q in
    Ok (if is_zero qn then 0%R else if dimension =? 2 then (factor * 2 * PI / qn)%R else (factor * 4 * PI / qn ^ 2)%R).
  (** analysis.py:331-354 calc_epsilon.  Rows of length 1 would be repeated; the
      model stops, as for any other length. *)
  Definition calc_epsilon (tnr : Z) (q_points : list (R * R * R)) (dyn_pol : list (list Cplx)) : res (list (list Cplx)) :=
    mapM (fun iq => bind (get_vq (snd iq)) (fun vq => bind (rd dyn_pol (fst iq)) (fun row =>
      if negb (Z.of_nat (List.length row) =? tnr) then Err ValueError
      else Ok (map (fun p => Csub (Cre 1) (Cmul (Cre vq) p)) row)))) (combine (zrange (List.length q_points)) q_points).
  (** analysis.py:356-373 calc_epsilon_q0.  None: division by a zero frequency
      gives inf or nan. *)
  Definition calc_epsilon_q0 (omegas : list R) (ac_cond : list (list Cplx)) : res (list (list (option Cplx))) :=
    if negb (dimension =? 3) then Err ValueError else
    if is_zero (back * eps0) then Err ZeroDivisionError else
    let prefactor := (4 * PI / (back * eps0))%R in
    mapM (fun row => if negb (List.length row =? List.length omegas)%nat then Err ValueError else
      Ok (map (fun p => if is_zero (snd p) then None
                        else Some (Cadd (Cre 1) (Cmul (Cre (/ snd p)) (Cmul (Cmul (0%R, 1%R) (Cre prefactor)) (fst p))))) (combine row omegas))) ac_cond.
End Epsilon.

(** analysis.py:513-576 calc_hall_cond *)
Definition calc_hall_cond (mu_mn : Z -> Z -> Cplx) (nk : Z) (energies : list R) (en_range resc beta norb size : R) (ne : Z) (spin : bool) (unit : string) : res (list R * list R) :=
  if negb (String.eqb unit "h_bar" || String.eqb unit "h")%string then Err ValueError else
  let prefactor := hall_prefactor en_range norb size 1 in
  let prefactor := if String.eqb unit "h"%string then (prefactor * (2 * PI))%R else prefactor in
  let cond := map (fun v => (v * prefactor)%R) (cond_from_trace mu_mn nk energies resc beta ne) in
  Ok (energies, if spin then map (fun v => (v * 2)%R) cond else cond).
