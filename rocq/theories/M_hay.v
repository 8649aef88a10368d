(** Local density of states by the Haydock recursion: fortran/funcs.f90
    green_function, fortran/tbpm.f90 ldos_haydock and
    TBPMSolver.calc_ldos_haydock, over the real numbers. *)
From Coq Require Import Reals.
From Verif Require Import Prelude Vec Cx M_super M_sample M_par M_prop.
Local Open Scope Z_scope.

(** Division, zero test and root of the complex numbers. *)
Definition Cinv (z : Cplx) : Cplx := let d := (fst z * fst z + snd z * snd z)%R in ((fst z / d)%R, (- snd z / d)%R).
Definition Cis0 (z : Cplx) : bool := if Req_EM_T (fst z) 0 then (if Req_EM_T (snd z) 0 then true else false) else false.
Definition Creal (z : Cplx) : Cplx := Cre (fst z).
Definition Csqrt (z : Cplx) : Cplx := Cre (sqrt (fst z)).
Definition haydock := haydock_coef Cconj Cinv Cis0 Creal Csqrt.

(** funcs.f90:151-172 green_function; division by zero stops the model. *)
Definition green_function (energy delta : R) (coefa coefb : list Cplx) (depth : Z) : res Cplx :=
  let ec := (energy, delta) in
  loop (fun g i => bind (rd coefa (i - 1)) (fun a => bind (rd coefb (i - 1)) (fun b =>
          let den := Csub (Csub ec a) (Cmul (Cmul b b) g) in
          if Cis0 den then Err ZeroDivisionError else Ok (Cinv den))))
       (rev (map (fun i => i + 1) (zrange (Z.to_nat depth)))) (Cre 0).

(** tbpm.f90:963-1025 ldos_haydock.  [state k] is the normalised random vector of
    length n_siteind for seed k (random_state); coefb is kept complex with zero
    imaginary part.  [n_wf] is n_indptr - 1.  Arrays for the energies run from
    -n_timestep to n_timestep. *)
Definition ldos_haydock (state : Z -> list Cplx) (sites : list Z) (delta e_range : R) (m : spm Cplx) (n_wf : nat) (resc : R)
    (seed depth nt nr : Z) : res (list R * list R) :=
  let steps := map (fun k => k - nt) (zrange (Z.to_nat (2 * nt + 1))) in
  let energy := map (fun i => (1 / 2 * IZR i * e_range / IZR nt)%R) steps in
  let blank := repeat (Cre 0) (Z.to_nat depth) in
  bind (loop (fun st i_sample => let '(coefa, coefb) := st in
          let wf_temp := state (seed * i_sample) in
          bind (loop (fun wf0 i => bind (rd sites i) (fun s => bind (rd wf_temp i) (fun v => wr wf0 s v)))
                     (zrange (length sites)) (repeat (Cre 0) n_wf)) (fun wf0 =>
          bind (haydock wf0 depth m (Cre resc)) (fun ab => let '(a, b) := ab in
          Ok (padd coefa (map (fun v => Cmul v (Cre (/ IZR nr))) a), padd coefb (map (fun v => Cmul v (Cre (/ IZR nr))) b)))))
        (map (fun i => i + 1) (zrange (Z.to_nat nr))) (blank, blank)) (fun st => let '(coefa, coefb) := st in
  bind (mapM (fun e => bind (green_function e delta coefa coefb depth) (fun g => Ok (-1 / PI * snd g)%R)) energy) (fun ldos =>
  Ok (energy, ldos))).

(** solver.py:507-541 calc_ldos_haydock; [size] is the number of processes. *)
Definition calc_ldos_haydock (size : Z) (state : Z -> list Cplx) (sites : list Z) (delta e_range : R) (m : spm Cplx) (n_wf : nat) (resc : R)
    (seed depth nt nr : Z) : res (list R * list R) :=
  if negb (size =? 1) then Err RuntimeError else ldos_haydock state sites delta e_range m n_wf resc seed depth nt nr.
