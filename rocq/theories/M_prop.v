(** Model of the sparse kernels, fortran/csr.F90 (the branch without MKL), of
    the vector functions they use, fortran/math.F90 (the branch without BLAS),
    and of fortran/propagation.f90.  Numbers are exact; arrays are counted from
    0, so that the Fortran index is one more. *)
From Verif Require Import Prelude Vec Cx M_super M_sample M_par.

Section Kern.
  Context {E : Type} {SE : Scalar E}.
  (** conj: complex conjugate; img: the imaginary unit; inv: reciprocal, is0:
      test for zero; re: real part; sqrt: root of a non-negative real. *)
  Context (conj : E -> E) (img : E) (inv : E -> E) (is0 : E -> bool) (re sqrt : E -> E).

  (** csr.F90:20-24 and 44-68 SPARSE_MATRIX_T and make_csr_matrix. *)
  Record spm := { p_indptr : list Z; p_indices : list Z; p_values : list E }.

  (** csr.F90:93-96, 129-132, ...: the loop over the entries of row i; [w] is
      the factor applied to the matrix element. *)
  Definition acc_row (w : E -> E) (m : spm) (x : list E) (out : list E) (i : Z) : res (list E) :=
    bind (rd (p_indptr m) i) (fun j0 => bind (rd (p_indptr m) (i + 1)) (fun j1 =>
    loop (fun out j => bind (rd (p_indices m) j) (fun k => bind (rd (p_values m) j) (fun v => bind (rd x k) (fun y =>
            upd (fun o => sadd (smul (w v) y) o) out i)))) (span (j0, j1)) out)).
  (** csr.F90:70-101 csr_mv: mat * in. *)
  Definition csr_mv (m : spm) (x : list E) : res (list E) :=
    loop (acc_row (fun v => v) m x) (zrange (length x)) (repeat s0 (length x)).
  (** csr.F90:103-171 amv_d and amv_z: a * mat * in. *)
  Definition amv (a : E) (m : spm) (x : list E) : res (list E) :=
    loop (acc_row (smul a) m x) (zrange (length x)) (repeat s0 (length x)).
  (** csr.F90:173-239 amxpy_d and amxpy_z: a * mat * in + out. *)
  Definition amxpy (a : E) (m : spm) (x out : list E) : res (list E) :=
    loop (acc_row (smul a) m x) (zrange (length x)) out.
  (** csr.F90:241-322 amxpby_d and amxpby_z: a * mat * in + b * out. *)
  Definition amxpby (a : E) (m : spm) (x : list E) (b : E) (out : list E) : res (list E) :=
    loop (fun out i => bind (upd (smul b) out i) (fun out => acc_row (smul a) m x out i)) (zrange (length x)) out.

  (** ** math.F90; the arrays of one call have the same size. *)
  Definition zip (f : E -> E -> E) (x y : list E) : list E := map (fun p => f (fst p) (snd p)) (combine x y).
  (** math.F90:91-109 vav_z and 131-149 vsv_z, 171-189 zvmzv. *)
  Definition padd (x y : list E) : list E := zip sadd x y.
  Definition psub (x y : list E) : list E := zip ssub x y.
  Definition pmul (x y : list E) : list E := zip smul x y.
  (** math.F90:578-618 axpy_z and axpy_dz: the new value of Y. *)
  Definition axpy (a : E) (x y : list E) : list E := zip (fun u v => sadd (smul a u) v) x y.
  (** math.F90:684-700 axpbypcz. *)
  Definition axpbypcz (a : E) (x : list E) (b : E) (y : list E) (c : E) (z : list E) : list E :=
    zip sadd (zip (fun u v => sadd (smul a u) (smul b v)) x y) (map (smul c) z).
  (** math.F90:703-720 axpbypz: the new value of Z. *)
  Definition axpbypz (a : E) (x : list E) (b : E) (y z : list E) : list E :=
    zip sadd (zip (fun u v => sadd (smul a u) (smul b v)) x y) z.
  (** math.F90:478-489 dot_z. *)
  Definition inner_prod (x y : list E) : E := esum (zip (fun u v => smul (conj u) v) x y).
  (** math.F90:504-515 norm_z. *)
  Definition norm (x : list E) : E := sqrt (re (inner_prod x x)).
  (** X / b; an array of NaN if b is zero, written None. *)
  Definition pdiv (x : list E) (b : E) : option (list E) :=
    if is0 b then None else Some (map (fun u => smul u (inv b)) x).
  (** Results computed from NaN are NaN; the model stops. *)
  Definition num (x : option (list E)) : res (list E) :=
    match x with Some l => Ok l | None => Err ZeroDivisionError end.

  (** ** propagation.f90 *)
  (** propagation.f90:11-49 cheb_wf_timestep.  [bf] holds the arrays Tcheb0 and
      Tcheb1 and p0, p1, p2 are pointers: positions in [bf]. *)
  Definition two : E := sZ 2.
  Definition cheb_wf_timestep (m : spm) (bes : list E) (x : list E) (fwd : bool) : res (list E) :=
    let d := if fwd then img else sopp img in
    bind (amv (sopp d) m x) (fun t0 =>
    bind (amv (smul (sopp two) d) m t0) (fun h =>
    let t1 := padd h x in
    bind (rd bes 0) (fun b1 => bind (rd bes 1) (fun b2 => bind (rd bes 2) (fun b3 =>
    let out := axpbypcz b1 x (smul two b2) t0 (smul two b3) t1 in
    bind (loop (fun (st : list (list E) * Z * Z * list E) i => let '(bf, p0, p1, out) := st in
            let p2 := p0 in
            bind (rd bf p1) (fun u => bind (rd bf p0) (fun v =>
            bind (amxpy (smul (sopp two) d) m u v) (fun v' =>
            bind (wr bf p0 v') (fun bf =>
            bind (rd bes i) (fun b => bind (rd bf p2) (fun y =>
            Ok (bf, p1, p2, axpy (smul two b) y out))))))))
          (span (3, Z.of_nat (length bes))) ([t0; t1], 0, 1, out)) (fun st =>
    Ok (snd st))))))).

  (** propagation.f90:51-82 Fermi. *)
  Definition fermi_op (m : spm) (coef : list E) (x : list E) : res (list E) :=
    bind (csr_mv m x) (fun t0 =>
    bind (amv two m t0) (fun h =>
    let t1 := psub h x in
    bind (rd coef 0) (fun c1 => bind (rd coef 1) (fun c2 => bind (rd coef 2) (fun c3 =>
    let out := axpbypcz c1 x c2 t0 c3 t1 in
    bind (loop (fun (st : list (list E) * Z * Z * list E) i => let '(bf, p0, p1, out) := st in
            let p2 := p0 in
            bind (rd bf p1) (fun u => bind (rd bf p0) (fun v =>
            bind (amxpby two m u (sopp s1) v) (fun v' =>
            bind (wr bf p0 v') (fun bf =>
            bind (rd coef i) (fun b => bind (rd bf p2) (fun y =>
            Ok (bf, p1, p2, axpy b y out))))))))
          (span (3, Z.of_nat (length coef))) ([t0; t1], 0, 1, out)) (fun st =>
    Ok (snd st))))))).

  (** propagation.f90:84-155 Haydock_coef: coefa and coefb.  [bf] holds n1, n2
      and n_buf; p1, p2, p_buf are positions in [bf].  The outputs are not set
      before they are assigned (here: 0). *)
  Definition haydock_coef (n1 : list E) (depth : Z) (m : spm) (resc : E) : res (list E * list E) :=
    let blank := repeat s0 (Z.to_nat depth) in
    bind (amv resc m n1) (fun buf =>
    let a := inner_prod n1 buf in
    bind (wr blank 0 a) (fun ca =>
    let buf := axpy (sopp a) n1 buf in
    let b := norm buf in
    bind (wr blank 0 b) (fun cb =>
    bind (loop (fun (st : list (option (list E)) * Z * Z * Z * list E * list E) i => let '(bf, p1, p2, pb, ca, cb) := st in
            bind (bind (rd bf p2) num) (fun u =>
            bind (amv resc m u) (fun h =>
            let a := inner_prod u h in
            bind (wr ca i a) (fun ca =>
            bind (rd cb (i - 1)) (fun b0 =>
            bind (bind (rd bf p1) num) (fun v =>
            let h := axpbypz (sopp a) u (sopp b0) v h in
            let b := norm h in
            bind (wr cb i b) (fun cb =>
            bind (wr bf pb (pdiv h b)) (fun bf =>
            Ok (bf, p2, pb, p1, ca, cb)))))))))
          (span (1, depth)) ([Some n1; pdiv buf b; Some buf], 0, 1, 2, ca, cb)) (fun st =>
    let '(_, _, _, _, ca, cb) := st in Ok (ca, cb))))).
End Kern.
Arguments spm : clear implicits.
