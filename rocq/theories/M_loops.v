(** The parallel loops of the Fortran extension in the language of M_omp: the
    branches without BLAS, VML, MKL and FFTW.  Each loop is a body with the
    names that have one copy for each thread (the clause PRIVATE and the loop
    variables).  Elementary functions are parameters.  Array sections are
    loops without variables. *)
From Coq Require Import String List.
From Verif Require Import Prelude Vec Cx M_omp.
Import ListNotations.
Local Open Scope string_scope.
Local Open Scope list_scope.
Local Open Scope Z_scope.

Notation "x <- p ;; q" := (pbind p (fun x => q)) (at level 61, p at next level, right associativity).

Section Loops.
  Context {E : Type} {SE : Scalar E}.
  Context (conj re : E -> E) (div : E -> E -> E) (sqrt : E -> E).
  Notation prog := (prog E).

  (** a(v) with the value of the variable v; assignment to a(v). *)
  Definition at_ (a v : string) : prog E := i <- geti (Var v) ;; get (Arr a [i]).
  Definition set_at (a v : string) (e : E) : prog unit := i <- geti (Var v) ;; put (Arr a [i]) e.
  Definition var (x : string) : prog E := get (Var x).
  Definition let_ (x : string) (e : E) : prog unit := put (Var x) e.
  (** a section of an array *)
  Fixpoint each (l : list Z) (f : Z -> prog unit) : prog unit :=
    match l with [] => Ret tt | z :: r => _ <- f z ;; each r f end.

  (** ** math.F90 *)
  (** 71-149 vav_d, vav_z, vsv_d, vsv_z; 151-189 dvmdv, zvmzv; 245-283 dvddv,
      zvdzv *)
  Definition vop (op : E -> E -> E) : prog unit := x <- at_ "X" "i" ;; y <- at_ "Y" "i" ;; set_at "Z" "i" (op x y).
  (** 191-243 dsmdv, dsmzv, zsmzv; 285-337 dvdds, zvdds, zvdzs *)
  Definition scal : prog unit := a <- var "a" ;; x <- at_ "X" "i" ;; set_at "Y" "i" (smul a x).
  Definition divs : prog unit := x <- at_ "X" "i" ;; b <- var "b" ;; set_at "Y" "i" (div x b).
  (** 339-397 dsmdv_self, dsmzv_self, zsmzv_self; 399-463 dvdds_self,
      zvdds_self, zvdzs_self *)
  Definition scal_self : prog unit := a <- var "a" ;; x <- at_ "X" "i" ;; set_at "X" "i" (smul a x).
  Definition divs_self : prog unit := x <- at_ "X" "i" ;; b <- var "b" ;; set_at "X" "i" (div x b).
  (** 517-555 copy_d, copy_z *)
  Definition vcopy : prog unit := x <- at_ "X" "i" ;; set_at "Y" "i" x.
  (** 557-618 axpy_d, axpy_z, axpy_dz; 620-681 axpby_d, axpby_z, axpby_dz *)
  Definition vaxpy : prog unit := a <- var "a" ;; x <- at_ "X" "i" ;; y <- at_ "Y" "i" ;; set_at "Y" "i" (sadd (smul a x) y).
  Definition vaxpby : prog unit :=
    a <- var "a" ;; x <- at_ "X" "i" ;; b <- var "b" ;; y <- at_ "Y" "i" ;; set_at "Y" "i" (sadd (smul a x) (smul b y)).
  (** 683-700 axpbypcz, 702-720 axpbypz *)
  Definition vaxpbypcz : prog unit :=
    a <- var "a" ;; x <- at_ "X" "i" ;; b <- var "b" ;; y <- at_ "Y" "i" ;; c <- var "c" ;; z <- at_ "Z" "i" ;;
    set_at "out" "i" (sadd (sadd (smul a x) (smul b y)) (smul c z)).
  Definition vaxpbypz : prog unit :=
    a <- var "a" ;; x <- at_ "X" "i" ;; b <- var "b" ;; y <- at_ "Y" "i" ;; z <- at_ "Z" "i" ;;
    set_at "Z" "i" (sadd (sadd (smul a x) (smul b y)) z).
  Definition vector_private : list string := ["i"].

  (** ** csr.F90:91-99, 127-135, 161-169, 196-204, 229-237 (without [b]) and
      271-280, 311-320 (with it); csr_mv has no factor [a]. *)
  Definition csr_entry (a : bool) : prog unit :=
    j <- geti (Var "j") ;; k <- geti (Arr "indices" [j]) ;; _ <- puti (Var "k") (k + 1) ;;
    f <- (if a then x <- var "a" ;; v <- at_ "values" "j" ;; Ret (smul x v) else at_ "values" "j") ;;
    x <- at_ "in" "k" ;; y <- at_ "out" "i" ;; set_at "out" "i" (sadd (smul f x) y).
  Definition csr_row (a b : bool) : prog unit :=
    _ <- (if b then c <- var "b" ;; y <- at_ "out" "i" ;; set_at "out" "i" (smul c y) else Ret tt) ;;
    i <- geti (Var "i") ;; lo <- geti (Arr "indptr" [i]) ;; i <- geti (Var "i") ;; hi <- geti (Arr "indptr" [i + 1]) ;;
    do_ "j" (lo + 1) hi (csr_entry a).
  Definition csr_private : list string := ["i"; "j"; "k"].

  (** ** Straight bodies *)
  (** funcs.f90:28-32 current_coefficient *)
  Definition cur_body : prog unit := a <- var "alpha" ;; h <- at_ "hop" "i" ;; d <- at_ "dr" "i" ;; set_at "cur_coefs" "i" (smul (smul a h) d).
  (** funcs.f90:88-100 get_Fermi_cheb_coef; [en] is COS((i - 1) * r0), [fd]
      Fermi_dist(beta, mu, energy, eps) *)
  Definition fermi_body (en : Z -> E -> E) (fd : E -> E -> E -> E -> E) (one_minus : bool) : prog unit :=
    i <- geti (Var "i") ;; r0 <- var "r0" ;; _ <- let_ "energy" (en i r0) ;;
    b <- var "beta" ;; mu <- var "mu" ;; e <- var "energy" ;; eps <- var "eps" ;;
    set_at "cheb_coef_complex" "i" (if one_minus then ssub s1 (fd b mu e eps) else fd b mu e eps).
  Definition fermi_private : list string := ["i"; "energy"].
  (** funcs.f90:111-115 *)
  Definition cheb_body : prog unit :=
    k <- at_ "kernel" "i" ;; c <- at_ "cheb_coef_complex" "i" ;; n <- var "n_cheb" ;; set_at "cheb_coef" "i" (div (smul k (re c)) n).
  (** funcs.f90:140-147 density_coef; [cis] is CMPLX(COS, SIN) *)
  Definition density_body (cis : E -> E) : prog unit :=
    q1 <- get (Arr "q_point" [1]) ;; x <- at_ "site_x" "i" ;; q2 <- get (Arr "q_point" [2]) ;; y <- at_ "site_y" "i" ;;
    q3 <- get (Arr "q_point" [3]) ;; z <- at_ "site_z" "i" ;;
    _ <- let_ "power" (sadd (sadd (smul q1 x) (smul q2 y)) (smul q3 z)) ;;
    p <- var "power" ;; _ <- set_at "s_density_q" "i" (cis p) ;;
    p <- var "power" ;; set_at "s_density_min_q" "i" (conj (cis p)).
  Definition density_private : list string := ["i"; "power"].
  (** kpm.f90:24-28 jackson_kernel; [g] is the right-hand side *)
  Definition jackson_body (g : Z -> Z -> E -> E -> E) : prog unit :=
    n <- geti (Var "n_kernel") ;; k <- geti (Var "k") ;; q <- var "q" ;; c <- var "cotq" ;; set_at "g_J" "k" (g n k q c).
  (** random.f90:64-68 *)
  Definition norm_body : prog unit := w <- at_ "wf" "i" ;; s <- var "sum_wf_sq" ;; set_at "wf" "i" (div w (sqrt s)).
  (** lindhard.f90:32-39 and 88-95: the phases of prod_dp and prod_dp_arb *)
  Definition phase_body (cis : E -> E) : prog unit :=
    q1 <- get (Arr "q_point" [1]) ;; b <- geti (Var "ib") ;; x <- get (Arr "orb_pos" [1; b]) ;;
    q2 <- get (Arr "q_point" [2]) ;; b <- geti (Var "ib") ;; y <- get (Arr "orb_pos" [2; b]) ;;
    q3 <- get (Arr "q_point" [3]) ;; b <- geti (Var "ib") ;; z <- get (Arr "orb_pos" [3; b]) ;;
    _ <- let_ "k_dot_r" (sadd (sadd (smul q1 x) (smul q2 y)) (smul q3 z)) ;;
    k <- var "k_dot_r" ;; set_at "phase" "ib" (cis k).
  Definition phase_private : list string := ["ib"; "k_dot_r"].
  (** tbpm.f90:1019-1024 ldos_haydock with funcs.f90:153-175 green_function,
      whose result is the variable g00 of the caller; [ec] is
      CMPLX(energy, delta), [im] -1/PI * AIMAG. *)
  Definition green_body (ec : E -> E -> E) (im : E -> E) : prog unit :=
    n <- geti (Var "n_depth") ;; e <- at_ "energy" "i" ;; d <- var "delta" ;;
    _ <- let_ "g00" s0 ;;
    _ <- each (rev (range 1 n)) (fun k =>
           a <- get (Arr "coefa" [k]) ;; b <- get (Arr "coefb" [k]) ;; g <- var "g00" ;;
           let_ "g00" (div s1 (ssub (ssub (ec e d) a) (smul (smul b b) g)))) ;;
    g <- var "g00" ;; set_at "ldos" "i" (im g).
  Definition green_private : list string := ["i"; "g00"].

  (** ** Columns *)
  (** kpm.f90:48-54 get_gamma_mn; [gam] is the right-hand side *)
  Definition gamma_body (gam : E -> E -> E -> Z -> Z -> E) : prog unit :=
    n <- geti (Var "n_kernel") ;;
    do_ "i" 0 (n - 1) (
      cx <- var "cx" ;; sx <- var "sx" ;; x <- var "x" ;; i <- geti (Var "i") ;; j <- geti (Var "j") ;;
      put (Arr "Gamma_mn" [i; j]) (gam cx sx x i j)).
  Definition gamma_private : list string := ["j"; "i"].
  (** tbpm.f90:628-638 (tbpm_dccond, energies(en_inds(i) + 1)) and 800-809
      (tbpm_eigenstates, energies(i)); [ph] is EXP(img * energy * t * t_step),
      the names are those of tbpm_dccond. *)
  Definition qe_body (ph : E -> Z -> E -> E) (sel : bool) : prog unit :=
    i <- geti (Var "i") ;; k <- (if sel then s <- geti (Arr "en_inds" [i]) ;; Ret (s + 1) else Ret i) ;;
    e <- get (Arr "energies" [k]) ;; t <- geti (Var "t") ;; dt <- var "t_step" ;; _ <- let_ "P" (ph e t dt) ;;
    n <- geti (Var "n_wf") ;;
    do_ "j" 1 n (
      j <- geti (Var "j") ;; i <- geti (Var "i") ;; q <- get (Arr "wf_QE" [j; i]) ;; p <- var "P" ;; w <- at_ "wf_t_pos" "j" ;; h <- var "W" ;;
      _ <- put (Arr "wf_QE" [j; i]) (sadd q (smul (smul p w) h)) ;;
      j <- geti (Var "j") ;; i <- geti (Var "i") ;; q <- get (Arr "wf_QE" [j; i]) ;; p <- var "P" ;; w <- at_ "wf_t_neg" "j" ;; h <- var "W" ;;
      put (Arr "wf_QE" [j; i]) (sadd q (smul (smul (conj p) w) h))).
  Definition qe_private : list string := ["i"; "P"; "j"].
  (** tbpm.f90:953-958 tbpm_kbdc *)
  Definition kbdc_body : prog unit :=
    n <- geti (Var "n_kernel") ;;
    each (range 1 n) (fun k =>
      j <- geti (Var "j") ;; c <- get (Arr "corr_mu_avg" [k; j]) ;; g <- get (Arr "g" [k]) ;; h <- at_ "g" "j" ;;
      m <- get (Arr "corr_mu" [k; j]) ;; s <- var "n_ran_samples" ;;
      put (Arr "corr_mu_avg" [k; j]) (sadd c (div (smul (smul g h) m) s))).
  Definition kbdc_private : list string := ["j"].

  (** ** fft.F90:45-54: DO i = j, n, ntmp *)
  Fixpoint iter_by (x : string) (z step : Z) (n : nat) (body : prog unit) : prog unit :=
    match n with
    | O => puti (Var x) z
    | S n => _ <- puti (Var x) z ;; _ <- body ;; iter_by x (z + step) step n body
    end.
  Definition do_by (x : string) (lo hi step : Z) (body : prog unit) : prog unit :=
    iter_by x lo step (Z.to_nat ((hi - lo + step) / step)) body.
  (** [tw] is EXP(CMPLX(0, sgn*e*(j-1))) *)
  Definition fft_body (tw : Z -> E -> Z -> E) : prog unit :=
    j <- geti (Var "j") ;; n <- geti (Var "n") ;; s <- geti (Var "ntmp") ;;
    do_by "i" j n s (
      i <- geti (Var "i") ;; c <- geti (Var "ncur") ;; _ <- puti (Var "itmp") (i + c) ;;
      x <- at_ "x" "i" ;; y <- at_ "x" "itmp" ;; _ <- let_ "ctmp" (ssub x y) ;;
      x <- at_ "x" "i" ;; y <- at_ "x" "itmp" ;; _ <- set_at "x" "i" (sadd x y) ;;
      c <- var "ctmp" ;; s <- geti (Var "sgn") ;; e <- var "e" ;; j <- geti (Var "j") ;;
      set_at "x" "itmp" (smul c (tw s e j))).
  Definition fft_private : list string := ["j"; "i"; "itmp"; "ctmp"].

  (** ** lindhard.f90 *)
  (** 41-58 prod_dp ([arb] false) and 97-113 prod_dp_arb; [occ] is
      1 / (1 + exp(beta * (eng - mu))) *)
  Definition dp_body (occ : E -> E -> E -> E) (arb : bool) : prog unit :=
    let ek := if arb then "eng_kq" else "eng" in
    let wk := if arb then "wfn_kq" else "wfn" in
    let kk := if arb then "i_k" else "i_kpq" in
    _ <- (if arb then Ret tt else i <- geti (Var "i_k") ;; k <- geti (Arr "kq_map" [i]) ;; puti (Var "i_kpq") k) ;;
    n <- geti (Var "num_orb") ;;
    do_ "jj" 1 n (
      b <- var "beta" ;; j <- geti (Var "jj") ;; i <- geti (Var "i_k") ;; e <- get (Arr "eng" [j; i]) ;; mu <- var "mu" ;;
      _ <- let_ "f" (occ b e mu) ;;
      n <- geti (Var "num_orb") ;;
      do_ "ll" 1 n (
        j <- geti (Var "jj") ;; i <- geti (Var "i_k") ;; e <- get (Arr "eng" [j; i]) ;;
        l <- geti (Var "ll") ;; k <- geti (Var kk) ;; e' <- get (Arr ek [l; k]) ;;
        _ <- put (Arr "delta_eng" [l; j; i]) (ssub e e') ;;
        b <- var "beta" ;; mu <- var "mu" ;; l <- geti (Var "ll") ;; k <- geti (Var kk) ;; e' <- get (Arr ek [l; k]) ;;
        _ <- let_ "f_q" (occ b e' mu) ;;
        _ <- let_ "prod" s0 ;;
        n <- geti (Var "num_orb") ;;
        _ <- do_ "ib" 1 n (
          p <- var "prod" ;; b <- geti (Var "ib") ;; l <- geti (Var "ll") ;; k <- geti (Var kk) ;; u <- get (Arr wk [b; l; k]) ;;
          j <- geti (Var "jj") ;; i <- geti (Var "i_k") ;; v <- get (Arr "wfn" [b; j; i]) ;; h <- at_ "phase" "ib" ;;
          let_ "prod" (sadd p (smul (smul (conj u) v) h))) ;;
        p <- var "prod" ;; f <- var "f" ;; g <- var "f_q" ;;
        l <- geti (Var "ll") ;; j <- geti (Var "jj") ;; i <- geti (Var "i_k") ;;
        put (Arr "prod_df" [l; j; i]) (smul (smul p (conj p)) (ssub f g)))).
  Definition dp_private : list string := ["i_k"; "i_kpq"; "jj"; "f"; "ll"; "f_q"; "prod"; "ib"].
  (** 140-153 dyn_pol_f ([ac] false) and 267-280 ac_cond_f *)
  Definition resp_body (ac : bool) : prog unit :=
    w <- at_ "omegas" "i_w" ;; _ <- let_ "omega" w ;; _ <- let_ "sum" s0 ;;
    lo <- geti (Var "k_min") ;; hi <- geti (Var "k_max") ;;
    _ <- do_ "i_k" lo hi (
      n <- geti (Var "num_orb") ;;
      do_ "jj" 1 n (
        n <- geti (Var "num_orb") ;;
        do_ "ll" 1 n (
          s <- var "sum" ;; l <- geti (Var "ll") ;; j <- geti (Var "jj") ;; i <- geti (Var "i_k") ;;
          p <- get (Arr "prod_df" [l; j; i]) ;; d <- get (Arr "delta_eng" [l; j; i]) ;; w <- var "omega" ;; c <- var "cdelta" ;;
          let_ "sum" (sadd s (div p (if ac then ssub (ssub d w) c else sadd (sadd d w) c)))))) ;;
    s <- var "sum" ;;
    if ac then set_at "ac_cond" "i_w" s else i <- geti (Var "i_w") ;; q <- geti (Var "i_q") ;; put (Arr "dyn_pol" [i; q]) s.
  Definition resp_private : list string := ["i_w"; "omega"; "sum"; "i_k"; "jj"; "ll"].
  (** 216-241 prod_ac; [close] is abs(eng_m - eng_n) < 1.0D-7 *)
  Definition ac_body (occ : E -> E -> E -> E) (close : E -> E -> bool) : prog unit :=
    m <- geti (Var "mm") ;; i <- geti (Var "i_k") ;; e <- get (Arr "eng" [m; i]) ;; _ <- let_ "eng_m" e ;;
    b <- var "beta" ;; e <- var "eng_m" ;; mu <- var "mu" ;; _ <- let_ "f_m" (occ b e mu) ;;
    n <- geti (Var "num_orb") ;;
    do_ "nn" 1 n (
      k <- geti (Var "nn") ;; i <- geti (Var "i_k") ;; e <- get (Arr "eng" [k; i]) ;; _ <- let_ "eng_n" e ;;
      a <- var "eng_m" ;; c <- var "eng_n" ;; k <- geti (Var "nn") ;; m <- geti (Var "mm") ;; i <- geti (Var "i_k") ;;
      _ <- put (Arr "delta_eng" [k; m; i]) (ssub a c) ;;
      b <- var "beta" ;; e <- var "eng_n" ;; mu <- var "mu" ;; _ <- let_ "f_n" (occ b e mu) ;;
      _ <- let_ "prod1" s0 ;; _ <- let_ "prod2" s0 ;;
      n <- geti (Var "num_orb") ;;
      _ <- do_ "ib1" 1 n (
        n <- geti (Var "num_orb") ;;
        do_ "ib2" 1 n (
          p <- var "prod1" ;; x <- geti (Var "ib1") ;; k <- geti (Var "nn") ;; i <- geti (Var "i_k") ;; u <- get (Arr "wfn" [x; k; i]) ;;
          y <- geti (Var "ib2") ;; v <- get (Arr "vmat1" [x; y]) ;; m <- geti (Var "mm") ;; w <- get (Arr "wfn" [y; m; i]) ;;
          _ <- let_ "prod1" (sadd p (smul (smul (conj u) v) w)) ;;
          p <- var "prod2" ;; u <- get (Arr "wfn" [x; m; i]) ;; v <- get (Arr "vmat2" [x; y]) ;; w <- get (Arr "wfn" [y; k; i]) ;;
          let_ "prod2" (sadd p (smul (smul (conj u) v) w)))) ;;
      a <- var "eng_m" ;; c <- var "eng_n" ;;
      if close a c then Ret tt else
      p <- var "prod1" ;; q <- var "prod2" ;; f <- var "f_m" ;; g <- var "f_n" ;;
      k <- geti (Var "nn") ;; m <- geti (Var "mm") ;; i <- geti (Var "i_k") ;;
      put (Arr "prod_df" [k; m; i]) (div (smul (smul p q) (ssub f g)) (ssub a c))).
  Definition ac_private : list string := ["mm"; "eng_m"; "f_m"; "nn"; "eng_n"; "f_n"; "prod1"; "prod2"; "ib1"; "ib2"].

  (** ** Reductions *)
  (** analysis.f90:42-48 cond_from_trace: REDUCTION(+: sum) *)
  Definition trace_body : prog unit :=
    n <- geti (Var "n_kernel") ;;
    do_ "i" 1 n (
      s <- var "sum" ;; i <- geti (Var "i") ;; j <- geti (Var "j") ;; g <- get (Arr "Gamma_mn" [i; j]) ;; m <- get (Arr "mu_mn" [i; j]) ;;
      let_ "sum" (sadd s (re (smul g m)))).
  Definition trace_private : list string := ["j"; "i"; "sum"].
  (** analysis.f90:58-65: REDUCTION(+: dcx); [sin3] is DSIN**3, [en] is DCOS *
      H_rescale, [fd] Fermi_dist(beta, mu(i), en, fermi_precision) *)
  Definition dcx_body (sin3 : E -> E) (en : E -> E -> E) (fd : E -> E -> E -> E -> E) : prog unit :=
    x <- at_ "energy" "k" ;; _ <- let_ "div" (sin3 x) ;;
    x <- at_ "energy" "k" ;; h <- var "H_rescale" ;; _ <- let_ "en" (en x h) ;;
    b <- var "beta" ;; mu <- at_ "mu" "i" ;; e <- var "en" ;; p <- var "fermi_precision" ;; _ <- let_ "fd" (fd b mu e p) ;;
    d <- var "dcx" ;; s <- at_ "sum_gamma_mu" "k" ;; f <- var "fd" ;; de <- var "dE" ;; v <- var "div" ;;
    let_ "dcx" (sadd d (div (smul (smul s f) de) v)).
  Definition dcx_private : list string := ["k"; "en"; "div"; "fd"; "dcx"].
End Loops.
