(** The Fourier transform of tbplas/fortran/fft.F90 (without FFTW). *)
From Verif Require Import Prelude Vec M_super M_sample M_par.
Local Open Scope Z_scope.

Section Fft.
  (** [rt k m] is EXP(CMPLX(0.0, 2.0 * pi * k / m)). *)
  Context {E : Type} {SE : Scalar E} (rt : Z -> Z -> E).

  (** DO i = a, b, s *)
  Definition steps (a b s : Z) : list Z := map (fun k => a + s * k) (zrange (Z.to_nat ((b - a) / s + 1))).

  (** fft.F90:46-53, one pass with e = 2 pi / ntmp. *)
  Definition pass (sgn ntmp : Z) (x : list E) : res (list E) :=
    let n := Z.of_nat (length x) in let ncur := ntmp / 2 in
    loop (fun x j => loop (fun x i =>
            bind (rd x (i - 1)) (fun a =>
            bind (rd x (i + ncur - 1)) (fun b =>
            bind (wr x (i - 1) (sadd a b)) (fun x =>
            wr x (i + ncur - 1) (smul (ssub a b) (rt (sgn * (j - 1)) ntmp))))))
          (steps j n ntmp) x) (span (1, ncur + 1)) x.
  (** fft.F90:40-55, the passes; ncur is halved until it is 0. *)
  Fixpoint passes (fuel : nat) (sgn ncur : Z) (x : list E) : res (list E) :=
    match fuel with
    | O => Err OutOfFuel
    | S f => if ncur / 2 <? 1 then Ok x else bind (pass sgn ncur x) (passes f sgn (ncur / 2))
    end.

  (** fft.F90:64-69 DO WHILE (k < j) and j = j + k.  Does not end for k = 0. *)
  Fixpoint carry (fuel : nat) (k j : Z) : res Z :=
    match fuel with
    | O => Err OutOfFuel
    | S f => if k <? j then carry f (k / 2) (j - k) else Ok (j + k)
    end.
  (** fft.F90:57-70, the permutation. *)
  Definition reversal (x : list E) : res (list E) :=
    let n := Z.of_nat (length x) in
    bind (loop (fun (st : list E * Z) i => let '(x, j) := st in
       bind (if i <? j then bind (rd x (j - 1)) (fun c => bind (rd x (i - 1)) (fun d => bind (wr x (j - 1) d) (fun x => wr x (i - 1) c))) else Ok x) (fun x =>
       bind (carry (S (length x)) (n / 2) j) (fun j => Ok (x, j))))
       (span (1, n)) (x, 1)) (fun st => Ok (fst st)).

  (** fft.F90:18-72 fft1d_inplace. *)
  Definition fft1d (sgn : Z) (x : list E) : res (list E) :=
    bind (passes (S (length x)) sgn (Z.of_nat (length x)) x) reversal.
End Fft.
