(** Fast Fourier transform (C54). *)
From Coq Require Import Reals Lra.
From Verif Require Import Prelude Vec Cx M_super M_sample M_fft S_prop S_fft L_base L_csr L_prop L_fft L_dft.
Local Open Scope Z_scope.

(** The exponential of the program. *)
Definition expi (k m : Z) : Cplx := Ccis (2 * PI / IZR m * IZR k)%R.
Lemma expi_ph k m : 0 < m -> expi k m = ph k m.
Proof. intros Hm. unfold expi, ph, Ctau. f_equal. assert (IZR m <> 0)%R by (apply not_0_IZR; lia). field; assumption. Qed.
Lemma dft_fourier sgn n (x : nat -> Cplx) k : (0 < n)%nat -> dft sgn n x k = fourier ph sgn n x k.
Proof.
  intros Hn. unfold dft, fourier. apply sum_ext. intros r _. change (@smul Cplx CScalar) with Cmul. f_equal. unfold ph, Ctau. f_equal. rewrite !mult_IZR, !INR_IZR_INZ.
  assert (IZR (Z.of_nat n) <> 0)%R by (apply not_0_IZR; lia). field; assumption.
Qed.

(** Both directions, every length 2^p, every input. *)
Theorem C54_fft : forall (p : nat) (sgn : Z) (x : nat -> Cplx) (l : list Cplx), sgn = 1 \/ sgn = -1 -> holds (2 ^ p) x l ->
  exists r, fft1d expi sgn l = Ok r /\ holds (2 ^ p) (dft sgn (2 ^ p) x) r.
Proof.
  intros p sgn x l Hs Hx. apply holds_eq in Hx. subst l. pose proof (pow2_pos p) as Hp.
  exists (tab (2 ^ p) (dft sgn (2 ^ p) x)). split; [|apply holds_tab].
  rewrite (fft_tab CLaws expi) by (exact Hs || (intros; rewrite !expi_ph by lia; first [apply ph_add | apply ph_0 | apply ph_scale | apply ph_half]; assumption)).
  f_equal. apply tab_ext. intros k _. rewrite dft_fourier by exact Hp. unfold fourier. apply sum_ext. intros r _. rewrite expi_ph by lia. reflexivity.
Qed.
Print Assumptions C54_fft.

(** Transforming back multiplies by the length. *)
Theorem C54_inverse : forall (p : nat) (sgn : Z) (x : nat -> Cplx) (l : list Cplx), sgn = 1 \/ sgn = -1 -> holds (2 ^ p) x l ->
  exists r r', fft1d expi sgn l = Ok r /\ fft1d expi (- sgn) r = Ok r' /\
  holds (2 ^ p) (fun t => Cmul (Cre (INR (2 ^ p))) (x t)) r'.
Proof.
  intros p sgn x l Hs Hx. destruct (C54_fft p sgn x l Hs Hx) as (r & Hr & Hh). destruct (C54_fft p (- sgn) _ r ltac:(lia) Hh) as (r' & Hr' & Hh').
  exists r, r'. split; [exact Hr|]. split; [exact Hr'|]. destruct Hh' as [Hl Hv]. split; [exact Hl|]. intros t Ht. rewrite (Hv t Ht). f_equal. pose proof (pow2_pos p) as Hp.
  rewrite dft_fourier by exact Hp. transitivity (fourier ph (- sgn) (2 ^ p) (fourier ph sgn (2 ^ p) x) t).
  - unfold fourier at 1 2. apply sum_ext. intros k _. rewrite dft_fourier by exact Hp. reflexivity.
  - rewrite fourier_inverse by assumption. rewrite INR_IZR_INZ. reflexivity.
Qed.
Print Assumptions C54_inverse.

(** In any ring with roots of unity. *)
Theorem C54_algebra : forall (E : Type) (SE : Scalar E), ScalarLaws E -> forall (rt : Z -> Z -> E),
  (forall k l m, 0 < m -> rt (k + l) m = smul (rt k m) (rt l m)) -> (forall m, 0 < m -> rt 0 m = s1) ->
  (forall k m, 0 < m -> rt (2 * k) (2 * m) = rt k m) -> (forall m, 0 < m -> rt m (2 * m) = sopp s1) ->
  forall (p : nat) (sgn : Z) (x : nat -> E) (l : list E), sgn = 1 \/ sgn = -1 -> holds (2 ^ p) x l ->
  exists r, fft1d rt sgn l = Ok r /\
    holds (2 ^ p) (fun k => sum_to (2 ^ p) (fun j => smul (x j) (rt (sgn * (Z.of_nat j * Z.of_nat k)) (Z.of_nat (2 ^ p))))) r.
Proof.
  intros E SE EL rt H1 H2 H3 H4 p sgn x l Hs Hx. apply holds_eq in Hx. subst l. eexists. split; [apply (fft_tab EL rt); assumption|]. apply holds_tab.
Qed.
Print Assumptions C54_algebra.
(** Integers modulo 17: 2 is an eighth root of unity. *)
Definition rt17 (k m : Z) : Z := 2 ^ ((k * (8 / m)) mod 8).
Example C54_example :
  match fft1d rt17 1 [3; 1; 4; 1; 5; 9; 2; 6] with
  | Ok r => map (fun v => v mod 17) r =
            map (fun k => fold_right Z.add 0 (map (fun j => nth j [3; 1; 4; 1; 5; 9; 2; 6] 0 * rt17 (Z.of_nat (j * k)) 8) (seq 0 8)) mod 17) (seq 0 8)
  | Err _ => False
  end.
Proof. vm_compute. reflexivity. Qed.

(** Other lengths: the loop that permutes three values does not end, however
    long it runs. *)
Theorem C54_length_refuted :
  (forall (E : Type) (SE : Scalar E) (rt : Z -> Z -> E) (a b c : E) (sgn : Z), fft1d rt sgn [a; b; c] = Err OutOfFuel) /\
  (forall fuel, carry fuel 1 2 = Err OutOfFuel).
Proof.
  assert (H0 : forall fuel, carry fuel 0 1 = Err OutOfFuel) by (induction fuel as [|f IH]; [reflexivity|exact IH]).
  split; [intros; reflexivity|]. intros [|f]; [reflexivity|exact (H0 f)].
Qed.
Print Assumptions C54_length_refuted.
