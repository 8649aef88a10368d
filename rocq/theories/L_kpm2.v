(** Traces of products of Hermitian operators; the series of the Fermi operator. *)
From Coq Require Import Reals Lra.
From Verif Require Import Prelude Vec Cx M_super M_sample M_fft M_ana S_prop S_fft S_ana L_base L_super L_csr L_prop L_prop2 L_gersh L_fft L_dft L_kpm P_fft.

(** ** Trace *)
Section Tr.
  Context {E : Type} {SE : Scalar E} (EL : ScalarLaws E) (conj : E -> E) (SL : StarLaws conj).
  Add Ring ering3 : (s_ring E EL).
  Notation vector := (nat -> E).
  Lemma inner_unit n k (y : vector) : (k < n)%nat -> inner conj n (unit_vec k) y = y k.
  Proof using EL SL.
    intros Hk. unfold inner. transitivity (sum_to n (fun i => if Nat.eqb i k then y k else s0)).
    - apply sum_ext. intros i _. unfold unit_vec. destruct (Nat.eqb_spec i k) as [->|_]; [rewrite (conj_1 conj SL)|rewrite (conj_0 EL conj SL)]; ring.
    - exact (sum_one EL n (fun _ => y k) k Hk).
  Qed.
  Lemma inner_unit_r n k (y : vector) : (k < n)%nat -> inner conj n y (unit_vec k) = conj (y k).
  Proof using EL SL. intros Hk. rewrite <- (inner_conj EL conj SL), inner_unit by exact Hk. reflexivity. Qed.
  Definition adjoint n (A B : vector -> vector) : Prop := forall x y, inner conj n x (A y) = inner conj n (B x) y.
  Lemma adjoint_sym n A B : adjoint n A B -> adjoint n B A.
  Proof using EL SL. intros H x y. rewrite <- (inner_conj EL conj SL n (B y) x), <- H, (inner_conj EL conj SL). reflexivity. Qed.
  Lemma adjoint_comp n A B A' B' : adjoint n A B -> adjoint n A' B' -> adjoint n (fun x => A (A' x)) (fun x => B' (B x)).
  Proof using Type. intros H H' x y. rewrite H, H'. reflexivity. Qed.
  Lemma trace_conj n A B : adjoint n A B -> conj (trace conj n A) = trace conj n B.
  Proof using EL SL.
    intros H. unfold trace. rewrite (conj_sum EL conj SL). apply sum_ext. intros k _. rewrite (inner_conj EL conj SL). symmetry. apply (adjoint_sym n A B H).
  Qed.
  Lemma trace_cycle n A A' B B' : adjoint n A A' -> adjoint n B B' -> trace conj n (fun x => A (B x)) = trace conj n (fun x => B (A x)).
  Proof using EL SL.
    intros HA HB. unfold trace.
    assert (K : forall A A' B : vector -> vector, adjoint n A A' -> sum_to n (fun k => inner conj n (unit_vec k) (A (B (unit_vec k)))) =
              sum_to n (fun k => sum_to n (fun l => smul (A (unit_vec l) k) (B (unit_vec k) l)))).
    { intros P P' Q HP. apply sum_ext. intros k Hk. rewrite HP. unfold inner at 1. apply sum_ext. intros l Hl. f_equal.
      rewrite <- (inner_unit n l (P' (unit_vec k)) Hl), (inner_conj EL conj SL), <- HP, inner_unit by exact Hk. reflexivity. }
    rewrite (K A A' B HA), (K B B' A HB), (sum_swap EL). apply sum_ext. intros k _. apply sum_ext. intros l _. ring.
  Qed.
  Lemma moments_hermitian n (h jx jd : nat -> nat -> E) i j : herm conj n h -> herm conj n jx -> herm conj n jd ->
    conj (trace conj n (fun x => mv n jx (cheb n h i (mv n jd (cheb n h j x))))) = trace conj n (fun x => mv n jx (cheb n h j (mv n jd (cheb n h i x)))).
  Proof using EL SL.
    intros Hh Hx Hd.
    assert (Ax : adjoint n (mv n jx) (mv n jx)) by (intros x y; apply (inner_mv EL conj SL); exact Hx).
    assert (Ad : adjoint n (mv n jd) (mv n jd)) by (intros x y; apply (inner_mv EL conj SL); exact Hd).
    assert (Ac : forall k, adjoint n (cheb n h k) (cheb n h k)) by (intros k x y; apply (cheb_adj EL conj SL); exact Hh).
    assert (A3 : forall p q, adjoint n (fun x => cheb n h p (mv n jd (cheb n h q x))) (fun x => cheb n h q (mv n jd (cheb n h p x)))).
    { intros p q x y. rewrite (Ac p), Ad, (Ac q). reflexivity. }
    rewrite (trace_conj n _ (fun x => cheb n h j (mv n jd (cheb n h i (mv n jx x))))).
    - exact (trace_cycle n (fun x => cheb n h j (mv n jd (cheb n h i x))) _ (mv n jx) _ (A3 j i) Ax).
    - intros x y. rewrite Ax, (A3 i j). reflexivity.
  Qed.
End Tr.

Local Open Scope R_scope.
(** ** Occupation *)
Lemma fermi_dist_eq beta mu e : Fermi_dist beta mu e = fermi beta mu e.
Proof.
  unfold Fermi_dist, fermi. destruct (Rle_dec mu e) as [_|_].
  - pose proof (exp_pos (beta * (e - mu))) as He. replace (beta * (mu - e)) with (- (beta * (e - mu))) by ring. rewrite exp_Ropp. field. lra.
  - reflexivity.
Qed.
Lemma fermi_range beta mu e : 0 < fermi beta mu e < 1.
Proof.
  unfold fermi. pose proof (exp_pos (beta * (e - mu))) as He. split.
  - apply Rdiv_lt_0_compat; lra.
  - apply (Rmult_lt_reg_r (1 + exp (beta * (e - mu)))); [lra|]. unfold Rdiv. rewrite Rmult_assoc, Rinv_l by lra. lra.
Qed.
Lemma fermi_decreasing beta mu e1 e2 : 0 < beta -> e1 < e2 -> fermi beta mu e2 < fermi beta mu e1.
Proof.
  intros Hb He. unfold fermi, Rdiv. rewrite !Rmult_1_l. assert (H : exp (beta * (e1 - mu)) < exp (beta * (e2 - mu))) by (apply exp_increasing; nra).
  pose proof (exp_pos (beta * (e1 - mu))). apply Rinv_lt_contravar; [nra|lra].
Qed.
Lemma fermi_symmetric beta mu d : fermi beta mu (mu + d) + fermi beta mu (mu - d) = 1.
Proof.
  unfold fermi. replace (mu + d - mu) with d by ring. replace (beta * (mu - d - mu)) with (- (beta * d)) by ring. rewrite exp_Ropp.
  pose proof (exp_pos (beta * d)). field. split; lra.
Qed.

(** ** Discrete orthogonality *)
Lemma csum_parts n (f : nat -> Cplx) : sum_to n f = (rsum n (fun i => fst (f i)), rsum n (fun i => snd (f i))).
Proof.
  induction n as [|n IH]; [reflexivity|]. rewrite (sum_S CLaws), IH, !rs_S. reflexivity.
Qed.
Lemma cos_sum_grid N k : (0 < k < N)%nat -> rsum N (fun j => cos (INR k * (2 * PI / INR N * INR j))) = 0.
Proof.
  intros Hk. pose proof (ph_sum N (Z.of_nat k) ltac:(lia)) as H. rewrite Z.mod_small in H by lia. destruct (Z.of_nat k =? 0)%Z eqn:Ek; [lia|]. clear Ek.
  rewrite csum_parts in H. apply (f_equal fst) in H. cbn [fst] in H. transitivity (fst (@s0 Cplx CScalar)); [|reflexivity]. rewrite <- H.
  apply sum_ext. intros j _. unfold ph, Ccis. cbn [fst]. f_equal. unfold Ctau. rewrite mult_IZR, !INR_IZR_INZ. assert (IZR (Z.of_nat N) <> 0) by (apply not_0_IZR; lia). field; assumption.
Qed.

(** ** The series is an average of the sampled values *)
Section Average.
  Context (n : nat) (Hn : (1 <= n)%nat).
  Notation N := (2 * n)%nat.
  Notation theta j := (2 * PI / INR N * INR j).
  Definition fcoef (f : nat -> R) (k : nat) : R := jack n k * rsum N (fun j => f j * cos (INR k * theta j)) / INR n.
  Definition kern (t : R) : R := rsum n (fun k => jack n k * cos (INR k * t)).
  Definition weight (t : R) (j : nat) : R := (kern (t - theta j) + kern (t + theta j)) / 2 / INR n.
  Lemma INR_n_pos : 0 < INR n.
  Proof using Hn. apply lt_0_INR. lia. Qed.
  Lemma weight_nonneg t j : 0 <= weight t j.
  Proof using Type Hn.
    unfold weight. pose proof INR_n_pos as HN. pose proof (jack_nonneg n (t - theta j) Hn) as H1. pose proof (jack_nonneg n (t + theta j) Hn) as H2. fold (kern (t - theta j)) in H1. fold (kern (t + theta j)) in H2.
    unfold Rdiv. apply Rmult_le_pos; [lra|]. left. apply Rinv_0_lt_compat. exact HN.
  Qed.
  Lemma weight_eq t j : weight t j = rsum n (fun k => jack n k * cos (INR k * t) * cos (INR k * theta j) / INR n).
  Proof using Type Hn.
    pose proof INR_n_pos as HN. assert (HN0 : INR N <> 0) by (rewrite mult_INR; change (INR 2) with 2; lra). unfold weight, kern. rewrite <- rs_add. unfold Rdiv. rewrite <- !rs_mul_r. apply sum_ext. intros k _.
    replace (INR k * (t - 2 * PI * / INR N * INR j)) with (INR k * t - INR k * (2 * PI * / INR N * INR j)) by ring. replace (INR k * (t + 2 * PI * / INR N * INR j)) with (INR k * t + INR k * (2 * PI * / INR N * INR j)) by ring.
    rewrite cos_minus, cos_plus. field. repeat split; lra.
  Qed.
  Lemma weight_sum t : rsum N (weight t) = 1.
  Proof using Type Hn.
    pose proof INR_n_pos as HN.
    transitivity (rsum N (fun j => rsum n (fun k => jack n k * cos (INR k * t) * cos (INR k * theta j) / INR n))); [apply sum_ext; intros j _; apply weight_eq|].
    rewrite rs_swap. transitivity (rsum n (fun k => jack n k * cos (INR k * t) / INR n * (if Nat.eqb k 0 then INR N else 0))).
    - apply sum_ext. intros k Hk. transitivity (rsum N (fun j => jack n k * cos (INR k * t) / INR n * cos (INR k * theta j))); [apply sum_ext; intros j _; unfold Rdiv; ring|]. rewrite rs_mul. f_equal.
      destruct (Nat.eqb_spec k 0) as [->|Hk0]; [|apply cos_sum_grid; lia].
      transitivity (rsum N (fun _ => 1)); [|rewrite rs_const; ring]. apply sum_ext. intros j _. change (INR 0) with 0. rewrite Rmult_0_l. apply cos_0.
    - assert (E : n = S (n - 1)) by lia. rewrite E at 1. rewrite rs_shift. cbn [Nat.eqb]. change (INR 0) with 0. rewrite Rmult_0_l, cos_0. unfold jack. cbn [Nat.eqb].
      rewrite mult_INR. replace (rsum (n - 1) _) with 0; [change (INR 2) with 2; field; lra|]. symmetry. transitivity (rsum (n - 1) (fun _ => 0)); [|rewrite rs_const; ring]. apply sum_ext. intros i _. ring.
  Qed.
  Lemma series_average f t : rsum n (fun k => fcoef f k * cos (INR k * t)) = rsum N (fun j => f j * weight t j).
  Proof using Type Hn.
    transitivity (rsum N (fun j => rsum n (fun k => f j * (jack n k * cos (INR k * t) * cos (INR k * theta j) / INR n)))).
    - rewrite <- rs_swap. apply sum_ext. intros k _. unfold fcoef.
      transitivity (jack n k * cos (INR k * t) / INR n * rsum N (fun j => f j * cos (INR k * theta j))); [unfold Rdiv; ring|]. rewrite <- rs_mul. apply sum_ext. intros j _. unfold Rdiv. ring.
    - apply sum_ext. intros j _. rewrite rs_mul, weight_eq. reflexivity.
  Qed.
  Lemma series_bounds f a b t : (forall j, (j < N)%nat -> a <= f j <= b) -> a <= rsum n (fun k => fcoef f k * cos (INR k * t)) <= b.
  Proof using Type Hn.
    intros Hf. rewrite series_average. pose proof (weight_sum t) as Hw. split.
    - replace a with (rsum N (fun j => a * weight t j)) by (rewrite rs_mul, Hw; ring). apply rs_le. intros j Hj. pose proof (weight_nonneg t j). apply Rmult_le_compat_r; [assumption|apply Hf, Hj].
    - replace b with (rsum N (fun j => b * weight t j)) by (rewrite rs_mul, Hw; ring). apply rs_le. intros j Hj. pose proof (weight_nonneg t j). apply Rmult_le_compat_r; [assumption|apply Hf, Hj].
  Qed.
End Average.
Lemma fcoef_complement n f k : (1 <= n)%nat -> (k < n)%nat -> fcoef n f k + fcoef n (fun j => 1 - f j) k = if Nat.eqb k 0 then 1 else 0.
Proof.
  intros Hn Hk. assert (HN : 0 < INR n) by (apply lt_0_INR; lia). unfold fcoef.
  assert (E : rsum (2 * n) (fun j => (1 - f j) * cos (INR k * (2 * PI / INR (2 * n) * INR j))) =
              rsum (2 * n) (fun j => cos (INR k * (2 * PI / INR (2 * n) * INR j))) - rsum (2 * n) (fun j => f j * cos (INR k * (2 * PI / INR (2 * n) * INR j)))).
  { rewrite <- rs_sub. apply sum_ext. intros j _. ring. }
  rewrite E. destruct (Nat.eqb_spec k 0) as [->|Hk0].
  - replace (rsum (2 * n) (fun j => cos (INR 0 * (2 * PI / INR (2 * n) * INR j)))) with (INR (2 * n)).
    + unfold jack. cbn [Nat.eqb]. rewrite mult_INR. change (INR 2) with 2. field. lra.
    + transitivity (rsum (2 * n) (fun _ => 1)); [rewrite rs_const; ring|]. apply sum_ext. intros j _. change (INR 0) with 0. rewrite Rmult_0_l, cos_0. reflexivity.
  - rewrite cos_sum_grid by lia. field. lra.
Qed.
