(** Roots of unity in the complex numbers. *)
From Coq Require Import Reals Lra.
From Verif Require Import Prelude Vec Cx S_prop L_prop L_gersh L_fft.
Local Open Scope R_scope.

(** exp(2 pi i k / m) *)
Definition ph (k m : Z) : Cplx := Ccis (Ctau * (IZR k / IZR m)).

Lemma Cis_add a b : Ccis (a + b) = Cmul (Ccis a) (Ccis b).
Proof. unfold Ccis, Cmul. cbn [fst snd]. rewrite cos_plus, sin_plus. f_equal. lra. Qed.
Lemma ph_add k l m : (0 < m)%Z -> ph (k + l) m = smul (ph k m) (ph l m).
Proof.
  intros Hm. unfold ph. change (@smul Cplx CScalar) with Cmul. rewrite <- Cis_add. f_equal. rewrite plus_IZR. assert (IZR m <> 0) by (apply not_0_IZR; lia). field; assumption.
Qed.
Lemma ph_0 m : (0 < m)%Z -> ph 0 m = s1.
Proof. intros Hm. unfold ph. replace (Ctau * (0 / IZR m)) with 0. - unfold Ccis. rewrite cos_0, sin_0. reflexivity. - unfold Rdiv. ring. Qed.
Lemma ph_scale k m : (0 < m)%Z -> ph (2 * k) (2 * m) = ph k m.
Proof. intros Hm. unfold ph. f_equal. rewrite !mult_IZR. assert (IZR m <> 0) by (apply not_0_IZR; lia). field; repeat split; (assumption || lra). Qed.
Lemma ph_half m : (0 < m)%Z -> ph m (2 * m) = sopp s1.
Proof.
  intros Hm. unfold ph. replace (Ctau * _) with PI.
  - unfold Ccis. rewrite cos_PI, sin_PI. ceq; cbn [Cre fst snd]; ring.
  - unfold Ctau. rewrite mult_IZR. assert (IZR m <> 0) by (apply not_0_IZR; lia). field; repeat split; (assumption || lra).
Qed.
Lemma ph_full m k : (0 < m)%Z -> ph (k * m) m = s1.
Proof. intros Hm. apply (R_full CLaws ph ph_add ph_0 ph_scale ph_half). exact Hm. Qed.
Lemma ph_mod k m : (0 < m)%Z -> ph (k mod m) m = ph k m.
Proof.
  intros Hm. rewrite (Z.div_mod k m) at 2 by lia. rewrite (Z.mul_comm m), ph_add, ph_full by exact Hm. ceq; cbn [Cre fst snd]; ring.
Qed.
Lemma ph_conj k m : (0 < m)%Z -> Cconj (ph k m) = ph (- k) m.
Proof.
  intros Hm. unfold ph, Ccis, Cconj. cbn [fst snd]. rewrite opp_IZR. replace (Ctau * (- IZR k / IZR m)) with (- (Ctau * (IZR k / IZR m))) by (unfold Rdiv; ring).
  rewrite cos_neg, sin_neg. reflexivity.
Qed.
Lemma ph_ne1 k m : (0 < k < m)%Z -> ph k m <> s1.
Proof.
  intros H He. apply (f_equal fst) in He. unfold ph in He. cbn [fst Ccis s1 CScalar Cre] in He.
  assert (0 < IZR m) by (apply IZR_lt; lia). assert (0 < IZR k) by (apply IZR_lt; lia). assert (IZR k < IZR m) by (apply IZR_lt; lia).
  replace (Ctau * (IZR k / IZR m)) with (2 * (PI * (IZR k / IZR m))) in He by (unfold Ctau; ring). rewrite cos_2a_sin in He.
  assert (0 < sin (PI * (IZR k / IZR m))).
  { pose proof PI_RGT_0. assert (0 < IZR k / IZR m) by (apply Rdiv_lt_0_compat; assumption). assert (IZR k / IZR m < 1) by (apply Rmult_lt_reg_r with (IZR m); [assumption|]; unfold Rdiv; rewrite Rmult_assoc, Rinv_l by lra; lra).
    apply sin_gt_0; [apply Rmult_lt_0_compat; assumption|]. rewrite <- (Rmult_1_r PI) at 2. apply Rmult_lt_compat_l; assumption. }
  assert (0 < sin (PI * (IZR k / IZR m)) * sin (PI * (IZR k / IZR m))) by (apply Rmult_lt_0_compat; assumption). lra.
Qed.

Lemma Cmul_0 (a b : Cplx) : Cmul a b = s0 -> a <> s0 -> b = s0.
Proof.
  intros H Ha. pose proof (f_equal fst H) as H1. pose proof (f_equal snd H) as H2. cbn [fst snd Cmul s0 CScalar Cre] in H1, H2. destruct a as [a1 a2], b as [b1 b2]. cbn [fst snd] in *.
  assert (Hn : a1 * a1 + a2 * a2 <> 0).
  { intros He. apply Ha. assert (a1 = 0) by nra. assert (a2 = 0) by nra. subst. reflexivity. }
  apply Ceq; cbn [fst snd s0 CScalar Cre].
  - apply (Rmult_eq_reg_l (a1 * a1 + a2 * a2)); [|exact Hn]. transitivity (a1 * (a1 * b1 - a2 * b2) + a2 * (a1 * b2 + a2 * b1)); [ring|]. rewrite H1, H2. ring.
  - apply (Rmult_eq_reg_l (a1 * a1 + a2 * a2)); [|exact Hn]. transitivity (a1 * (a1 * b2 + a2 * b1) - a2 * (a1 * b1 - a2 * b2)); [ring|]. rewrite H1, H2. ring.
Qed.

Section Sums.
  Add Ring cring : (s_ring Cplx CLaws).
  Lemma telescope (f : nat -> Cplx) n : sum_to n (fun r => ssub (f (S r)) (f r)) = ssub (f n) (f 0%nat).
  Proof. induction n as [|n IH]; [unfold sum_to; cbn [seq map]; rewrite esum_nil by exact CLaws; ring|]. rewrite (sum_S CLaws), IH. ring. Qed.
  Lemma sum_const n (c : Cplx) : sum_to n (fun _ => c) = smul (sZ (Z.of_nat n)) c.
  Proof.
    induction n as [|n IH]; [unfold sum_to; cbn [seq map]; rewrite esum_nil by exact CLaws; change (Z.of_nat 0) with 0%Z; rewrite (sZ_0 Cplx CLaws); ring|].
    rewrite (sum_S CLaws), IH, Nat2Z.inj_succ. unfold Z.succ. rewrite (sZ_add Cplx CLaws), (sZ_1 Cplx CLaws). ring.
  Qed.
  (** Orthogonality. *)
  Lemma ph_sum n d : (0 < n)%nat ->
    sum_to n (fun r => ph (d * Z.of_nat r) (Z.of_nat n)) = if (d mod Z.of_nat n =? 0)%Z then sZ (Z.of_nat n) else s0.
  Proof.
    intros Hn. destruct (d mod Z.of_nat n =? 0)%Z eqn:Hd.
    - transitivity (sum_to n (fun _ => s1)); [|rewrite sum_const; ring]. apply sum_ext. intros r _. rewrite <- ph_mod by lia.
      replace ((d * Z.of_nat r) mod Z.of_nat n)%Z with 0%Z; [apply ph_0; lia|]. rewrite Z.mul_mod by lia. replace (d mod Z.of_nat n)%Z with 0%Z by lia. rewrite Z.mul_0_l. symmetry. apply Z.mod_0_l. lia.
    - apply (Cmul_0 (ssub (ph d (Z.of_nat n)) s1)).
      + change Cmul with (@smul Cplx CScalar). rewrite <- (sum_mul CLaws). rewrite (sum_ext _ _ (fun r => ssub (ph (d * Z.of_nat (S r)) (Z.of_nat n)) (ph (d * Z.of_nat r) (Z.of_nat n)))).
        * rewrite (telescope (fun r => ph (d * Z.of_nat r) (Z.of_nat n))). rewrite ph_full by lia. change (Z.of_nat 0) with 0%Z. rewrite Z.mul_0_r, ph_0 by lia. ring.
        * intros r _. replace (d * Z.of_nat (S r))%Z with (d * Z.of_nat r + d)%Z by lia. rewrite ph_add by lia. ring.
      + intros H. apply (ph_ne1 (d mod Z.of_nat n) (Z.of_nat n)); [pose proof (Z.mod_pos_bound d (Z.of_nat n) ltac:(lia)); lia|]. rewrite ph_mod by lia.
        transitivity (sadd (ssub (ph d (Z.of_nat n)) s1) s1); [ring|]. rewrite H. ring.
  Qed.

  Lemma fourier_inverse sgn n (x : nat -> Cplx) t : sgn = 1%Z \/ sgn = (-1)%Z -> (t < n)%nat ->
    fourier ph (- sgn) n (fourier ph sgn n x) t = smul (sZ (Z.of_nat n)) (x t).
  Proof.
    intros Hs Ht. unfold fourier.
    transitivity (sum_to n (fun r => smul (x r) (sum_to n (fun k => ph (sgn * (Z.of_nat r - Z.of_nat t) * Z.of_nat k) (Z.of_nat n))))).
    - rewrite (sum_ext _ _ (fun k => sum_to n (fun r => smul (x r) (ph (sgn * (Z.of_nat r - Z.of_nat t) * Z.of_nat k) (Z.of_nat n))))).
      + rewrite (sum_swap CLaws). apply sum_ext. intros r _. apply (sum_mul CLaws).
      + intros k _. rewrite <- (sum_mul_r CLaws). apply sum_ext. intros r _.
        replace (sgn * (Z.of_nat r - Z.of_nat t) * Z.of_nat k)%Z with (sgn * (Z.of_nat r * Z.of_nat k) + - sgn * (Z.of_nat k * Z.of_nat t))%Z by lia. rewrite ph_add by lia. ring.
    - rewrite (sum_ext _ _ (fun r => if Nat.eqb r t then smul (x r) (sZ (Z.of_nat n)) else s0)); [rewrite (sum_one CLaws) by exact Ht; ring|].
      intros r Hr. rewrite ph_sum by lia. destruct (Nat.eqb r t) eqn:E.
      + apply Nat.eqb_eq in E. subst r. replace (sgn * (Z.of_nat t - Z.of_nat t))%Z with 0%Z by lia. rewrite Z.mod_0_l by lia. reflexivity.
      + apply Nat.eqb_neq in E. replace (_ =? 0)%Z with false; [ring|]. symmetry. apply Z.eqb_neq. intros Hm. apply Z.mod_divide in Hm; [|lia]. destruct Hm as (q & Hq).
        assert (Hab : (Z.abs (sgn * (Z.of_nat r - Z.of_nat t)) < Z.of_nat n)%Z) by (destruct Hs; subst sgn; lia). rewrite Hq in Hab. rewrite Z.abs_mul in Hab.
        assert (q = 0)%Z by nia. subst q. destruct Hs; subst sgn; lia.
  Qed.
End Sums.
