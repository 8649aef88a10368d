(** Jackson kernel and the Fermi operator. *)
From Coq Require Import Reals Lra.
From Verif Require Import Prelude Vec Cx M_super M_sample M_fft M_ana S_prop L_base L_csr L_prop L_gersh L_fft L_dft.
Local Open Scope R_scope.

Notation rsum := (@sum_to R RScalar).
Lemma rs_0 f : rsum 0 f = 0.
Proof. reflexivity. Qed.
Lemma rs_S n f : rsum (S n) f = rsum n f + f n.
Proof. rewrite (sum_S RLaws). reflexivity. Qed.
Lemma rs_shift n f : rsum (S n) f = f 0%nat + rsum n (fun i => f (S i)).
Proof. rewrite (sum_shift RLaws). reflexivity. Qed.
Lemma rs_add n f g : rsum n (fun i => f i + g i) = rsum n f + rsum n g.
Proof. apply (sum_add RLaws). Qed.
Lemma rs_sub n f g : rsum n (fun i => f i - g i) = rsum n f - rsum n g.
Proof. apply (sum_sub RLaws). Qed.
Lemma rs_mul n c f : rsum n (fun i => c * f i) = c * rsum n f.
Proof. apply (sum_mul RLaws). Qed.
Lemma rs_mul_r n c f : rsum n (fun i => f i * c) = rsum n f * c.
Proof. apply (sum_mul_r RLaws). Qed.
Lemma rs_swap n m f : rsum n (fun i => rsum m (f i)) = rsum m (fun j => rsum n (fun i => f i j)).
Proof. apply (sum_swap RLaws). Qed.
Lemma rs_const n c : rsum n (fun _ => c) = INR n * c.
Proof. induction n as [|n IH]; [rewrite rs_0; cbn [INR]; ring|]. rewrite rs_S, IH, S_INR. ring. Qed.
Lemma rs_le n f g : (forall i, (i < n)%nat -> f i <= g i) -> rsum n f <= rsum n g.
Proof. induction n as [|n IH]; intros H; [rewrite !rs_0; lra|]. rewrite !rs_S. specialize (H n ltac:(lia)) as Hn. specialize (IH ltac:(intros i Hi; apply H; lia)). lra. Qed.
Lemma rs_rev n f : rsum n f = rsum n (fun i => f (n - 1 - i)%nat).
Proof.
  induction n as [|n IH]; [reflexivity|]. rewrite rs_S, rs_shift, Rplus_comm. f_equal; [f_equal; lia|]. rewrite IH. apply sum_ext. intros i Hi. f_equal. lia.
Qed.

(** ** Squares of trigonometric sums *)
Lemma square_sum (a : nat -> R) th n :
  rsum n (fun j => a j * cos (INR j * th)) ^ 2 + rsum n (fun j => a j * sin (INR j * th)) ^ 2 =
  rsum n (fun j => a j * a j) + 2 * rsum (n - 1) (fun k => cos (INR (S k) * th) * rsum (n - S k) (fun j => a j * a (j + S k)%nat)).
Proof.
  induction n as [|n IH]; [cbn [Nat.sub]; rewrite !rs_0; ring|]. rewrite !rs_S.
  set (c := rsum n (fun j => a j * cos (INR j * th))) in *. set (s := rsum n (fun j => a j * sin (INR j * th))) in *.
  replace (S n - 1)%nat with n by lia.
  transitivity (c ^ 2 + s ^ 2 + a n * a n * ((sin (INR n * th)) ^ 2 + (cos (INR n * th)) ^ 2) + 2 * (a n * (cos (INR n * th) * c + sin (INR n * th) * s))); [ring|].
  replace ((sin (INR n * th)) ^ 2 + (cos (INR n * th)) ^ 2) with 1 by (pose proof (sin2_cos2 (INR n * th)) as H; unfold Rsqr in H; lra).
  rewrite IH. replace (cos (INR n * th) * c + sin (INR n * th) * s) with (rsum n (fun j => a j * cos (INR (n - j) * th))).
  2: { unfold c, s. rewrite <- !rs_mul, <- rs_add. apply sum_ext. intros j Hj. rewrite minus_INR by lia. replace ((INR n - INR j) * th) with (INR n * th - INR j * th) by ring. rewrite cos_minus. ring. }
  rewrite (rs_rev n (fun j => a j * cos (INR (n - j) * th))).
  assert (Hk : rsum n (fun k => cos (INR (S k) * th) * rsum (S n - S k) (fun j => a j * a (j + S k)%nat)) =
               rsum n (fun k => cos (INR (S k) * th) * rsum (n - S k) (fun j => a j * a (j + S k)%nat)) + rsum n (fun k => cos (INR (S k) * th) * (a (n - 1 - k)%nat * a n))).
  { rewrite <- rs_add. apply sum_ext. intros k Hk. replace (S n - S k)%nat with (S (n - S k)) by lia. rewrite rs_S. replace (n - S k + S k)%nat with n by lia. replace (n - S k)%nat with (n - 1 - k)%nat by lia. ring. }
  rewrite Hk. destruct n as [|m].
  - cbn [Nat.sub]. rewrite !rs_0. ring.
  - replace (S m - 1)%nat with m by lia. rewrite (rs_S m (fun k => cos (INR (S k) * th) * rsum (S m - S k) (fun j => a j * a (j + S k)%nat))). rewrite (Nat.sub_diag (S m)), rs_0.
    replace (rsum (S m) (fun k => cos (INR (S k) * th) * (a (m - k)%nat * a (S m)))) with (a (S m) * rsum (S m) (fun i => a (m - i)%nat * cos (INR (S m - (m - i)) * th))); [ring|].
    rewrite <- rs_mul. apply sum_ext. intros k Hk'. replace (S m - (m - k))%nat with (S k) by lia. ring.
Qed.

(** ** Jackson kernel *)
Definition jack (n k : nat) : R :=
  if Nat.eqb k 0 then 1 / 2 else (INR (n - k) * cos (PI / INR n * INR k) + cos (PI / INR n) / sin (PI / INR n) * sin (PI / INR n * INR k)) / INR n.

Section Jackson.
  Context (n : nat) (Hn : (2 <= n)%nat).
  Let q := PI / INR n.
  Lemma INR_pos : 0 < INR n.
  Proof using Hn. apply lt_0_INR. lia. Qed.
  Lemma sin_q : 0 < sin q.
  Proof using Hn.
    pose proof INR_pos. pose proof PI_RGT_0. assert (2 <= INR n) by (replace 2 with (INR 2) by (cbn; lra); apply le_INR; exact Hn). unfold q. apply sin_gt_0.
    - apply Rdiv_lt_0_compat; assumption.
    - apply (Rmult_lt_reg_r (INR n)); [assumption|]. unfold Rdiv. rewrite Rmult_assoc, Rinv_l by lra. nra.
  Qed.
  Lemma cos_telescope k m : 2 * sin q * rsum m (fun j => cos (2 * q * INR (S j) + q * INR k)) = sin (q * (2 * INR m + 1 + INR k)) - sin (q * (1 + INR k)).
  Proof using Type.
    induction m as [|m IH]; [rewrite rs_0; cbn [INR]; replace (q * (2 * 0 + 1 + INR k)) with (q * (1 + INR k)) by ring; ring|].
    rewrite rs_S, Rmult_plus_distr_l, IH. rewrite !S_INR.
    replace (q * (2 * (INR m + 1) + 1 + INR k)) with (2 * q * (INR m + 1) + q * INR k + q) by ring. replace (q * (2 * INR m + 1 + INR k)) with (2 * q * (INR m + 1) + q * INR k - q) by ring.
    rewrite sin_plus, sin_minus. ring.
  Qed.
  (** Correlation of the sequence sin (q (j + 1)). *)
  Lemma autocorr k : (k < n)%nat -> rsum (n - 1 - k) (fun j => sin (q * INR (S j)) * sin (q * INR (S (j + k)))) =
    (INR (n - k) * cos (q * INR k) + cos q / sin q * sin (q * INR k)) / 2.
  Proof using Hn.
    intros Hk. pose proof sin_q as Hs. pose proof INR_pos as HN. set (m := (n - 1 - k)%nat).
    transitivity (rsum m (fun j => / 2 * (cos (q * INR k) - cos (2 * q * INR (S j) + q * INR k)))).
    - apply sum_ext. intros j _. rewrite (S_INR (j + k)), plus_INR, (S_INR j).
      replace (cos (q * INR k)) with (cos (q * (INR j + INR k + 1) - q * (INR j + 1))) by (f_equal; ring). replace (2 * q * (INR j + 1) + q * INR k) with (q * (INR j + INR k + 1) + q * (INR j + 1)) by ring.
      rewrite cos_minus, cos_plus. field.
    - rewrite rs_mul, rs_sub, rs_const. pose proof (cos_telescope k m) as Ht.
      replace (q * (2 * INR m + 1 + INR k)) with (2 * PI - q * (1 + INR k)) in Ht.
      2: { unfold m. rewrite !minus_INR by lia. cbn [INR]. replace (2 * (INR n - 1 - INR k) + 1 + INR k) with (2 * INR n - (1 + INR k)) by ring. unfold q. field; lra. }
      rewrite sin_minus, sin_2PI, cos_2PI in Ht. replace (q * (1 + INR k)) with (q * INR k + q) in Ht by ring. rewrite sin_plus in Ht.
      assert (Hr : rsum m (fun j => cos (2 * q * INR (S j) + q * INR k)) = - (sin (q * INR k) * (cos q / sin q) + cos (q * INR k))).
      { apply (Rmult_eq_reg_l (2 * sin q)); [|lra]. rewrite Ht. field. lra. }
      rewrite Hr. unfold m. rewrite !minus_INR by lia. cbn [INR]. field. lra.
  Qed.
  Lemma jack_square th : rsum n (fun k => jack n k * cos (INR k * th)) =
    / INR n * (rsum (n - 1) (fun j => sin (q * INR (S j)) * cos (INR j * th)) ^ 2 + rsum (n - 1) (fun j => sin (q * INR (S j)) * sin (INR j * th)) ^ 2).
  Proof using Hn.
    pose proof INR_pos as HN. rewrite (square_sum (fun j => sin (q * INR (S j)))).
    assert (H0 : rsum (n - 1) (fun j => sin (q * INR (S j)) * sin (q * INR (S j))) = INR n / 2).
    { pose proof (autocorr 0 ltac:(lia)) as H. rewrite !Nat.sub_0_r in H. change (INR 0) with 0 in H. rewrite Rmult_0_r, cos_0, sin_0 in H.
      transitivity (rsum (n - 1) (fun j => sin (q * INR (S j)) * sin (q * INR (S (j + 0))))); [apply sum_ext; intros j _; rewrite Nat.add_0_r; reflexivity|]. rewrite H. field. apply Rgt_not_eq, sin_q. }
    rewrite H0. assert (HS : rsum n (fun k => jack n k * cos (INR k * th)) = 1 / 2 + rsum (n - 1) (fun k => jack n (S k) * cos (INR (S k) * th))).
    { transitivity (rsum (S (n - 1)) (fun k => jack n k * cos (INR k * th))); [f_equal; lia|]. rewrite rs_shift. f_equal. change (INR 0) with 0. rewrite Rmult_0_l, cos_0. unfold jack. cbn [Nat.eqb]. ring. }
    rewrite HS. clear HS. transitivity (1 / 2 + / INR n * (2 * rsum (n - 1 - 1) (fun k => cos (INR (S k) * th) * rsum (n - 1 - S k) (fun j => sin (q * INR (S j)) * sin (q * INR (S (j + S k))))))); [|field; lra].
    f_equal. assert (HL : rsum (n - 1) (fun k => jack n (S k) * cos (INR (S k) * th)) = rsum (n - 1) (fun k => / INR n * (2 * (cos (INR (S k) * th) * rsum (n - 1 - S k) (fun j => sin (q * INR (S j)) * sin (q * INR (S (j + S k)))))))).
    { apply sum_ext. intros k Hk. rewrite autocorr by lia. unfold jack. cbn [Nat.eqb]. fold q. field. split; [apply Rgt_not_eq, sin_q|lra]. }
    rewrite HL, !rs_mul. do 2 f_equal. generalize (fun j k => sin (q * INR (S j)) * sin (q * INR (S (j + S k)))). intros F.
    assert (E : (n - 1 = S (n - 1 - 1))%nat) by lia. rewrite E at 1. rewrite rs_S. rewrite <- E, Nat.sub_diag, rs_0. ring.
  Qed.
End Jackson.
Lemma jack_nonneg n th : (1 <= n)%nat -> 0 <= rsum n (fun k => jack n k * cos (INR k * th)).
Proof.
  intros Hn. destruct (Nat.eq_dec n 1) as [->|Hn1].
  - rewrite rs_S, rs_0. unfold jack. cbn [Nat.eqb INR]. rewrite Rmult_0_l, cos_0. lra.
  - rewrite jack_square by lia. assert (0 < INR n) by (apply lt_0_INR; lia). apply Rmult_le_pos; [left; apply Rinv_0_lt_compat; assumption|]. nra.
Qed.
