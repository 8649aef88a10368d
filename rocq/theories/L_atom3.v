(** Integrals of polynomials times exp(-x), and the norm of Kummer polynomials. *)
From Coq Require Import Reals Lra Lia.
From Verif Require Import Prelude M_atom S_atom L_atom.
Open Scope R_scope.

(** ** Vanishing at infinity *)
Definition vanish (f : R -> R) : Prop := forall eps, 0 < eps -> exists M, forall r, M < r -> Rabs (f r) < eps.
Lemma vanish_ext f g : (forall r, f r = g r) -> vanish f -> vanish g.
Proof. intros H V eps He. destruct (V eps He) as (M & HM). exists M. intros r Hr. rewrite <- H. apply HM, Hr. Qed.
Lemma vanish_add f g : vanish f -> vanish g -> vanish (fun r => f r + g r).
Proof.
  intros V W eps He. destruct (V (eps / 2) ltac:(lra)) as (M & HM), (W (eps / 2) ltac:(lra)) as (M' & HM'). exists (Rmax M M'). intros r Hr.
  pose proof (Rmax_l M M'). pose proof (Rmax_r M M'). specialize (HM r ltac:(lra)). specialize (HM' r ltac:(lra)). pose proof (Rabs_triang (f r) (g r)). lra.
Qed.
Lemma vanish_scal a f : vanish f -> vanish (fun r => a * f r).
Proof.
  intros V eps He. pose proof (Rabs_pos a) as Ha. destruct (V (eps / (Rabs a + 1))) as (M & HM); [apply Rdiv_lt_0_compat; lra|]. exists M. intros r Hr. specialize (HM r Hr). rewrite Rabs_mult.
  apply Rle_lt_trans with (Rabs a * (eps / (Rabs a + 1))); [apply Rmult_le_compat_l; lra|]. apply Rmult_lt_reg_r with (Rabs a + 1); [lra|]. replace (Rabs a * (eps / (Rabs a + 1)) * (Rabs a + 1)) with (Rabs a * eps) by (field; lra). lra.
Qed.
Lemma vanish_zero : vanish (fun _ => 0).
Proof. intros eps He. exists 0. intros. rewrite Rabs_R0. exact He. Qed.
Lemma vanish_comp c f : 0 < c -> vanish f -> vanish (fun r => f (c * r)).
Proof.
  intros Hc V eps He. destruct (V eps He) as (M & HM). exists (M / c). intros r Hr. apply HM. apply Rmult_lt_reg_r with (/ c); [apply Rinv_0_lt_compat, Hc|]. replace (c * r * / c) with r by (field; lra). exact Hr.
Qed.
Lemma exp_mult_pow n y : exp (INR n * y) = exp y ^ n.
Proof. induction n as [|n IH]; [cbn [INR pow]; rewrite Rmult_0_l; apply exp_0|]. rewrite S_INR, Rmult_plus_distr_r, Rmult_1_l, exp_plus, IH. cbn [pow]. ring. Qed.
Lemma exp_bound k x : 0 < x -> x ^ (S k) <= INR (S k) ^ (S k) * exp x.
Proof.
  intros Hx. assert (Hk : 0 < INR (S k)) by (apply lt_0_INR; lia). replace (exp x) with (exp (x / INR (S k)) ^ S k) by (rewrite <- exp_mult_pow; f_equal; field; lra).
  rewrite <- Rpow_mult_distr. apply pow_incr. split; [lra|]. assert (H : x / INR (S k) <= exp (x / INR (S k))) by (pose proof (exp_ineq1_le (x / INR (S k))); lra).
  apply Rmult_le_reg_r with (/ INR (S k)); [apply Rinv_0_lt_compat, Hk|]. replace (INR (S k) * exp (x / INR (S k)) * / INR (S k)) with (exp (x / INR (S k))) by (field; lra). exact H.
Qed.
Lemma vanish_pow k : vanish (fun x => x ^ k * exp (- x)).
Proof.
  intros eps He. set (B := INR (S k) ^ (S k)). assert (HB : 0 < B) by (apply pow_lt, lt_0_INR; lia). exists (B / eps). intros x Hx.
  assert (Hx0 : 0 < x) by (assert (0 < B / eps) by (apply Rdiv_lt_0_compat; lra); lra).
  pose proof (exp_bound k x Hx0) as Hb. fold B in Hb. pose proof (exp_pos x) as Hp. pose proof (pow_lt x k Hx0) as Hpk.
  rewrite exp_Ropp, Rabs_right by (apply Rle_ge, Rmult_le_pos; [lra|apply Rlt_le, Rinv_0_lt_compat, Hp]).
  apply Rmult_lt_reg_r with (x * exp x); [nra|]. replace (x ^ k * / exp x * (x * exp x)) with (x ^ S k) by (cbn [pow]; field; lra).
  assert (B < eps * x). { apply Rmult_lt_reg_r with (/ eps); [apply Rinv_0_lt_compat, He|]. replace (eps * x * / eps) with x by (field; lra). exact Hx. }
  nra.
Qed.

(** ** Integrals *)
Lemma radii_ext f g v : (forall r, f r = g r) -> integral_radii f v -> integral_radii g v.
Proof. intros H (F & D & L). exists F. split; [|exact L]. intros r. rewrite <- H. apply D. Qed.
Lemma radii_vanish F f v : (forall r, derivable_pt_lim F r (f r)) -> vanish (fun r => F r - F 0 - v) -> integral_radii f v.
Proof. intros D V. exists F. split; [exact D|exact V]. Qed.
Lemma radii_add f g v w : integral_radii f v -> integral_radii g w -> integral_radii (fun r => f r + g r) (v + w).
Proof.
  intros (F & D & L) (G & D' & L'). apply (radii_vanish (fun r => F r + G r)).
  - intros r. apply (derivable_pt_lim_plus F G); [apply D|apply D'].
  - apply (vanish_ext (fun r => (F r - F 0 - v) + (G r - G 0 - w))); [intros; ring|]. exact (vanish_add (fun r => F r - F 0 - v) (fun r => G r - G 0 - w) L L').
Qed.
Lemma radii_scal a f v : integral_radii f v -> integral_radii (fun r => a * f r) (a * v).
Proof.
  intros (F & D & L). apply (radii_vanish (fun r => a * F r)).
  - intros r. apply (derivable_pt_lim_scal F), D.
  - apply (vanish_ext (fun r => a * (F r - F 0 - v))); [intros; ring|]. exact (vanish_scal a (fun r => F r - F 0 - v) L).
Qed.
Lemma radii_comp c f v : 0 < c -> integral_radii f v -> integral_radii (fun r => f (c * r)) (v / c).
Proof.
  intros Hc (F & D & L). apply (radii_vanish (fun r => / c * F (c * r))).
  - intros r. replace (f (c * r)) with (/ c * (f (c * r) * c)) by (field; lra). apply (derivable_pt_lim_scal (fun r => F (c * r))), comp_deriv, D.
  - apply (vanish_ext (fun r => / c * (F (c * r) - F 0 - v))); [intros; rewrite Rmult_0_r; field; lra|]. exact (vanish_scal (/ c) (fun r => F (c * r) - F 0 - v) (vanish_comp c (fun r => F r - F 0 - v) Hc L)).
Qed.
Lemma exp_neg_deriv x : derivable_pt_lim (fun x => exp (- x)) x (- exp (- x)).
Proof.
  replace (- exp (- x)) with (exp (- x) * -1) by ring. apply (derivable_pt_lim_comp Ropp exp); [|apply derivable_pt_lim_exp]. apply (derivable_pt_lim_opp (fun x => x)), derivable_pt_lim_id.
Qed.
Lemma radii_pow k : integral_radii (fun x => x ^ k * exp (- x)) (INR (fact k)).
Proof.
  induction k as [|k (F & D & L)].
  - apply (radii_vanish (fun x => - exp (- x))).
    + intros x. replace (x ^ 0 * exp (- x)) with (- - exp (- x)) by (cbn [pow]; ring). apply (derivable_pt_lim_opp (fun x => exp (- x))), exp_neg_deriv.
    + apply (vanish_ext (fun x => -1 * (x ^ 0 * exp (- x)))); [|apply vanish_scal, vanish_pow]. intros x. cbn [pow fact INR]. rewrite Ropp_0, exp_0. ring.
  - apply (radii_vanish (fun x => INR (S k) * F x - x ^ S k * exp (- x))).
    + intros x. replace (x ^ S k * exp (- x)) with (INR (S k) * (x ^ k * exp (- x)) - (INR (S k) * x ^ pred (S k) * exp (- x) + x ^ S k * - exp (- x))) by (cbn [pred]; ring).
      apply (derivable_pt_lim_minus (fun x => INR (S k) * F x) (fun x => x ^ S k * exp (- x))); [apply (derivable_pt_lim_scal F), D|].
      apply (derivable_pt_lim_mult (fun x => x ^ S k) (fun x => exp (- x))); [apply derivable_pt_lim_pow|apply exp_neg_deriv].
    + apply (vanish_ext (fun x => INR (S k) * (F x - F 0 - INR (fact k)) + -1 * (x ^ S k * exp (- x)))).
      * intros x. change (fact (S k)) with (S k * fact k)%nat. rewrite mult_INR. cbn [pow]. ring.
      * apply vanish_add; apply vanish_scal; [exact L|apply vanish_pow].
Qed.
Definition gsum (c : nat -> R) (N s : nat) : R := sum_f_R0 (fun k => c k * INR (fact (k + s))) N.
Lemma radii_psum c N s : integral_radii (fun x => x ^ s * psum c N x * exp (- x)) (gsum c N s).
Proof.
  unfold gsum. induction N as [|N IH]; cbn [psum sum_f_R0].
  - apply (radii_ext (fun x => c O * (x ^ s * exp (- x)))); [intros; ring|]. apply radii_scal. exact (radii_pow s).
  - apply (radii_ext (fun x => x ^ s * psum c N x * exp (- x) + c (S N) * (x ^ (S N + s) * exp (- x)))); [intros; rewrite pow_add; ring|]. apply radii_add; [exact IH|]. apply radii_scal, radii_pow.
Qed.
Lemma radii_psum2 c d N M s : integral_radii (fun x => x ^ s * psum c N x * psum d M x * exp (- x)) (sum_f_R0 (fun j => d j * gsum c N (j + s)) M).
Proof.
  induction M as [|M IH]; cbn [psum sum_f_R0].
  - apply (radii_ext (fun x => d O * (x ^ s * psum c N x * exp (- x)))); [intros; ring|]. apply radii_scal, radii_psum.
  - apply (radii_ext (fun x => x ^ s * psum c N x * psum d M x * exp (- x) + d (S M) * (x ^ (S M + s) * psum c N x * exp (- x)))); [intros; rewrite pow_add; ring|]. apply radii_add; [exact IH|]. apply radii_scal, radii_psum.
Qed.

(** ** Finite differences *)
Fixpoint bin (n k : nat) : nat := match n, k with _, O => 1 | O, S _ => 0 | S n', S k' => bin n' k' + bin n' k end.
Lemma bin_0 n : bin n 0 = 1%nat. Proof. destruct n; reflexivity. Qed.
Lemma bin_gt n : forall k, (n < k)%nat -> bin n k = 0%nat.
Proof. induction n as [|n IH]; intros [|k] H; try lia; [reflexivity|]. cbn [bin]. rewrite !IH by lia. reflexivity. Qed.
Lemma bin_step n : forall k, (bin n (S k) * S k + bin n k * k = bin n k * n)%nat.
Proof.
  induction n as [|n IH]; intros k; [destruct k; reflexivity|]. destruct k as [|k].
  - cbn [bin]. specialize (IH 0%nat). rewrite bin_0 in *. lia.
  - cbn [bin]. pose proof (IH k) as A. pose proof (IH (S k)) as B. cbn [bin] in *. nia.
Qed.
Definition dd (N : nat) (f : nat -> R) : R := sum_f_R0 (fun k => (-1) ^ k * INR (bin N k) * f k) N.
Lemma sum_shift f N : sum_f_R0 f (S N) = f O + sum_f_R0 (fun k => f (S k)) N.
Proof. rewrite decomp_sum by lia. reflexivity. Qed.
Lemma dd_S N f : dd (S N) f = dd N f - dd N (fun k => f (S k)).
Proof.
  unfold dd. rewrite sum_shift. cbn [bin].
  assert (A : sum_f_R0 (fun k => (-1) ^ k * INR (bin N k) * f k) (S N) = sum_f_R0 (fun k => (-1) ^ k * INR (bin N k) * f k) N) by (cbn [sum_f_R0]; rewrite (bin_gt N (S N)) by lia; cbn [INR]; ring).
  rewrite sum_shift in A. rewrite <- A. rewrite bin_0. unfold Rminus. rewrite !Rplus_assoc. f_equal.
  rewrite <- (Rmult_1_l (sum_f_R0 (fun k => (-1) ^ k * INR (bin N k) * f (S k)) N)), Ropp_mult_distr_l, scal_sum, <- plus_sum. apply sum_eq. intros k _. rewrite plus_INR. cbn [pow]. ring.
Qed.
Lemma dd_ext N f g : (forall k, f k = g k) -> dd N f = dd N g.
Proof. intros H. apply sum_eq. intros k _. rewrite H. reflexivity. Qed.
Lemma dd_scal N a f : dd N (fun k => a * f k) = a * dd N f.
Proof. unfold dd. rewrite scal_sum. apply sum_eq. intros; ring. Qed.
Lemma dd_sub N f g : dd N (fun k => f k - g k) = dd N f - dd N g.
Proof. unfold dd. rewrite <- minus_sum. apply sum_eq. intros; ring. Qed.

(** Rising factorials *)
Fixpoint rf (j : nat) (a : R) : R := match j with O => 1 | S i => a * rf i (a + 1) end.
Lemma rf_end j : forall a, rf (S j) a = rf j a * (a + INR j).
Proof.
  induction j as [|j IH]; intros a; [cbn [rf INR]; ring|]. change (rf (S (S j)) a) with (a * rf (S j) (a + 1)). rewrite IH. cbn [rf]. rewrite S_INR. ring.
Qed.
Lemma rf_diff j a : rf (S j) (a + 1) - rf (S j) a = INR (S j) * rf j (a + 1).
Proof. rewrite rf_end. cbn [rf]. rewrite S_INR. ring. Qed.
Lemma rf_fact m j : INR (fact (j + m)) = INR (fact m) * rf j (INR m + 1).
Proof.
  induction j as [|j IH]; [cbn [rf Nat.add]; ring|]. rewrite rf_end, <- Rmult_assoc, <- IH. cbn [Nat.add]. change (fact (S (j + m))) with (S (j + m) * fact (j + m))%nat. rewrite mult_INR, S_INR, plus_INR. ring.
Qed.
Lemma dd_rf_S N j a : dd (S N) (fun k => rf (S j) (a + INR k)) = - INR (S j) * dd N (fun k => rf j ((a + 1) + INR k)).
Proof.
  rewrite dd_S, <- dd_sub, <- dd_scal. apply dd_ext. intros k. rewrite S_INR. replace (a + (INR k + 1)) with ((a + INR k) + 1) by ring. replace (a + 1 + INR k) with ((a + INR k) + 1) by ring.
  pose proof (rf_diff j (a + INR k)). lra.
Qed.
Lemma dd_rf_lt N : forall j a, (j < N)%nat -> dd N (fun k => rf j (a + INR k)) = 0.
Proof.
  induction N as [|N IH]; intros j a H; [lia|]. destruct j as [|j].
  - rewrite dd_S. cbn [rf]. ring.
  - rewrite dd_rf_S, IH by lia. ring.
Qed.
Lemma dd_rf_eq N : forall a, dd N (fun k => rf N (a + INR k)) = (-1) ^ N * INR (fact N).
Proof.
  induction N as [|N IH]; intros a; [cbn; ring|]. rewrite dd_rf_S, IH. change (fact (S N)) with (S N * fact N)%nat. rewrite mult_INR. cbn [pow]. ring.
Qed.
Lemma dd_rf_next N : forall a, dd N (fun k => rf (S N) (a + INR k)) = (-1) ^ N * INR (fact (S N)) * (a + INR N).
Proof.
  induction N as [|N IH]; intros a; [cbn; ring|]. rewrite dd_rf_S, IH. change (fact (S (S N))) with (S (S N) * fact (S N))%nat. rewrite mult_INR. rewrite (S_INR N). cbn [pow]. ring.
Qed.

Lemma dd_rf_rw0 N a : N = O -> dd N (fun k => rf 1 (a + INR k)) = a.
Proof. intros ->. unfold dd. cbn. ring. Qed.
(** ** The norm *)
Section Norm.
  Context (N g : nat).
  (** gamma = g + 1 *)
  Notation c := (cc (- INR N) (INR g + 1)).
  Lemma cc_bin k : c k = (-1) ^ k * INR (bin N k) * (INR (fact g) / INR (fact (k + g))).
  Proof using.
    induction k as [|k IH]; cbn [cc].
    - rewrite bin_0. cbn [Nat.add pow INR]. field. apply Rgt_not_eq, fact_pos.
    - rewrite IH. assert (Hb : INR (bin N (S k)) * INR (S k) = INR (bin N k) * (INR N - INR k)).
      { pose proof (bin_step N k) as Hb. apply (f_equal INR) in Hb. rewrite plus_INR, !mult_INR in Hb. lra. }
      replace (INR (bin N (S k))) with (INR (bin N k) * (INR N - INR k) / INR (S k)) by (rewrite <- Hb; field; apply not_0_INR; lia).
      cbn [Nat.add]. change (fact (S (k + g))) with (S (k + g) * fact (k + g))%nat. rewrite mult_INR, (S_INR (k + g)), plus_INR. cbn [pow]. pose proof (fact_pos (k + g)). pose proof (pos_INR k). pose proof (pos_INR g). field. repeat split; try lra. apply not_0_INR; lia.
  Qed.
  Lemma gsum_dd j : gsum c N (g + j) = INR (fact g) * dd N (fun k => rf j (INR g + 1 + INR k)).
  Proof using.
    unfold gsum, dd. rewrite scal_sum. apply sum_eq. intros k _. rewrite cc_bin. replace (k + (g + j))%nat with (j + (k + g))%nat by lia. rewrite (rf_fact (k + g) j), plus_INR. replace (INR k + INR g + 1) with (INR g + 1 + INR k) by ring. field. apply Rgt_not_eq, fact_pos.
  Qed.
  Lemma sum_last f M : (forall k, (k < M)%nat -> f k = 0) -> sum_f_R0 f M = f M.
  Proof using.
    clear. intros H. destruct M as [|M]; [reflexivity|]. cbn [sum_f_R0]. rewrite (sum_eq_R0 f M); [ring|]. intros k Hk. apply H. lia.
  Qed.
  (** the integral of x^(g+1) K^2 exp(-x) *)
  Lemma kummer_norm : sum_f_R0 (fun j => c j * gsum c N (j + (g + 1))) N = INR (fact g) ^ 2 * INR (fact N) / INR (fact (g + N)) * (INR g + 1 + 2 * INR N).
  Proof using.
    assert (Hg : forall j, gsum c N (j + (g + 1)) = INR (fact g) * dd N (fun k => rf (S j) (INR g + 1 + INR k))) by (intros j; rewrite <- gsum_dd; f_equal; lia).
    pose proof (fact_pos g) as F1. pose proof (fact_pos N) as F2. pose proof (fact_pos (g + N)) as F3.
    destruct (Nat.eq_dec N 0) as [E0|NE].
    - assert (Hs : forall f, sum_f_R0 f N = f O) by (intros f; rewrite E0; reflexivity). rewrite Hs, Hg, dd_rf_rw0 by exact E0. rewrite E0, Nat.add_0_r. cbn [cc fact INR pow]. pose proof (fact_pos g). field. lra.
    - assert (HE : exists N', N = S N') by (exists (pred N); lia). destruct HE as (N' & EN).
      assert (Hs2 : forall f, sum_f_R0 f N = sum_f_R0 f N' + f N) by (intros f; rewrite EN; reflexivity). rewrite Hs2, (sum_last _ N').
      2:{ intros k Hk. rewrite Hg, dd_rf_lt by lia. ring. }
      rewrite !Hg.
      replace (dd N (fun k => rf (S N') (INR g + 1 + INR k))) with ((-1) ^ N * INR (fact N)) by (rewrite <- EN; symmetry; apply dd_rf_eq).
      rewrite dd_rf_next. rewrite !cc_bin.
      assert (B1 : INR (bin N N) = 1).
      { clear. induction N as [|n IH]; [reflexivity|]. cbn [bin]. rewrite (bin_gt n (S n)) by lia. rewrite Nat.add_0_r. exact IH. }
      assert (B2 : INR (bin N N') = INR N).
      { pose proof (bin_step N N') as Hb. rewrite <- EN in Hb. apply (f_equal INR) in Hb. rewrite plus_INR, !mult_INR, B1 in Hb. assert (INR N = INR N' + 1) by (rewrite EN; apply S_INR). nra. }
      rewrite B1, B2. assert (Hs : (-1) ^ N = - (-1) ^ N') by (rewrite EN; cbn [pow]; ring). assert (Hq : (-1) ^ N' * (-1) ^ N' = 1) by (rewrite <- Rpow_mult_distr; replace (-1 * -1) with 1 by ring; apply pow1).
      replace (N + g)%nat with (g + N)%nat by lia. assert (Hf : INR (fact (g + N)) = (INR g + INR N) * INR (fact (N' + g))).
      { replace (g + N)%nat with (S (N' + g)) by lia. change (fact (S (N' + g))) with (S (N' + g) * fact (N' + g))%nat. rewrite mult_INR. f_equal. rewrite <- plus_INR. f_equal. lia. }
      rewrite Hf, Hs. change (fact (S N)) with (S N * fact N)%nat. rewrite mult_INR, S_INR. pose proof (fact_pos (N' + g)) as F4. assert (0 < INR N) by (apply lt_0_INR; lia). pose proof (pos_INR g).
      set (w := (-1) ^ N') in *. clearbody w. set (a := INR (fact (N' + g))) in *. set (b := INR (fact N)) in *. set (d := INR (fact g)) in *. set (n := INR N) in *. set (h := INR g) in *. clearbody a b d n h.
      transitivity (w * w * (d ^ 2 * b / ((h + n) * a) * (h + 1 + 2 * n))); [|rewrite Hq; ring]. field. repeat split; lra.
  Qed.
End Norm.
