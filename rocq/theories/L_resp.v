(** Sums of the Kubo-Bastin formula and the discrete Hilbert transform. *)
From Coq Require Import Reals Lra.
From Verif Require Import Prelude Vec Cx M_super M_sample M_par M_fft M_ana M_resp S_prop S_fft S_ana S_resp L_base L_super L_csr L_prop L_prop2 L_gersh L_fft L_dft L_kpm L_kpm2 L_tbpm L_tbpm3 L_ana L_dc L_dc2 L_dc3 P_ana.
Local Open Scope R_scope.

(** ** Derivative of the Green's function *)
Definition slope (n : nat) (e : R) : Cplx :=
  let x := acos e in Cmul (Cre (/ sin x ^ 3)) (Cmul (Ccis (INR n * x)) (cos x, - (INR n * sin x))).
Lemma acos_lim e : -1 < e < 1 -> derivable_pt_lim acos e (- / sin (acos e)).
Proof.
  intros He. apply (derive_pt_eq_1 acos e _ (derivable_pt_acos e He)). rewrite derive_pt_acos, <- sin_acos by lra. unfold Rdiv. ring.
Qed.
Lemma sin_acos_pos e : -1 < e < 1 -> 0 < sin (acos e).
Proof. intros He. rewrite sin_acos by lra. apply sqrt_lt_R0. unfold Rsqr. nra. Qed.
Lemma lim_ext f g x l : (forall y, -1 < y < 1 -> f y = g y) -> -1 < x < 1 -> derivable_pt_lim g x l -> derivable_pt_lim f x l.
Proof.
  intros E Hx H eps He. destruct (H eps He) as [d Hd].
  assert (P : 0 < Rmin d (Rmin (1 - x) (x + 1))) by (repeat apply Rmin_glb_lt; [apply cond_pos|lra|lra]).
  exists (mkposreal _ P). intros k Hk0 Hk. cbn [pos] in Hk. pose proof (Rmin_l d (Rmin (1 - x) (x + 1))). pose proof (Rmin_r d (Rmin (1 - x) (x + 1))).
  pose proof (Rmin_l (1 - x) (x + 1)). pose proof (Rmin_r (1 - x) (x + 1)). assert (- Rabs k <= k <= Rabs k) by (unfold Rabs; destruct (Rcase_abs k); lra).
  rewrite !E by lra. apply Hd; [exact Hk0|lra].
Qed.
Lemma slope_ok : green_slope slope.
Proof.
  intros n e He. pose proof (sin_acos_pos e He) as Hs. pose proof (acos_lim e He) as Ha.
  assert (Hn : derivable_pt_lim (mult_real_fct (INR n) acos) e (INR n * - / sin (acos e))) by (apply derivable_pt_lim_scal, Ha).
  assert (Hd : derivable_pt_lim (comp sin acos) e (cos (acos e) * - / sin (acos e))) by (apply derivable_pt_lim_comp; [exact Ha|apply derivable_pt_lim_sin]).
  assert (Q : forall y, -1 < y < 1 -> sqrt (1 - y * y) = comp sin acos y) by (intros y Hy; unfold comp; rewrite sin_acos by lra; reflexivity).
  split.
  - assert (K : derivable_pt_lim (comp cos (mult_real_fct (INR n) acos)) e (- sin (INR n * acos e) * (INR n * - / sin (acos e)))) by (apply derivable_pt_lim_comp; [exact Hn|apply derivable_pt_lim_cos]).
    apply (lim_ext _ (comp cos (mult_real_fct (INR n) acos) / comp sin acos)%F); [|exact He|].
    { intros y Hy. unfold green_re. rewrite Q by exact Hy. reflexivity. }
    replace (fst (slope n e)) with ((- sin (INR n * acos e) * (INR n * - / sin (acos e)) * comp sin acos e - cos (acos e) * - / sin (acos e) * comp cos (mult_real_fct (INR n) acos) e) / (comp sin acos e)²).
    + apply derivable_pt_lim_div; [exact K|exact Hd|]. unfold comp. lra.
    + unfold slope, comp, mult_real_fct, Ccis, Cmul, Cre, Rsqr. cbn [fst snd]. field. lra.
  - assert (K : derivable_pt_lim (comp sin (mult_real_fct (INR n) acos)) e (cos (INR n * acos e) * (INR n * - / sin (acos e)))) by (apply derivable_pt_lim_comp; [exact Hn|apply derivable_pt_lim_sin]).
    apply (lim_ext _ (comp sin (mult_real_fct (INR n) acos) / comp sin acos)%F); [|exact He|].
    { intros y Hy. unfold green_im. rewrite Q by exact Hy. reflexivity. }
    replace (snd (slope n e)) with ((cos (INR n * acos e) * (INR n * - / sin (acos e)) * comp sin acos e - cos (acos e) * - / sin (acos e) * comp sin (mult_real_fct (INR n) acos) e) / (comp sin acos e)²).
    + apply derivable_pt_lim_div; [exact K|exact Hd|]. unfold comp. lra.
    + unfold slope, comp, mult_real_fct, Ccis, Cmul, Cre, Rsqr. cbn [fst snd]. field. lra.
Qed.
Lemma slope_unique dG : green_slope dG -> forall n e, -1 < e < 1 -> dG n e = slope n e.
Proof.
  intros H n e He. destruct (H n e He) as [A B]. destruct (slope_ok n e He) as [A' B'].
  destruct (dG n e), (slope n e). cbn [fst snd] in *. apply f_equal2; [exact (uniqueness_limite _ _ _ _ A A')|exact (uniqueness_limite _ _ _ _ B B')].
Qed.
(** The weights of kpm.f90 *)
Lemma gamma_bastin dG x (i j : nat) : green_slope dG -> 0 < x < PI ->
  Cmul (Cre (/ sin x ^ 3)) (gamma_mn x (Z.of_nat i) (Z.of_nat j)) = Cmul (Cre (sin x)) (bastin dG i j (cos x)).
Proof.
  intros HG Hx. pose proof (sin_gt_0 x (proj1 Hx) (proj2 Hx)) as Hs. assert (He : -1 < cos x < 1).
  { pose proof (sin2_cos2 x) as H. unfold Rsqr in H. split; nra. }
  unfold bastin. rewrite !(slope_unique dG HG) by exact He. unfold delta_term, slope. rewrite acos_cos by lra.
  replace (sqrt (1 - cos x * cos x)) with (sin x). 2:{ symmetry. replace (1 - cos x * cos x) with (sin x * sin x) by (pose proof (sin2_cos2 x) as H; unfold Rsqr in H; lra). apply sqrt_square. lra. }
  unfold gamma_mn, Ccis, Cconj, Cadd, Cmul, Cre. cbn [fst snd]. rewrite <- !INR_IZR_INZ. replace (- INR i * x) with (- (INR i * x)) by ring. rewrite cos_neg, sin_neg. apply f_equal2; field; lra.
Qed.

Lemma node_in n k : (S k < n)%nat -> 0 < INR (S k) * PI / INR n < PI.
Proof.
  intros H. assert (0 < INR n) by (apply lt_0_INR; lia). assert (0 < INR (S k)) by (apply lt_0_INR; lia). assert (INR (S k) < INR n) by (apply lt_INR; lia). pose proof PI_RGT_0. split.
  - apply Rmult_lt_0_compat; [nra|apply Rinv_0_lt_compat; assumption].
  - apply (Rmult_lt_reg_r (INR n)); [assumption|]. unfold Rdiv. rewrite Rmult_assoc, Rinv_l, Rmult_1_r by lra. nra.
Qed.
Lemma cond_ok dG mu_mn nk mus resc beta ne : green_slope dG -> (1 <= ne)%nat ->
  cond_from_trace mu_mn (Z.of_nat nk) mus resc beta (Z.of_nat ne) =
  map (fun m => rsum (ne - 1) (fun k => node_width ne k * fermi beta m (resc * node ne k) *
    fst (sum_to nk (fun j => sum_to nk (fun i => Cmul (bastin dG i j (node ne k)) (mu_mn (Z.of_nat i) (Z.of_nat j))))))) mus.
Proof.
  intros HG Hne. unfold cond_from_trace. cbv zeta. apply map_ext. intros m. rewrite map_map. change (zrange ?q) with (map Z.of_nat (seq 0 q)). rewrite map_map.
  replace (Z.to_nat (Z.of_nat ne - 1)) with (ne - 1)%nat by lia. apply (sum_ext (SE := RScalar)). intros k Hk.
  assert (Hx := node_in ne k ltac:(lia)). replace (IZR (Z.of_nat k + 1) * (PI / IZR (Z.of_nat ne))) with (INR (S k) * PI / INR ne).
  2:{ rewrite plus_IZR, <- !INR_IZR_INZ, S_INR. unfold Rdiv. ring. }
  rewrite fermi_dist_eq, <- INR_IZR_INZ. unfold node_width, node. set (x := INR (S k) * PI / INR ne) in *.
  pose proof (sin_gt_0 x (proj1 Hx) (proj2 Hx)) as Hs.
  replace (sqrt (1 - cos x * cos x)) with (sin x). 2:{ symmetry. replace (1 - cos x * cos x) with (sin x * sin x) by (pose proof (sin2_cos2 x) as H; unfold Rsqr in H; lra). apply sqrt_square. lra. }
  rewrite Nat2Z.id, !map_map.
  assert (E : esum (map (fun j => esum (map (fun i => fst (Cmul (gamma_mn x i (Z.of_nat j)) (mu_mn i (Z.of_nat j)))) (map Z.of_nat (seq 0 nk)))) (seq 0 nk)) =
              sin x ^ 4 * fst (sum_to nk (fun j => sum_to nk (fun i => Cmul (bastin dG i j (cos x)) (mu_mn (Z.of_nat i) (Z.of_nat j)))))).
  { rewrite csum_parts. cbn [fst]. rewrite <- rs_mul. apply (sum_ext (SE := RScalar)). intros j _. rewrite csum_parts. cbn [fst]. rewrite <- rs_mul, map_map. apply (sum_ext (SE := RScalar)). intros i _.
    pose proof (gamma_bastin dG x i j HG Hx) as G. assert (G' : gamma_mn x (Z.of_nat i) (Z.of_nat j) = Cmul (Cre (sin x ^ 4)) (bastin dG i j (cos x))).
    { transitivity (Cmul (Cre (sin x ^ 3)) (Cmul (Cre (/ sin x ^ 3)) (gamma_mn x (Z.of_nat i) (Z.of_nat j)))).
      - ceq; field; lra.
      - rewrite G. ceq; ring. }
    rewrite G'. unfold Cmul, Cre. cbn [fst snd]. ring. }
  rewrite E. rewrite (Rmult_comm resc). field. split; [apply not_0_INR; lia|lra].
Qed.

(** ** Hilbert transform *)
Lemma fft_tab N (c : nat -> Cplx) : np_fft (tab N c) = tab N (dft (-1) N c).
Proof.
  unfold np_fft. rewrite tab_length. apply tab_ext. intros k _. unfold dft. apply sum_ext. intros j Hj. rewrite (nth_error_nth (tab N c) j s0 (tab_nth N c j Hj)). replace (- (2 * PI * INR j * INR k / INR N)) with (IZR (-1) * (2 * PI * INR j * INR k / INR N)) by ring. reflexivity.
Qed.
Lemma cos_int k : cos (PI * INR k) = (-1) ^ k /\ sin (PI * INR k) = 0.
Proof.
  induction k as [|k [A B]]; [cbn [INR pow]; rewrite Rmult_0_r, cos_0, sin_0; split; reflexivity|].
  rewrite S_INR. replace (PI * (INR k + 1)) with (PI * INR k + PI) by ring. rewrite neg_cos, neg_sin, A, B. rewrite <- tech_pow_Rmult. split; ring.
Qed.
Lemma cos_diff j m : cos (PI * (INR j - INR m)) = (-1) ^ (j + m) /\ sin (PI * (INR j - INR m)) = 0.
Proof.
  destruct (cos_int j) as [A B], (cos_int m) as [C D]. replace (PI * (INR j - INR m)) with (PI * INR j - PI * INR m) by ring. rewrite cos_minus, sin_minus, A, B, C, D, pow_add. split; ring.
Qed.
Lemma sine_sum n th : sin (th / 2) <> 0 -> rsum n (fun k => sin (INR k * th)) = (cos (th / 2) - cos (INR n * th - th / 2)) / (2 * sin (th / 2)).
Proof.
  intros H. induction n as [|n IH].
  - cbn [INR]. rewrite Rmult_0_l, Rminus_0_l, cos_neg. change (rsum 0 (fun k => sin (INR k * th))) with 0. field. exact H.
  - rewrite rs_S, IH, S_INR. replace ((INR n + 1) * th - th / 2) with (INR n * th + th / 2) by field. rewrite cos_plus, cos_minus. field. exact H.
Qed.
Lemma kernel_sum n j m : (1 <= n)%nat -> (j < 2 * n)%nat -> (m < 2 * n)%nat ->
  rsum (2 * n) (fun k => hilbert_weight (2 * n) k * sin (2 * PI * INR k * (INR j - INR m) / INR (2 * n))) =
  if Nat.eqb j m then 0 else (1 - (-1) ^ (j + m)) * (cos (PI * (INR j - INR m) / INR (2 * n)) / sin (PI * (INR j - INR m) / INR (2 * n))).
Proof.
  intros Hn Hj Hm. assert (HN : 0 < INR n) by (apply lt_0_INR; lia). pose proof (mult_INR 2 n) as HM. change (INR 2) with 2 in HM.
  set (th := PI * (INR j - INR m) / INR n).
  assert (E : rsum (2 * n) (fun k => hilbert_weight (2 * n) k * sin (2 * PI * INR k * (INR j - INR m) / INR (2 * n))) = 2 * rsum n (fun k => sin (INR k * th))).
  { replace (2 * n)%nat with (n + (1 + (n - 1)))%nat at 1 by lia.
    assert (SP : forall p q f, rsum (p + q) f = rsum p f + rsum q (fun i => f (p + i)%nat)).
    { intros p q f. induction q as [|q IH]; [rewrite Nat.add_0_r; change (rsum 0 (fun i => f (p + i)%nat)) with 0; ring|]. rewrite Nat.add_succ_r, !rs_S, IH. ring. }
    rewrite !SP. change (rsum 1 ?f) with (f 0%nat + 0). cbv beta.
    assert (EV : Nat.even (2 * n) = true) by (rewrite Nat.even_spec; exists n; reflexivity).
    assert (DV : (2 * n / 2 = n)%nat) by (rewrite Nat.mul_comm; apply Nat.div_mul; discriminate).
    assert (S1 : forall k, 2 * PI * INR k * (INR j - INR m) / INR (2 * n) = INR k * th) by (intros k; rewrite HM; unfold th; field; lra).
    assert (A : rsum n (fun i => hilbert_weight (2 * n) i * sin (2 * PI * INR i * (INR j - INR m) / INR (2 * n))) = 2 * rsum n (fun k => sin (INR k * th))).
    { rewrite <- rs_mul. apply (sum_ext (SE := RScalar)). intros k Hk. rewrite S1. unfold hilbert_weight. rewrite EV, DV. destruct (Nat.eqb_spec k 0) as [->|Hk0].
      - cbn [orb INR]. rewrite Rmult_0_l, sin_0. ring.
      - destruct (Nat.eqb_spec k n) as [E|_]; [lia|]. cbn [orb]. destruct (Nat.ltb_spec k n) as [_|E]; [reflexivity|lia]. }
    assert (B : hilbert_weight (2 * n) (n + 0) * sin (2 * PI * INR (n + 0) * (INR j - INR m) / INR (2 * n)) = 0).
    { rewrite S1. replace (INR (n + 0) * th) with (PI * (INR j - INR m)) by (rewrite Nat.add_0_r; unfold th; field; lra). rewrite (proj2 (cos_diff j m)). ring. }
    assert (C : rsum (n - 1) (fun i => hilbert_weight (2 * n) (n + (1 + i)) * sin (2 * PI * INR (n + (1 + i)) * (INR j - INR m) / INR (2 * n))) = 0).
    { transitivity (rsum (n - 1) (fun _ => 0)); [|rewrite rs_const; ring]. apply (sum_ext (SE := RScalar)). intros k Hk. unfold hilbert_weight. rewrite EV, DV. destruct (Nat.eqb_spec (n + (1 + k)) 0) as [E|_]; [lia|]. destruct (Nat.eqb_spec (n + (1 + k)) n) as [E|_]; [lia|]. cbn [orb]. destruct (Nat.ltb_spec (n + (1 + k)) n) as [E|_]; [lia|]. ring. }
    rewrite A, B, C. ring. }
  rewrite E. destruct (Nat.eqb_spec j m) as [->|Hne].
  - replace th with 0 by (unfold th; field; lra). transitivity (2 * rsum n (fun _ => 0)); [|rewrite rs_const; ring]. f_equal. apply (sum_ext (SE := RScalar)). intros k _. rewrite Rmult_0_r, sin_0. reflexivity.
  - assert (T2 : th / 2 = PI * (INR j - INR m) / INR (2 * n)) by (rewrite HM; unfold th; field; lra).
    assert (Hs : sin (th / 2) <> 0).
    { pose proof PI_RGT_0 as HP. assert (B : 0 < Rabs (INR j - INR m) < 2 * INR n).
      { assert (INR j < 2 * INR n) by (rewrite <- HM; apply lt_INR; lia). assert (INR m < 2 * INR n) by (rewrite <- HM; apply lt_INR; lia). pose proof (pos_INR j). pose proof (pos_INR m).
        assert (INR j <> INR m) by (apply not_INR; exact Hne). unfold Rabs. destruct (Rcase_abs (INR j - INR m)); split; lra. }
      assert (K : forall d, 0 < d < 2 * INR n -> 0 < sin (PI * d / (2 * INR n))).
      { intros d Hd. apply sin_gt_0.
        - apply Rmult_lt_0_compat; [nra|apply Rinv_0_lt_compat; lra].
        - apply (Rmult_lt_reg_r (2 * INR n)); [lra|]. unfold Rdiv. rewrite Rmult_assoc, Rinv_l, Rmult_1_r by lra. nra. }
      rewrite T2, HM. unfold Rabs in B. destruct (Rcase_abs (INR j - INR m)) as [Hneg|Hpos].
      - replace (PI * (INR j - INR m) / (2 * INR n)) with (- (PI * - (INR j - INR m) / (2 * INR n))) by (field; lra). rewrite sin_neg. specialize (K _ B). lra.
      - specialize (K _ B). lra. }
    rewrite sine_sum by exact Hs. replace (INR n * th - th / 2) with (PI * (INR j - INR m) - th / 2) by (unfold th; field; lra).
    destruct (cos_diff j m) as [A B]. rewrite cos_minus, A, B, <- T2. field. exact Hs.
Qed.
Lemma hilbert_ok n (x : nat -> R) : (1 <= n)%nat -> exists y, hilbert (tab (2 * n) x) = Ok (tab (2 * n) y) /\ forall j, (j < 2 * n)%nat -> snd (y j) = hilbert_at (2 * n) x j.
Proof.
  intros Hn. unfold hilbert. rewrite tab_length. destruct (Nat.eqb_spec (2 * n) 0) as [E|_]; [lia|]. cbv zeta. rewrite map_tab, fft_tab.
  change (map (hilbert_weight (2 * n)) (seq 0 (2 * n))) with (tab (2 * n) (hilbert_weight (2 * n))). rewrite combine_tab, map_tab. cbn [fst snd]. rewrite ifft_tab. eexists. split; [reflexivity|].
  intros j Hj. cbv beta. unfold hilbert_at. assert (HN : 0 < INR (2 * n)) by (apply lt_0_INR; lia).
  transitivity (/ INR (2 * n) * snd (dft 1 (2 * n) (fun k => Cmul (dft (-1) (2 * n) (fun m => Cre (x m)) k) (Cre (hilbert_weight (2 * n) k))) j)); [unfold Cmul, Cre; cbn [fst snd]; ring|]. f_equal.
  unfold dft at 1.
  transitivity (snd (sum_to (2 * n) (fun k => sum_to (2 * n) (fun m => Cmul (Cre (x m * hilbert_weight (2 * n) k)) (Ccis (2 * PI * INR k * (INR j - INR m) / INR (2 * n))))))).
  - f_equal. apply sum_ext. intros k _. unfold dft. change (@Cmul) with (@smul Cplx CScalar). rewrite <- !(sum_mul_r CLaws). apply sum_ext. intros m _.
    replace (2 * PI * INR k * (INR j - INR m) / INR (2 * n)) with (-1 * (2 * PI * INR m * INR k / INR (2 * n)) + 1 * (2 * PI * INR k * INR j / INR (2 * n))) by (field; lra).
    rewrite Ccis_add. change (@smul Cplx CScalar) with Cmul. ceq; ring.
  - rewrite (sum_swap CLaws), csum_parts. cbn [snd]. apply (sum_ext (SE := RScalar)). intros m Hm. rewrite csum_parts. cbn [snd].
    transitivity (x m * rsum (2 * n) (fun k => hilbert_weight (2 * n) k * sin (2 * PI * INR k * (INR j - INR m) / INR (2 * n)))).
    + rewrite <- rs_mul. apply (sum_ext (SE := RScalar)). intros k _. unfold Cmul, Cre, Ccis. cbn [fst snd]. ring.
    + rewrite kernel_sum by assumption. destruct (Nat.eqb j m); [ring|reflexivity].
Qed.
Definition two_fill (n : nat) (f : nat -> R) (k m : nat) : R :=
  if (n <=? m)%nat && (m <? n + k)%nat then f (m - n)%nat else if (n <? m + k)%nat && (m <=? n)%nat then f (n - m)%nat else 0.
Lemma ac_imag_ok n (f : nat -> R) : (1 <= n)%nat -> ac_imag (Z.of_nat n) (tab n f) = Ok (tab n (fun i => hilbert_at (2 * n) (even_side n f) (n + i))).
Proof.
  intros Hn. unfold ac_imag. replace (Z.to_nat (2 * Z.of_nat n)) with (2 * n)%nat by lia. rewrite repeat_tab.
  replace (0, Z.of_nat n)%Z with (Z.of_nat 0, Z.of_nat (0 + n)) by reflexivity. rewrite span_from.
  assert (K : forall k, (k <= n)%nat -> loop (fun s i => bind (rd (tab n f) i) (fun v => bind (wr s (Z.of_nat n + i) v) (fun s => wr s (Z.of_nat n - i) v)))
            (map Z.of_nat (seq 0 k)) (tab (2 * n) (fun _ => 0)) = Ok (tab (2 * n) (two_fill n f k))).
  { induction k as [|k IH]; intros Hk.
    - cbn [seq map]. rewrite loop_nil. f_equal. apply tab_ext. intros m _. unfold two_fill. destruct (Nat.leb_spec n m), (Nat.ltb_spec m (n + 0)), (Nat.ltb_spec n (m + 0)), (Nat.leb_spec m n); try lia; reflexivity.
    - rewrite seq_S, map_app, loop_app, IH by lia. cbn [bind map Nat.add]. rewrite loop_cons. cbv beta. rewrite rd_tab by lia. cbn [bind]. rewrite wr_tabz by lia. cbn [bind]. rewrite wr_tabz by lia. cbn [bind]. rewrite loop_nil. f_equal. apply tab_ext. intros m Hm.
      unfold two_fill. destruct (Z.eqb_spec (Z.of_nat m) (Z.of_nat n - Z.of_nat k)) as [E1|E1], (Z.eqb_spec (Z.of_nat m) (Z.of_nat n + Z.of_nat k)) as [E2|E2];
      destruct (Nat.leb_spec n m), (Nat.ltb_spec m (n + S k)), (Nat.ltb_spec m (n + k)), (Nat.ltb_spec n (m + S k)), (Nat.ltb_spec n (m + k)), (Nat.leb_spec m n); try lia; cbn [andb]; try reflexivity; f_equal; lia. }
  rewrite (K n (le_n n)). cbn [bind]. rewrite (tab_ext (2 * n) (two_fill n f n) (even_side n f)).
  2:{ intros m Hm. unfold two_fill, even_side. destruct (Nat.eqb_spec m 0), (Nat.leb_spec n m), (Nat.ltb_spec m (n + n)), (Nat.ltb_spec n (m + n)), (Nat.leb_spec m n); try lia; cbn [andb]; reflexivity. }
  destruct (hilbert_ok n (even_side n f) Hn) as (y & -> & Hy). cbn [bind]. rewrite Nat2Z.id, map_tab, slice_tab by lia. f_equal. apply tab_ext. intros i Hi. apply Hy. lia.
Qed.
Lemma sum_odd (N : nat) (f : nat -> R) : (forall m, (m < N)%nat -> f (N - 1 - m)%nat = - f m) -> rsum N f = 0.
Proof.
  intros H. assert (E : rsum N f = - rsum N f); [|lra]. rewrite rs_rev at 1. transitivity (rsum N (fun i => -1 * f i)); [|rewrite rs_mul; ring]. apply (sum_ext (SE := RScalar)). intros m Hm. rewrite H by exact Hm. ring.
Qed.
(** The transform of the even continuation vanishes at frequency zero. *)
Lemma hilbert_center n f : (1 <= n)%nat -> hilbert_at (2 * n) (even_side n f) n = 0.
Proof.
  intros Hn. unfold hilbert_at. set (g := fun m => _). replace (sum_to (2 * n) g) with 0; [ring|]. symmetry. replace (2 * n)%nat with (S (2 * n - 1)) by lia. change (rsum (S (2 * n - 1)) g = 0). rewrite rs_shift.
  assert (G0 : g 0%nat = 0). { unfold g, even_side. destruct (Nat.eqb n 0); [reflexivity|]. cbn [Nat.eqb]. ring. }
  rewrite G0, Rplus_0_l. apply sum_odd. intros m Hm. unfold g. assert (HN : 0 < INR n) by (apply lt_0_INR; lia). pose proof (mult_INR 2 n) as HM. change (INR 2) with 2 in HM.
  destruct (Nat.eqb_spec n (S m)) as [E1|E1], (Nat.eqb_spec n (S (2 * n - 1 - 1 - m))) as [E2|E2]; try lia; [ring|].
  assert (ES : even_side n f (S (2 * n - 1 - 1 - m)) = even_side n f (S m)).
  { unfold even_side. cbn [Nat.eqb]. destruct (Nat.leb_spec n (S (2 * n - 1 - 1 - m))), (Nat.leb_spec n (S m)); try lia; f_equal; lia. }
  rewrite ES. assert (EI : INR n - INR (S (2 * n - 1 - 1 - m)) = - (INR n - INR (S m))).
  { replace (S (2 * n - 1 - 1 - m)) with (2 * n - S m)%nat by lia. rewrite minus_INR, HM by lia. ring. }
  rewrite EI. replace (PI * - (INR n - INR (S m)) / INR (2 * n)) with (- (PI * (INR n - INR (S m)) / INR (2 * n))) by (unfold Rdiv; ring). rewrite cos_neg, sin_neg.
  replace ((-1) ^ (n + S (2 * n - 1 - 1 - m))) with ((-1) ^ (n + S m)).
  - set (s := sin _). set (c := cos _). unfold Rdiv. destruct (Req_dec s 0) as [->|Hs]; [rewrite Ropp_0, Rinv_0; ring|]. field. exact Hs.
  - destruct (cos_diff n (S m)) as [A _]. destruct (cos_diff n (S (2 * n - 1 - 1 - m))) as [B _]. rewrite EI in B. rewrite <- A, <- B. replace (PI * - (INR n - INR (S m))) with (- (PI * (INR n - INR (S m)))) by ring. rewrite cos_neg. reflexivity.
Qed.
