(** Occupations (C51), weights and traces of kernel polynomial moments (C55),
    expansion of the Fermi operator (C64). *)
From Coq Require Import Reals Lra.
From Verif Require Import Prelude Vec Cx M_super M_sample M_prop M_fft M_ana S_prop S_fft S_ana L_base L_super L_csr L_prop L_prop2 L_gersh L_fft L_dft L_tbpm3 L_kpm L_kpm2 L_kpm3 P_prop P_fft.
Local Open Scope R_scope.

(** ** C51 *)
Theorem C51_fermi : forall beta mu e : R, Fermi_dist beta mu e = 1 / (1 + exp (beta * (e - mu))) /\ 0 < Fermi_dist beta mu e < 1.
Proof. intros beta mu e. rewrite fermi_dist_eq. split; [reflexivity|apply fermi_range]. Qed.
Print Assumptions C51_fermi.
Theorem C51_decreasing : forall beta mu e1 e2 : R, 0 < beta -> e1 < e2 -> Fermi_dist beta mu e2 < Fermi_dist beta mu e1.
Proof. intros beta mu e1 e2. rewrite !fermi_dist_eq. apply fermi_decreasing. Qed.
Print Assumptions C51_decreasing.
Theorem C51_symmetric : forall beta mu d : R, Fermi_dist beta mu (mu + d) + Fermi_dist beta mu (mu - d) = 1 /\ Fermi_dist beta mu mu = 1 / 2.
Proof.
  intros beta mu d. rewrite !fermi_dist_eq. split; [apply fermi_symmetric|]. pose proof (fermi_symmetric beta mu 0) as H. rewrite Rplus_0_r, Rminus_0_r in H. lra.
Qed.
Print Assumptions C51_symmetric.
(** Both branches are met. *)
Example C51_example : Fermi_dist 1 0 0 = 1 / 2 /\ Fermi_dist 1 0 (-1) = 1 / (1 + exp (-1)) /\ Fermi_dist 2 1 2 = exp (-2) / (1 + exp (-2)).
Proof.
  split; [apply (C51_symmetric 1 0 0)|]. unfold Fermi_dist. split.
  - destruct (Rle_dec 0 (-1)) as [H|_]; [lra|]. do 3 f_equal. lra.
  - destruct (Rle_dec 1 2) as [_|H]; [|lra]. replace (2 * (1 - 2)) with (-2) by lra. reflexivity.
Qed.

(** ** C55 *)
Theorem C55_weights_hermitian : forall (x : R) (i j : Z), gamma_mn x i j = Cconj (gamma_mn x j i).
Proof.
  intros x i j. unfold gamma_mn, Ccis, Cconj, Cadd, Cmul, Cre. cbn [fst snd]. replace (- IZR i * x) with (- (IZR i * x)) by ring. replace (- IZR j * x) with (- (IZR j * x)) by ring.
  rewrite !cos_neg, !sin_neg. apply f_equal2; ring.
Qed.
Print Assumptions C55_weights_hermitian.

(** With the full trace in place of the average over random states the sum of
    weights and moments is real, so nothing is lost in taking the real part. *)
Theorem C55_trace_real : forall (n : nat) (h jx jd : nat -> nat -> Cplx) (g : nat -> R) (nk : nat) (x : R),
  herm Cconj n h -> herm Cconj n jx -> herm Cconj n jd ->
  let mu (i j : nat) := Cmul (Cre (g i * g j)) (trace Cconj n (fun v => mv n jx (cheb n h i (mv n jd (cheb n h j v))))) in
  let w (i j : nat) := gamma_mn x (Z.of_nat i) (Z.of_nat j) in
  (forall i j, mu i j = Cconj (mu j i)) /\
  sum_to nk (fun j => sum_to nk (fun i => Cmul (w i j) (mu i j))) =
  Cre (sum_to nk (fun j => sum_to nk (fun i => fst (Cmul (w i j) (mu i j))))).
Proof.
  intros n h jx jd g nk x Hh Hx Hd mu w.
  assert (Hmu : forall i j, mu i j = Cconj (mu j i)).
  { intros i j. unfold mu. rewrite (conj_mul Cconj CStar), (moments_hermitian CLaws Cconj CStar) by assumption. change (@smul Cplx CScalar) with Cmul. replace (Cconj (Cre (g j * g i))) with (Cre (g i * g j)); [reflexivity|]. ceq; ring. }
  split; [exact Hmu|].
  assert (K : sum_to nk (fun j => sum_to nk (fun i => Cmul (w i j) (mu i j))) = Cconj (sum_to nk (fun j => sum_to nk (fun i => Cmul (w i j) (mu i j))))).
  { rewrite (conj_sum CLaws Cconj CStar), (sum_swap CLaws). apply sum_ext. intros j _. rewrite (conj_sum CLaws Cconj CStar). apply sum_ext. intros i _.
    rewrite (conj_mul Cconj CStar). unfold w. rewrite <- (C55_weights_hermitian x), <- Hmu. reflexivity. }
  assert (Fst : forall (f : nat -> nat -> Cplx), fst (sum_to nk (fun j => sum_to nk (f j))) = sum_to nk (fun j => sum_to nk (fun i => fst (f j i)))).
  { intros f. rewrite csum_parts. cbn [fst]. apply sum_ext. intros j _. rewrite csum_parts. reflexivity. }
  rewrite <- (Fst (fun j i => Cmul (w i j) (mu i j))). apply (f_equal snd) in K. destruct (sum_to nk (fun j => sum_to nk (fun i => Cmul (w i j) (mu i j)))) as [a b]. cbn [Cconj snd fst] in *. unfold Cre. apply f_equal2; lra.
Qed.
Print Assumptions C55_trace_real.
(** The weights are not real, and neither are the moments in general: a two-site
    current in directions that do not commute. *)
Definition pauli_x (i j : nat) : Cplx := if Nat.eqb i j then s0 else s1.
Definition pauli_z (i j : nat) : Cplx := if Nat.eqb i j then (if Nat.eqb i 0 then s1 else sopp s1) else s0.
Definition pauli_y (i j : nat) : Cplx := if Nat.eqb i j then s0 else if Nat.eqb i 0 then (0, -1) else (0, 1).
Example C55_trace_example :
  herm Cconj 2 pauli_z /\ herm Cconj 2 pauli_x /\ herm Cconj 2 pauli_y /\
  snd (trace Cconj 2 (fun v => mv 2 pauli_x (cheb 2 pauli_z 0 (mv 2 pauli_y (cheb 2 pauli_z 1 v))))) <> 0 /\
  snd (gamma_mn (PI / 2) 0 2) <> 0.
Proof.
  assert (Hz : herm Cconj 2 pauli_z) by (intros [|[|i]] [|[|j]] Hi Hj; try lia; unfold pauli_z, Cconj; cbn [Nat.eqb]; apply Ceq; cbn; lra).
  assert (Hx : herm Cconj 2 pauli_x) by (intros [|[|i]] [|[|j]] Hi Hj; try lia; unfold pauli_x, Cconj; cbn [Nat.eqb]; apply Ceq; cbn; lra).
  assert (Hy : herm Cconj 2 pauli_y) by (intros [|[|i]] [|[|j]] Hi Hj; try lia; unfold pauli_y, Cconj; cbn [Nat.eqb]; apply Ceq; cbn; lra).
  repeat split; try assumption.
  - unfold trace, inner, mv, cheb, sum_to, unit_vec, pauli_x, pauli_y, pauli_z, Cconj, mv, sum_to. cbn. unfold Cadd, Cmul, Copp. cbn. lra.
  - unfold gamma_mn, Cadd, Cmul, Ccis, Cre. cbn [fst snd]. rewrite !Rmult_0_l. replace (2 * (PI / 2)) with PI by lra. replace (- 0 * (PI / 2)) with 0 by ring. rewrite cos_PI2, sin_PI2, cos_0, sin_0, cos_PI, sin_PI. lra.
Qed.

(** ** C64 *)
(** The list of coefficients: grid coefficients of the occupation (or of one
    minus it), cut at the first pair of small values. *)
Theorem C64_coefficients : forall (junk : nat -> R) (p : nat) (beta mu eps : R) (om : bool),
  let n := (2 ^ p)%nat in
  let f e := if om then 1 - fermi beta mu e else fermi beta mu e in
  let c := map (grid_coef n f) (seq 0 n) in
  exists k, fermi_cheb_coef junk (Z.of_nat (2 ^ S p)) beta mu om eps = Ok (firstn k c) /\ cut_at eps c k.
Proof. intros junk p beta mu eps om. exact (fermi_coef_ok junk p beta mu om eps). Qed.
Print Assumptions C64_coefficients.

Lemma cut_at_fun eps c k k' : cut_at eps c k -> cut_at eps c k' -> k = k'.
Proof.
  intros [(Hk & Hn)|(i & Hk & Hp & Hf)] [(Hk' & Hn')|(i' & Hk' & Hp' & Hf')]; subst.
  - reflexivity.
  - exfalso. exact (Hn i' Hp').
  - exfalso. exact (Hn' i Hp).
  - destruct (Nat.lt_trichotomy i i') as [H|[->|H]]; [exfalso; exact (Hf' i H Hp)|reflexivity|exfalso; exact (Hf i' H Hp')].
Qed.
(** The last comparison reads memory that was never set; its content has no
    effect. *)
Theorem C64_unset_memory : forall (junk junk' : nat -> R) (p : nat) (beta mu eps : R) (om : bool),
  fermi_cheb_coef junk (Z.of_nat (2 ^ S p)) beta mu om eps = fermi_cheb_coef junk' (Z.of_nat (2 ^ S p)) beta mu om eps.
Proof.
  intros junk junk' p beta mu eps om. destruct (fermi_coef_ok junk p beta mu om eps) as (k & Hk & Hc). destruct (fermi_coef_ok junk' p beta mu om eps) as (k' & Hk' & Hc').
  change (2 ^ S p)%nat with (2 * 2 ^ p)%nat. rewrite Hk, Hk', (cut_at_fun _ _ _ _ Hc Hc'). reflexivity.
Qed.
Print Assumptions C64_unset_memory.

Lemma cut_at_none eps c k : eps <= 0 -> cut_at eps c k -> k = length c.
Proof. intros He [(Hk & _)|(i & _ & (_ & H & _) & _)]; [exact Hk|]. pose proof (Rabs_pos (nth i c 0)). lra. Qed.
Lemma cheb_series_tab n (g : nat -> R) t : cheb_series (tab n g) t = rsum n (fun k => g k * cos (INR k * t)).
Proof.
  unfold cheb_series. rewrite tab_length. apply sum_ext. intros k Hk. f_equal. apply nth_error_nth. apply tab_nth. exact Hk.
Qed.
(** Without cutting the series is an occupation everywhere on the spectrum, and
    the two series add up to one: the coefficients of F and 1 - F are those of
    complementary operators. *)
Theorem C64_occupation : forall (junk : nat -> R) (p : nat) (beta mu eps : R), eps <= 0 ->
  exists cF cQ, fermi_cheb_coef junk (Z.of_nat (2 ^ S p)) beta mu false eps = Ok cF /\
                fermi_cheb_coef junk (Z.of_nat (2 ^ S p)) beta mu true eps = Ok cQ /\
  length cF = (2 ^ p)%nat /\ length cQ = (2 ^ p)%nat /\
  forall theta : R, 0 <= cheb_series cF theta <= 1 /\ 0 <= cheb_series cQ theta <= 1 /\ cheb_series cF theta + cheb_series cQ theta = 1.
Proof.
  intros junk p beta mu eps He. destruct (fermi_coef_ok junk p beta mu false eps) as (k & Hk & Hc). destruct (fermi_coef_ok junk p beta mu true eps) as (k' & Hk' & Hc').
  apply (cut_at_none eps _ _ He) in Hc. apply (cut_at_none eps _ _ He) in Hc'. subst k k'. rewrite firstn_all in Hk. rewrite firstn_all in Hk'. set (n := (2 ^ p)%nat) in *.
  assert (Hn : (1 <= n)%nat) by (pose proof (pow2_pos p); unfold n; lia).
  exists (tab n (grid_coef n (occ false beta mu))), (tab n (grid_coef n (occ true beta mu))). split; [exact Hk|]. split; [exact Hk'|]. rewrite !tab_length. split; [reflexivity|]. split; [reflexivity|].
  intros t. rewrite !cheb_series_tab.
  assert (B : forall om, 0 <= rsum n (fun k => grid_coef n (occ om beta mu) k * cos (INR k * t)) <= 1).
  { intros om. replace (rsum n (fun k => grid_coef n (occ om beta mu) k * cos (INR k * t))) with (rsum n (fun k => fcoef n (fun j => occ om beta mu (cos (2 * PI / INR (2 * n) * INR j))) k * cos (INR k * t))).
    - apply series_bounds; [exact Hn|]. intros j _. pose proof (fermi_range beta mu (cos (2 * PI / INR (2 * n) * INR j))). unfold occ. destruct om; lra.
    - apply sum_ext. intros i _. rewrite fcoef_grid by exact Hn. reflexivity. }
  split; [apply B|]. split; [apply B|]. rewrite <- rs_add.
  transitivity (rsum n (fun k => if Nat.eqb k 0 then cos (INR k * t) else 0)).
  - apply sum_ext. intros i Hi. rewrite <- !fcoef_grid by exact Hn. rewrite <- Rmult_plus_distr_r. change (fun j => occ true beta mu (cos (2 * PI / INR (2 * n) * INR j))) with (fun j => 1 - occ false beta mu (cos (2 * PI / INR (2 * n) * INR j))).
    rewrite fcoef_complement by assumption. destruct (Nat.eqb i 0); ring.
  - transitivity (cos (INR 0 * t)); [exact (sum_one RLaws n (fun k => cos (INR k * t)) 0 ltac:(lia))|]. change (INR 0) with 0. rewrite Rmult_0_l. apply cos_0.
Qed.
Print Assumptions C64_occupation.

Lemma cheb_val_cos t k : @cheb_val Cplx CScalar (Cre (cos t)) k = Cre (cos (INR k * t)).
Proof.
  assert (H : cheb_val (Cre (cos t)) k = Cre (cos (INR k * t)) /\ cheb_val (Cre (cos t)) (S k) = Cre (cos (INR (S k) * t))); [|exact (proj1 H)].
  induction k as [|k [IH1 IH2]].
  - split; cbn [cheb_val]; [change (INR 0) with 0; rewrite Rmult_0_l, cos_0|change (INR 1) with 1; rewrite Rmult_1_l]; reflexivity.
  - split; [exact IH2|]. change (cheb_val (Cre (cos t)) (S (S k))) with (ssub (smul (sZ 2) (smul (Cre (cos t)) (cheb_val (Cre (cos t)) (S k)))) (cheb_val (Cre (cos t)) k)). rewrite IH1, IH2.
    unfold Cre. cbn [ssub smul sZ CScalar]. unfold Csub, Cmul, Cre. cbn [fst snd]. rewrite !S_INR. apply f_equal2; [|ring].
    replace ((INR k + 1 + 1) * t) with ((INR k + 1) * t + t) by ring. replace (INR k * t) with ((INR k + 1) * t - t) by ring. rewrite cos_plus, cos_minus. ring.
Qed.
(** The operator: an eigenvector of the rescaled Hamiltonian, eigenvalue
    cos theta, is multiplied by an occupation between zero and one, and by one
    minus it for the other series. *)
Theorem C64_operator : forall (junk : nat -> R) (p : nat) (beta mu eps : R) (m : spm Cplx) (n : nat) (x : nat -> Cplx) (xl : list Cplx) (theta : R),
  eps <= 0 -> (2 <= p)%nat -> csr_ok n (p_indptr m) (p_indices m) (p_values m) -> holds n x xl ->
  (forall i, (i < n)%nat -> mv n (cell (p_indptr m) (p_indices m) (p_values m)) x i = Cmul (Cre (cos theta)) (x i)) ->
  exists cF cQ rF rQ occ, fermi_cheb_coef junk (Z.of_nat (2 ^ S p)) beta mu false eps = Ok cF /\
                fermi_cheb_coef junk (Z.of_nat (2 ^ S p)) beta mu true eps = Ok cQ /\
                fermi_op m (map Cre cF) xl = Ok rF /\ fermi_op m (map Cre cQ) xl = Ok rQ /\ 0 <= occ <= 1 /\
                holds n (fun i => Cmul (Cre occ) (x i)) rF /\ holds n (fun i => Cmul (Cre (1 - occ)) (x i)) rQ.
Proof.
  intros junk p beta mu eps m n x xl theta He Hp Hwf Hx Heig. destruct (C64_occupation junk p beta mu eps He) as (cF & cQ & HF & HQ & LF & LQ & Ht). destruct (Ht theta) as (B & _ & Hs).
  assert (H4 : (2 ^ 2 <= 2 ^ p)%nat) by (apply Nat.pow_le_mono_r; lia). cbn in H4.
  assert (K : forall c, length c = (2 ^ p)%nat -> exists r, fermi_op m (map Cre c) xl = Ok r /\ holds n (fun i => Cmul (Cre (cheb_series c theta)) (x i)) r).
  { intros c Lc. destruct (proj2 (C39_eigenvector Cplx CScalar CLaws (0, 1) ltac:(cbn [smul sopp CScalar]; unfold Cmul, Copp; cbn; apply f_equal2; ring) m n (map Cre c) x xl true (Cre (cos theta)) Hwf Hx ltac:(rewrite map_length; lia) Heig)) as (r & Hr & Hh).
    exists r. split; [exact Hr|]. assert (E : sum_to (length (map Cre c)) (fun k => smul (nth k (map Cre c) s0) (cheb_val (Cre (cos theta)) k)) = Cre (cheb_series c theta)).
    { rewrite map_length, csum_parts. unfold cheb_series. match goal with |- _ = Cre ?v => change (Cre v) with (v, 0) end. apply f_equal2.
      - apply sum_ext. intros k _. change (@s0 Cplx CScalar) with (Cre 0). rewrite map_nth, cheb_val_cos. cbn. ring.
      - transitivity (rsum (length c) (fun _ => 0)); [|rewrite rs_const; ring]. apply sum_ext. intros k _. change (@s0 Cplx CScalar) with (Cre 0). rewrite map_nth, cheb_val_cos. cbn. ring. }
    rewrite E in Hh. exact Hh. }
  destruct (K cF LF) as (rF & HrF & HhF). destruct (K cQ LQ) as (rQ & HrQ & HhQ). exists cF, cQ, rF, rQ, (cheb_series cF theta). repeat split; try assumption; try apply HhF; try apply B.
  - apply HhQ.
  - replace (1 - cheb_series cF theta) with (cheb_series cQ theta) by lra. apply HhQ.
Qed.
Print Assumptions C64_operator.
(** An eigenvector of energy cos(pi / 2) = 0. *)
Definition spm_flat : spm Cplx := {| p_indptr := [0; 1; 2]%Z; p_indices := [0; 1]%Z; p_values := [s0; s0] |}.
Example C64_operator_example : csr_ok 2 (p_indptr spm_flat) (p_indices spm_flat) (p_values spm_flat) /\
  forall i, (i < 2)%nat -> mv 2 (cell (p_indptr spm_flat) (p_indices spm_flat) (p_values spm_flat)) (fun _ => s1) i = Cmul (Cre (cos (PI / 2))) s1.
Proof.
  split.
  - split; [reflexivity|]. split; [reflexivity|]. split.
    + intros i a b. do 3 (destruct i as [|i]; [cbn; intros [= <-] [= <-]; lia|]). cbn. destruct i; cbn; discriminate.
    + intros k Hk. cbn in Hk. intuition subst; lia.
  - rewrite cos_PI2. intros [|[|i]] Hi; try lia; unfold mv, cell, sum_to, spm_flat; apply Ceq; cbn; change (Pos.to_nat 1) with 1%nat; change (Pos.to_nat 2) with 2%nat; cbn; ring.
Qed.

(** At infinite temperature two coefficients are left, one fewer than the kernel
    that applies the series reads (see C39_short_refuted). *)
Theorem C64_short_refuted : forall (junk : nat -> R) (p : nat) (mu eps : R) (om : bool), (2 <= p)%nat -> 0 < eps <= / 2 ->
  exists c, fermi_cheb_coef junk (Z.of_nat (2 ^ S p)) 0 mu om eps = Ok c /\ length c = 2%nat.
Proof.
  intros junk p mu eps om Hp He. destruct (fermi_coef_ok junk p 0 mu om eps) as (k & Hk & Hc). cbv zeta in *. set (n := (2 ^ p)%nat) in *.
  assert (H4 : (4 <= n)%nat) by (assert (2 ^ 2 <= 2 ^ p)%nat by (apply Nat.pow_le_mono_r; lia); unfold n; cbn in *; lia).
  eexists. split; [exact Hk|]. assert (Hv : forall e, occ om 0 mu e = / 2).
  { intros e. unfold occ, fermi. rewrite Rmult_0_l, exp_0. destruct om; lra. }
  assert (HN : 0 < INR n) by (apply lt_0_INR; lia).
  assert (Hg : forall i, (i < n)%nat -> nth i (tab n (grid_coef n (occ om 0 mu))) 0 = if Nat.eqb i 0 then / 2 else 0).
  { intros i Hi. rewrite (nth_error_nth (tab n (grid_coef n (occ om 0 mu))) i 0 (tab_nth n _ i Hi)). rewrite <- fcoef_grid by lia.
    assert (H2 : fcoef n (fun j => 1 - occ om 0 mu (cos (2 * PI / INR (2 * n) * INR j))) i = fcoef n (fun j => occ om 0 mu (cos (2 * PI / INR (2 * n) * INR j))) i).
    { unfold fcoef. do 2 f_equal. apply sum_ext. intros j _. rewrite Hv. lra. }
    pose proof (fcoef_complement n (fun j => occ om 0 mu (cos (2 * PI / INR (2 * n) * INR j))) i ltac:(lia) Hi) as H. cbv beta in H; rewrite H2 in H. destruct (Nat.eqb i 0); lra. }
  assert (K : cut_at eps (tab n (grid_coef n (occ om 0 mu))) 2).
  { right. exists 1%nat. split; [reflexivity|]. split.
    - split; [rewrite tab_length; lia|]. rewrite !Hg by lia. cbn [Nat.eqb]. rewrite Rabs_R0. lra.
    - intros [|j] Hj (_ & H & _); [|lia]. rewrite Hg in H by lia. cbn [Nat.eqb] in H. rewrite Rabs_right in H by lra. lra. }
  rewrite (cut_at_fun _ _ _ _ Hc K), firstn_length, tab_length. lia.
Qed.
Print Assumptions C64_short_refuted.
